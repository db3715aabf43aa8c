(** * C43: generated data with deletions *)
Require Import List Arith Lia ZArith Bool Permutation.
Import ListNotations.
From Verif Require Import Prelude BytesModel FlagModel Coins TreeModel TreeDelModel TreeSpec TreeDelSpec TreeDelProofs AddSpec DelSpec DelProofs PsiSpec WireModel WireProofs CsvModel CsvSpec CsvProofs PropsCsv PropsData DataModel DataSpec DataProofs DataDelProofs.
Local Open Scope Z_scope.

Lemma rows_to_dataset l : rows (to_dataset l) = l.
Proof. unfold rows, to_dataset. cbn. induction l as [|[e v] l IH]; auto. cbn. rewrite IH. auto. Qed.
Lemma map_rows_to_dataset l : map rows (map to_dataset l) = l.
Proof. induction l as [|x l IH]; auto. cbn [map]. rewrite rows_to_dataset, IH. auto. Qed.
Lemma Forall_perm_app {P : row -> Prop} u a b : Permutation u (a ++ b) -> Forall P u -> Forall P a /\ Forall P b.
Proof. intros H F. apply Forall_app. eapply Permutation_Forall; eauto. Qed.
Lemma value_ok_nonneg f max r : set_element (fst r) -> value_ok f max r -> 0 <= snd r.
Proof.
  intros S. destruct f; cbn [value_ok]; try lia; try tauto. unfold stoll. destruct (parse_number (fst r)) as [[b v]|] eqn:E; [|discriminate].
  assert (B : b = false /\ 0 <= v).
  { destruct S as (L & F & _). destruct (fst r) as [|c s]; [discriminate|]. apply Forall_cons_iff in F as (C & F).
    assert (D : is_digit c = true) by (unfold is_digit; apply andb_true_iff; split; apply Z.leb_le; lia). destruct (digit_facts c D) as (S1 & _ & _ & _ & _ & M & P).
    unfold parse_number in E. cbn [drop_spaces] in E. rewrite S1 in E. cbn [parse_sign] in E. apply Z.eqb_neq in M, P. rewrite M, P, D in E. apply (f_equal (fun o => match o with Some x => x | None => (true, 0) end)) in E. apply pair_equal_spec in E as (E1 & E2). split; auto. rewrite <- E2.
    clear - C F. cbn [digits_value]. assert (G : forall l acc, 0 <= acc -> 0 <= digits_value l acc). { induction l as [|d l IH]; intros acc H; cbn [digits_value]; auto. destruct (is_digit d) eqn:Q; auto. apply IH. unfold is_digit in Q. apply andb_true_iff in Q as (Q & _). apply Z.leb_le in Q. lia. }
    destruct (is_digit c); [apply G; lia|lia]. }
  destruct B as (-> & B). destruct (_ && _); [|discriminate]. intros H. apply Ok_inj' in H. lia.
Qed.

(** GenerateDeletionSets(days, daily, start, max, func): whatever is drawn, when
    it returns, there are for each party the rows deleted and added day by day
    ([h0], [h1]) such that: the datasets are these rows as written down; every
    deletion is of a row the party holds at that time, nothing is ever added
    twice; elements have 16 digits, party zero's values are those of the
    functionality and party one's are 1; the initial trees have [start] rows; and
    the number returned is the result on the final sets minus the result on the
    initial sets (modulo 2^64, exactly if it is certain to fit). *)
Theorem C43_deletes_what_is_present : forall days daily start max f coins tree0 days0 tree1 days1 result rest,
  uint32 days -> uint32 daily -> uint32 start -> uint32 max ->
  generate_deletion days daily start max f coins = Ok ((tree0, days0, tree1, days1, result), rest) ->
  0 < daily /\
  exists h0 h1 : changes,
    map rows days0 = map written h0 /\ map rows days1 = map written h1 /\
    Forall (fun d => length (d_values d) = length (d_elements d)) (tree0 :: days0 ++ tree1 :: days1) /\
    only_held (rows tree0) h0 /\ only_held (rows tree1) h1 /\
    added_once (rows tree0) h0 /\ added_once (rows tree1) h1 /\
    Forall (fun r => set_element (fst r) /\ value_ok f max r) (rows tree0 ++ concat (map snd h0)) /\
    Forall (fun r => set_element (fst r) /\ snd r = 1) (rows tree1 ++ concat (map snd h1)) /\
    Z.of_nat (length (rows tree0)) = start /\ Z.of_nat (length (rows tree1)) = start /\
    (let change := score f (held_after (rows tree0) h0) (held_after (rows tree1) h1) - score f (rows tree0) (rows tree1) in
     result = to_int64 (change mod 2 ^ 64) /\
     ((f = SUM -> (start + days * daily) * max < 2 ^ 63) -> result = change)) /\
    (days * daily < 2 ^ 32 ->
     Z.of_nat (length days0) = Z.max 1 days /\ Z.of_nat (length days1) = Z.max 1 days /\
     (0 < days -> Forall (fun d => Z.of_nat (length (fst d) + length (snd d)) = daily /\ 4 * Z.of_nat (length (fst d)) <= daily) (h0 ++ h1)) /\
     (days = 0 -> h0 = [([], [])] /\ h1 = [([], [])])).
Proof.
  intros days daily start max f coins tree0 days0 tree1 days1 result rest U1 U2 U3 U4 H. unfold uint32 in *.
  unfold generate_deletion in H. set (T := u32 (start + u32 (days * daily))) in *. assert (RT : 0 <= T < 2 ^ 32) by (apply Z.mod_pos_bound; reflexivity).
  assert (TL : T <= start + days * daily). { assert (u32 (days * daily) <= days * daily) by (apply Z.mod_le; nia). assert (T <= start + u32 (days * daily)) by (apply Z.mod_le; [|reflexivity]; assert (0 <= u32 (days * daily)) by (apply Z.mod_pos_bound; reflexivity); lia). lia. }
  apply bind_Ok in H as ((a0 & a1) & t1 & H1 & H). apply (shared_universe_inv f max) in H1; [|split; constructor|split; constructor]. destruct H1 as (A0 & A1 & AL0 & AL1).
  apply bind_Ok in H as ((u0 & u1) & t2 & H2 & H). apply (own_universe_inv f max) in H2; auto. destruct H2 as ((N0 & F0) & (N1 & F1) & UL0 & UL1).
  assert (0 <= T / 3 <= T) by (split; [apply Z.div_pos; lia|apply Z.div_le_upper_bound; lia]).
  cbn [length] in AL0, AL1. assert (UB0 : Z.of_nat (length u0) <= T) by lia. assert (UB1 : Z.of_nat (length u1) <= T) by lia. clear AL0 AL1 UL0 UL1 A0 A1.
  apply bind_Ok in H as ((((((r0 & r1) & v0) & v1) & s0) & s1) & t3 & H3 & H). apply start_rows_inv in H3; auto. destruct H3 as (P0 & P1 & -> & -> & L0 & L1).
  cbn [app] in H.
  assert (NV0 : NoDup (keys (r0 ++ v0))) by (eapply Permutation_NoDup; [apply keys_perm; eauto|auto]).
  assert (NV1 : NoDup (keys (r1 ++ v1))) by (eapply Permutation_NoDup; [apply keys_perm; eauto|auto]).
  assert (DD : 0 <= daily / 4 <= daily) by (split; [apply Z.div_pos; lia|apply Z.div_le_upper_bound; lia]).
  assert (WD : 0 <= u32 (daily * days)) by (apply Z.mod_pos_bound; reflexivity).
  apply bind_Ok in H as (((d0 & w0) & e0) & t4 & H4 & H). apply deletion_days_inv in H4; auto; try lia. destruct H4 as (DP & h0 & -> & LH0 & OH0 & PU0 & PC0 & ND0 & SZ0 & Z0).
  apply bind_Ok in H as (((d1 & w1) & e1) & t5 & H5 & H). apply deletion_days_inv in H5; auto; try lia. destruct H5 as (_ & h1 & -> & LH1 & OH1 & PU1 & PC1 & ND1 & SZ1 & Z1).
  apply ret_Ok in H as (E & _). inversion E; subst tree0 days0 tree1 days1 result; clear E.
  split; [auto|]. exists h0, h1. rewrite !map_rows_to_dataset, !rows_to_dataset. split; [auto|]. split; [auto|]. split.
  { assert (X : forall l, length (d_values (to_dataset l)) = length (d_elements (to_dataset l))) by (intros; cbn; rewrite !map_length; auto).
    constructor; [apply X|]. apply Forall_app. split; [|constructor; [apply X|]]; apply Forall_map, Forall_forall; intros; apply X. }
  assert (Q0 : Permutation u0 ((r0 ++ concat (map snd h0)) ++ w0)) by (rewrite P0, PU0, app_assoc; auto).
  assert (Q1 : Permutation u1 ((r1 ++ concat (map snd h1)) ++ w1)) by (rewrite P1, PU1, app_assoc; auto).
  split; [auto|]. split; [auto|].
  assert (O0 : added_once r0 h0). { unfold added_once. apply (NoDup_app_l _ (keys w0)). change (map fst (r0 ++ concat (map snd h0))) with (keys (r0 ++ concat (map snd h0))). rewrite <- keys_app. eapply Permutation_NoDup; [apply keys_perm; eauto|auto]. }
  assert (O1 : added_once r1 h1). { unfold added_once. apply (NoDup_app_l _ (keys w1)). change (map fst (r1 ++ concat (map snd h1))) with (keys (r1 ++ concat (map snd h1))). rewrite <- keys_app. eapply Permutation_NoDup; [apply keys_perm; eauto|auto]. }
  split; [auto|]. split; [auto|].
  destruct (Forall_perm_app _ _ _ Q0 F0) as (G0 & _). destruct (Forall_perm_app _ _ _ Q1 F1) as (G1 & _). split; [auto|]. split; [auto|].
  unfold row in *. split; [lia|]. split; [lia|]. split.
  { cbn zeta. rewrite !expected_spec by lia. cbn [Z.add].
    rewrite (score_perm f _ _ _ _ PC0 PC1). set (A := score f (held_after r0 h0) (held_after r1 h1)). set (B := score f r0 r1).
    assert (EQ : u64 (u64 A - u64 B) = u64 (A - B)) by (unfold u64; rewrite <- Zminus_mod; auto).
    split; [rewrite EQ; auto|]. intros SM. rewrite EQ. apply to_int64_id.
    assert (VA : Forall (value_ok f max) (held_after r0 h0)).
    { apply Forall_forall. intros r Hr. apply held_after_incl in Hr. rewrite Forall_forall in G0. apply G0; auto. }
    assert (VB : Forall (value_ok f max) r0). { apply Forall_app in G0 as (G0 & _). eapply Forall_impl; [|exact G0]. intros r; cbn; tauto. }
    pose proof (score_range f max _ (held_after r1 h1) VA) as RA. pose proof (score_range f max _ r1 VB) as RB. fold A in RA. fold B in RB.
    assert (LA : Z.of_nat (length (held_after r0 h0)) <= T).
    { assert (length (held_after r0 h0) <= length (r0 ++ concat (map snd h0)))%nat.
      { rewrite <- (map_length fst (held_after r0 h0)), <- (map_length fst (r0 ++ _)). apply NoDup_incl_length.
        - rewrite keys_app in ND0. apply NoDup_app_l in ND0. eapply Permutation_NoDup; [apply keys_perm; eauto|auto].
        - apply incl_map, held_after_incl. }
      apply Permutation_length in Q0. rewrite app_length in Q0. lia. }
    assert (LB : Z.of_nat (length r0) <= T). { apply Permutation_length in Q0. rewrite !app_length in Q0. lia. }
    destruct f; try lia. specialize (SM eq_refl). nia. }
  intros NW. assert (W : u32 (daily * days) = daily * days) by (apply Z.mod_small; nia). rewrite W in *.
  rewrite (Z.mul_comm daily), Z.div_mul in LH0, LH1 by lia.
  rewrite !map_length. split; [lia|]. split; [lia|]. split.
  - intros PD. assert (M : (daily * days) mod daily = 0) by (rewrite Z.mul_comm; apply Z.mod_mul; lia).
    assert (X : forall h, Forall (day_ok (Z.to_nat daily) (Z.to_nat (daily / 4))) h -> Forall (fun d => Z.of_nat (length (fst d) + length (snd d)) = daily /\ 4 * Z.of_nat (length (fst d)) <= daily) h).
    { intros h F. eapply Forall_impl; [|exact F]. intros d (D1 & D2). split; [lia|]. pose proof (Z.mul_div_le daily 4). lia. }
    apply Forall_app. split; apply X; [apply SZ0|apply SZ1]; auto; nia.
  - intros ->. rewrite Z.mul_0_r in *. auto.
Qed.

(** ** when it returns *)
Lemma deletion_loop_ok daily del days : (del <= daily)%nat -> forall u c t, NoDup (keys (c ++ u)) -> (days * daily <= length u)%nat ->
  Z.of_nat (length c + length u) <= 2 ^ 31 -> exists r, deletion_loop days daily del u c t = Ok r.
Proof.
  intros DD. induction days as [|days IH]; intros u c t ND L B; [eexists; reflexivity|]. cbn [deletion_loop].
  destruct (delete_rows_ok del c t) as (rs & c1 & t1 & E1); [lia|]. unfold bind at 1. rewrite E1. apply delete_rows_inv in E1 as (dels & -> & P1 & L1). rewrite map_length.
  destruct (insert_rows_ok (daily - length dels) u c1 t1) as (adds & u1 & c2 & t2 & E2); [cbn in L; lia|lia|]. unfold bind at 1. rewrite E2.
  assert (ND1 : NoDup (keys (dels ++ c1 ++ u))). { rewrite app_assoc. eapply Permutation_NoDup; [|exact ND]. apply keys_perm, Permutation_app_tail; auto. }
  assert (ND2 : NoDup (keys (c1 ++ u))) by (rewrite keys_app in ND1; eapply NoDup_app_r; eauto).
  apply insert_rows_inv in E2 as (P2 & -> & L2); [|auto]. apply Permutation_length in P1 as Q1. apply Permutation_length in P2 as Q2. rewrite app_length in Q1, Q2.
  destruct (IH u1 (c1 ++ adds) t2) as ([[[rest u3] c3] t3] & E3).
  - rewrite <- app_assoc. eapply Permutation_NoDup; [|exact ND2]. apply keys_perm, Permutation_app_head. auto.
  - cbn [Nat.mul] in L. lia.
  - rewrite app_length. lia.
  - unfold bind. rewrite E3. eexists. reflexivity.
Qed.
Lemma deletion_days_ok daily del days u c t : 0 < daily -> 0 <= del <= daily -> 0 <= days -> NoDup (keys (c ++ u)) -> days * daily <= Z.of_nat (length u) ->
  Z.of_nat (length c + length u) <= 2 ^ 31 -> exists r, deletion_days daily del (daily * days) u c t = Ok r.
Proof.
  intros DP DD D0 ND L B. unfold deletion_days. destruct (Z.eqb_spec daily 0); [lia|]. rewrite (Z.mul_comm daily), Z.div_mul, Z.sub_diag by lia.
  destruct (deletion_loop_ok (Z.to_nat daily) (Z.to_nat del) (Z.to_nat days)) with (u := u) (c := c) (t := t) as ([[[ds u1] c1] t1] & E); auto; [lia|rewrite <- Z2Nat.inj_mul by lia; lia|].
  unfold bind at 1. rewrite E. cbn [Z.to_nat insert_rows]. eexists. reflexivity.
Qed.
Lemma start_rows_ok n : forall u0 u1 s0 s1 t, (n <= length u0)%nat -> (n <= length u1)%nat -> Z.of_nat (length u0) <= 2 ^ 31 -> Z.of_nat (length u1) <= 2 ^ 31 ->
  exists r, start_rows n u0 u1 s0 s1 t = Ok r.
Proof.
  induction n as [|n IH]; intros u0 u1 s0 s1 t L0 L1 B0 B1; [eexists; reflexivity|]. cbn [start_rows].
  destruct (sample_ok u0 t) as (e0 & w0 & t1 & E0); [intros ->; cbn in L0; lia|auto|]. unfold bind at 1. rewrite E0. apply sample_inv, Permutation_length in E0.
  destruct (sample_ok u1 t1) as (e1 & w1 & t2 & E1); [intros ->; cbn in L1; lia|auto|]. unfold bind at 1. rewrite E1. apply sample_inv, Permutation_length in E1. cbn [length] in E0, E1.
  destruct (IH w0 w1 (map_set s0 (fst e0) (snd e0)) (map_set s1 (fst e1) (snd e1)) t2) as ([[[[[[a b] v0] v1] r0] r1] t3] & E2); try lia. unfold bind. rewrite E2. eexists. reflexivity.
Qed.
Definition usable (f : functionality) (max : Z) : Prop := match f with PSI | CA => True | SUM => 1 < max | _ => False end.
Lemma stoll_set_element s : set_element s -> stoll s = Ok (numeric_string2uint s).
Proof.
  intros S. unfold stoll. rewrite parse_digits by (apply set_element_digits; auto). apply number_range in S.
  destruct (Z.leb_spec (- 2 ^ 63) (numeric_string2uint s)); [|lia]. destruct (Z.ltb_spec (numeric_string2uint s) (2 ^ 63)); [|lia]. reflexivity.
Qed.
Lemma value_of_total f max e t : usable f max -> set_element e -> exists v t', value_of f max e t = Ok (v, t').
Proof.
  intros U S. destruct f; cbn in *; try tauto.
  - rewrite stoll_set_element by auto. eexists _, _. reflexivity.
  - eexists _, _. reflexivity.
  - unfold rand_between. destruct (Z.ltb_spec 1 max); [|lia]. unfold bind, rand_less_than. destruct (Z.ltb_spec 0 (max - 1)); [|lia]. eexists _, _. reflexivity.
Qed.
Lemma shared_universe_ok n f max : usable f max -> forall u0 u1 t, exists r, shared_universe n f max u0 u1 t = Ok r.
Proof.
  intros U. induction n as [|n IH]; intros u0 u1 t; [eexists; reflexivity|]. cbn [shared_universe]. destruct (random_set_element_total t) as (e & t1 & E). unfold bind at 1. rewrite E.
  apply random_set_element_spec in E as (S & _). destruct (value_of_total f max e t1 U S) as (v & t2 & E2). unfold bind at 1. rewrite E2. apply IH.
Qed.
Lemma own_universe_ok n f max : usable f max -> forall u0 u1 t, exists r, own_universe n f max u0 u1 t = Ok r.
Proof.
  intros U. induction n as [|n IH]; intros u0 u1 t; [eexists; reflexivity|]. cbn [own_universe]. destruct (random_set_element_total t) as (e & t1 & E). unfold bind at 1. rewrite E.
  apply random_set_element_spec in E as (S & _). destruct (value_of_total f max e t1 U S) as (v & t2 & E2). unfold bind at 1. rewrite E2.
  destruct (random_set_element_total t2) as (e' & t3 & E3). unfold bind at 1. rewrite E3. apply IH.
Qed.
(** Drawing the elements always succeeds, and then everything does, unless a
    party drew some string twice (fewer elements than drawn). *)
Theorem C43_returns : forall days daily start max f coins,
  uint32 days -> uint32 daily -> uint32 start -> uint32 max -> 0 < daily -> usable f max ->
  let total := start + days * daily in total <= 2 ^ 31 ->
  exists u0 u1 coins', (let! (us, c) := shared_universe (Z.to_nat (total / 3)) f max [] [] coins in own_universe (Z.to_nat (total - total / 3)) f max (fst us) (snd us) c) = Ok ((u0, u1), coins') /\
  (Z.of_nat (length u0) <= total /\ Z.of_nat (length u1) <= total) /\
  (Z.of_nat (length u0) = total -> Z.of_nat (length u1) = total -> exists r, generate_deletion days daily start max f coins = Ok r).
Proof.
  intros days daily start max f coins U1 U2 U3 U4 DP US total TB. unfold uint32 in *. unfold generate_deletion.
  assert (T : u32 (start + u32 (days * daily)) = total). { unfold u32. rewrite Zplus_mod_idemp_r. apply Z.mod_small. nia. } rewrite T.
  assert (0 <= total / 3 <= total) by (split; [apply Z.div_pos; nia|apply Z.div_le_upper_bound; nia]).
  destruct (shared_universe_ok (Z.to_nat (total / 3)) f max US [] [] coins) as ([[a0 a1] t1] & E1). rewrite E1. unfold bind at 1. rewrite E1.
  apply (shared_universe_inv f max) in E1; [|split; constructor|split; constructor]. destruct E1 as (A0 & A1 & AL0 & AL1).
  cbn [obind fst snd]. destruct (own_universe_ok (Z.to_nat (total - total / 3)) f max US a0 a1 t1) as ([[u0 u1] t2] & E2). rewrite E2. unfold bind at 1. rewrite E2.
  apply (own_universe_inv f max) in E2; auto. destruct E2 as ((N0 & F0) & (N1 & F1) & UL0 & UL1). cbn [length] in AL0, AL1.
  exists u0, u1, t2. split; auto. split; [lia|]. intros G0 G1.
  destruct (start_rows_ok (Z.to_nat start) u0 u1 [] [] t2) as ([[[[[[r0 r1] v0] v1] s0] s1] t3] & E3); [nia|nia|lia|lia|]. unfold bind at 1. rewrite E3.
  apply start_rows_inv in E3; auto. destruct E3 as (P0 & P1 & -> & -> & L0 & L1). cbn [app].
  assert (NV0 : NoDup (keys (r0 ++ v0))) by (eapply Permutation_NoDup; [apply keys_perm; eauto|auto]).
  assert (NV1 : NoDup (keys (r1 ++ v1))) by (eapply Permutation_NoDup; [apply keys_perm; eauto|auto]).
  apply Permutation_length in P0, P1. rewrite app_length in P0, P1.
  assert (DD : 0 <= daily / 4 <= daily) by (split; [apply Z.div_pos; lia|apply Z.div_le_upper_bound; lia]).
  assert (W : u32 (daily * days) = daily * days) by (apply Z.mod_small; nia). rewrite W.
  destruct (deletion_days_ok daily (daily / 4) days v0 r0 t3) as ([[[d0 w0] e0] t4] & E4); auto; try lia. unfold bind at 1. rewrite E4.
  destruct (deletion_days_ok daily (daily / 4) days v1 r1 t4) as ([[[d1 w1] e1] t5] & E5); auto; try lia. unfold bind at 1. rewrite E5.
  eexists. reflexivity.
Qed.
(** Unusable requests are refused; days without rows are a division by zero. *)
Theorem C43_refused : forall days daily start max f coins,
  uint32 days -> uint32 daily -> uint32 start -> uint32 max -> 0 < start + days * daily < 2 ^ 32 ->
  (~ usable f max -> generate_deletion days daily start max f coins = Abort) /\
  (daily = 0 -> forall r, generate_deletion days daily start max f coins <> Ok r).
Proof.
  intros days daily start max f coins U1 U2 U3 U4 TB. split.
  - unfold uint32 in *. intros NU. unfold generate_deletion.
    assert (T : u32 (start + u32 (days * daily)) = start + days * daily). { unfold u32. rewrite Zplus_mod_idemp_r. apply Z.mod_small. nia. } rewrite T. set (total := start + days * daily) in *.
    assert (V : forall e t, value_of f max e t = Abort).
    { intros e t. destruct f; cbn in *; try tauto. unfold rand_between. destruct (Z.ltb_spec 1 max); [lia|reflexivity]. }
    unfold bind at 1. destruct (Z.to_nat (total / 3)) as [|n] eqn:EN.
    + cbn [shared_universe]. unfold ret at 1. unfold bind at 1. destruct (Z.to_nat (total - total / 3)) as [|m] eqn:EM; [lia|]. cbn [own_universe].
      unfold bind. destruct (random_set_element_total coins) as (e & t1 & E). rewrite E, V. reflexivity.
    + cbn [shared_universe]. unfold bind at 1. destruct (random_set_element_total coins) as (e & t1 & E). rewrite E. unfold bind at 1. rewrite V. reflexivity.
  - intros -> [[[[[r0 d0] r1] d1] res] t] H. apply C43_deletes_what_is_present in H as (P & _); auto. lia.
Qed.

(** ** what the protocols compute on it *)
Definition signed (s : bytes) (rs : list row) : Z := fold_right Z.add 0 (map (fun r => if same_string (fst r) s then snd r else 0) rs).
Lemma signed_app s a b : signed s (a ++ b) = signed s a + signed s b.
Proof. unfold signed. induction a as [|r a IH]; auto. cbn [map app fold_right]. rewrite IH. lia. Qed.
Lemma signed_perm s a b : Permutation a b -> signed s a = signed s b.
Proof. unfold signed. induction 1; cbn [map fold_right]; lia. Qed.
Lemma signed_neg s d : signed s (map (fun r => (fst r, - snd r)) d) = - signed s d.
Proof. unfold signed. induction d as [|r d IH]; auto. cbn [map fold_right fst snd] in *. rewrite IH. destruct (same_string (fst r) s); lia. Qed.
Lemma NoDup_of_keys (l : list row) : NoDup (map fst l) -> NoDup l.
Proof. apply NoDup_map_inv. Qed.
Lemma keys_inj (l : list row) a b : NoDup (map fst l) -> In a l -> In b l -> fst a = fst b -> a = b.
Proof.
  induction l as [|x l IH]; intros N I J E; [destruct I|]. cbn in N. inversion N; subst. destruct I as [->|I], J as [->|J]; auto.
  - exfalso. apply H1. rewrite E. apply in_map; auto.
  - exfalso. apply H1. rewrite <- E. apply in_map; auto.
Qed.
Lemma NoDup_app_build {A} (a b : list A) : NoDup a -> NoDup b -> (forall x, In x a -> In x b -> False) -> NoDup (a ++ b).
Proof.
  induction a as [|x a IH]; intros Na Nb D; auto. inversion Na; subst. cbn. constructor.
  - intros I. apply in_app_or in I as [I|I]; auto. apply (D x); [left|]; auto.
  - apply IH; auto. intros y Hy Hy'. apply (D y); [right|]; auto.
Qed.
Lemma drop_split d held : NoDup (map fst d) -> incl d held -> NoDup (map fst held) -> Permutation held (d ++ drop d held).
Proof.
  intros N I NH. apply NoDup_Permutation; [apply NoDup_of_keys; auto| |].
  - apply NoDup_app_build; [apply NoDup_of_keys; auto|apply NoDup_filter, NoDup_of_keys; auto|].
    intros x Hx Hx'. apply filter_In in Hx' as (_ & Q). apply negb_true_iff in Q. assert (In (fst x) (map fst d)) by (apply in_map; auto). apply is_in_spec in H. congruence.
  - intros x. rewrite in_app_iff. unfold drop. rewrite filter_In. split.
    + intros Hx. destruct (is_in (map fst d) (fst x)) eqn:E; [left|right; auto]. apply is_in_spec, in_map_iff in E as (y & E & Hy). rewrite <- (keys_inj held y x); auto.
    + intros [Hx|(Hx & _)]; auto.
Qed.
(** summing up signed rows gives the final holdings *)
Lemma signed_history s h : forall held, only_held held h -> NoDup (map fst (held ++ concat (map snd h))) ->
  signed s (held ++ concat (map written h)) = signed s (held_after held h).
Proof.
  induction h as [|[d a] h IH]; intros held O N; cbn [only_held held_after map concat fst snd] in *; [rewrite app_nil_r; auto|].
  destruct O as (O1 & O2 & O3).
  assert (NH : NoDup (map fst held)) by (rewrite map_app in N; eapply NoDup_app_l; eauto).
  pose proof (drop_split d held O1 O2 NH) as P. rewrite <- IH; auto.
  - rewrite !signed_app. unfold written at 1. cbn [fst snd]. rewrite signed_app, signed_neg, (signed_perm s _ _ P), signed_app. lia.
  - apply (NoDup_app_r (map fst d)). rewrite <- map_app. eapply Permutation_NoDup; [|exact N]. apply Permutation_map. rewrite <- app_assoc, (app_assoc d). apply Permutation_app_tail. auto.
Qed.
Lemma net_number s rs : set_element s -> Forall (fun r => set_element (fst r)) rs -> net (numeric_string2uint s) (map as_number rs) = signed s rs.
Proof.
  intros S F. unfold signed. induction F as [|[e v] rs H F IH]; auto. cbn [map fold_right fst snd] in *. rewrite net_cons, IH. f_equal. unfold as_number. cbn [fst snd].
  destruct (Z.eqb_spec (numeric_string2uint e) (numeric_string2uint s)) as [E|E].
  - apply number_injective in E; auto. subst. rewrite same_string_refl. auto.
  - rewrite same_string_neq; auto. intros ->. auto.
Qed.
Lemma net_no_number x rs : ~ In x (map numeric_string2uint (map fst rs)) -> net x (map as_number rs) = 0.
Proof. intros N. apply net_not_in. rewrite as_number_fst. auto. Qed.
Lemma net_same a b : Forall (fun r => set_element (fst r)) a -> Forall (fun r => set_element (fst r)) b -> (forall s, signed s a = signed s b) ->
  forall x, net x (map as_number a) = net x (map as_number b).
Proof.
  intros FA FB EQ x. destruct (in_dec Z.eq_dec x (map numeric_string2uint (map fst (a ++ b)))) as [I|N].
  - apply in_map_iff in I as (s & <- & I). apply in_map_iff in I as (r & <- & I). assert (set_element (fst r)) by (apply in_app_or in I as [I|I]; [rewrite Forall_forall in FA|rewrite Forall_forall in FB]; auto).
    rewrite !net_number by auto. auto.
  - rewrite !map_app, in_app_iff in N. rewrite !net_no_number by tauto. auto.
Qed.
Lemma inner_score s0 s1 : Forall (fun r => set_element (fst r)) s0 -> Forall (fun r => set_element (fst r) /\ snd r = 1) s1 -> NoDup (map fst s1) ->
  inner (map as_number s0) (map as_number s1) = sum_over (map fst s1) s0.
Proof.
  intros F0 F1 N. rewrite inner_sum. induction F0 as [|[e v] s0 H F IH]; auto. rewrite sum_over_cons, <- IH. cbn [map]. rewrite total_cons. f_equal. unfold as_number at 1 2. cbn [fst snd] in *.
  rewrite net_number; auto; [|eapply Forall_impl; [|exact F1]; cbn; tauto]. clear - F1 N. unfold signed. induction s1 as [|[e1 v1] s1 IH]; [cbn; lia|].
  cbn [map fst snd fold_right] in *. apply Forall_cons_iff in F1 as ((_ & V1) & F1). cbn [snd] in V1. subst v1. inversion N; subst. rename H1 into NI, H2 into H2. specialize (IH F1 H2). unfold is_in in *. 
  destruct (in_dec string_eq_dec e (e1 :: map fst s1)) as [I|I].
  - destruct (string_eq_dec e1 e) as [->|NE].
    + rewrite same_string_refl. destruct (in_dec string_eq_dec e (map fst s1)) as [J|J]; [contradiction|]. lia.
    + rewrite same_string_neq by auto. destruct I as [I|I]; [contradiction|]. destruct (in_dec string_eq_dec e (map fst s1)); [lia|contradiction].
  - rewrite same_string_neq by (intros ->; apply I; left; auto). destruct (in_dec string_eq_dec e (map fst s1)) as [J|J]; [exfalso; apply I; right; auto|]. lia.
Qed.
Lemma written_elements h : forall held, only_held held h -> Forall (fun r => set_element (fst r)) (held ++ concat (map snd h)) ->
  Forall (fun r => set_element (fst r)) (concat (map written h)).
Proof.
  intros held O F. pose proof (only_held_incl h held O) as I. rewrite Forall_forall in *.
  assert (G : forall r, In r (concat (map written h)) -> exists r', fst r = fst r' /\ (In r' (concat (map fst h)) \/ In r' (concat (map snd h)))).
  { clear. induction h as [|[d a] h IH]; intros r Hr; [destruct Hr|]. cbn [map concat fst snd written] in *. apply in_app_or in Hr as [Hr|Hr].
    - apply in_app_or in Hr as [Hr|Hr].
      + apply in_map_iff in Hr as (r' & <- & Hr). exists r'. split; auto. left. apply in_or_app; auto.
      + exists r. split; auto. right. apply in_or_app; auto.
    - destruct (IH r Hr) as (r' & E & [Q|Q]); exists r'; split; auto; [left|right]; apply in_or_app; auto. }
  intros r Hr. destruct (G r Hr) as (r' & -> & [Q|Q]); apply F; [apply I; auto|apply in_or_app; auto].
Qed.
Definition small_value (max : Z) (r : row) : Prop := - Z.max max (10 ^ 15) < snd r < Z.max max (10 ^ 15).
Lemma written_values (P : row -> Prop) h : forall held, only_held held h -> Forall P (held ++ concat (map snd h)) -> (forall r, P r -> P (fst r, - snd r)) ->
  Forall P (concat (map written h)).
Proof.
  intros held O F NG. pose proof (only_held_incl h held O) as I. rewrite Forall_forall in *.
  assert (G : forall r, In r (concat (map written h)) -> exists r', (r = r' \/ r = (fst r', - snd r')) /\ (In r' (concat (map fst h)) \/ In r' (concat (map snd h)))).
  { clear. induction h as [|[d a] h IH]; intros r Hr; [destruct Hr|]. cbn [map concat fst snd written] in *. apply in_app_or in Hr as [Hr|Hr].
    - apply in_app_or in Hr as [Hr|Hr].
      + apply in_map_iff in Hr as (r' & <- & Hr). exists r'. split; auto. left. apply in_or_app; auto.
      + exists r. split; auto. right. apply in_or_app; auto.
    - destruct (IH r Hr) as (r' & E & [Q|Q]); exists r'; split; auto; [left|right]; apply in_or_app; auto. }
  intros r Hr. destruct (G r Hr) as (r' & E & Q). assert (P r') by (apply F; destruct Q as [Q|Q]; [apply I; auto|apply in_or_app; auto]). destruct E as [->| ->]; auto.
Qed.
Lemma rows_length d : length (d_values d) = length (d_elements d) -> length (rows d) = length (d_elements d).
Proof. intros L. unfold rows. rewrite combine_length. lia. Qed.
Lemma load_rows tree days h : Forall (fun d => length (d_values d) = length (d_elements d)) (tree :: days) -> map rows days = map written h ->
  only_held (rows tree) h -> Forall (fun r => set_element (fst r)) (rows tree ++ concat (map snd h)) -> Forall (fun r => - 2 ^ 63 < snd r < 2 ^ 63) (rows tree ++ concat (map snd h)) ->
  omap dataset_pairs (tree :: days) = Ok (map (map as_number) (rows tree :: map written h)).
Proof.
  intros L E O F V. rewrite load_pairs; auto.
  - cbn [map]. rewrite <- (map_map rows (map as_number)), E. auto.
  - rewrite <- (rows_elements _ L). apply Forall_map. cbn [map concat]. rewrite E. apply Forall_app. split; [apply Forall_app in F; apply F|]. eapply written_elements; eauto.
  - cbn [map concat]. rewrite E. apply (Forall_impl (P := fun r : row => - 2 ^ 63 < snd r < 2 ^ 63)); [lia|]. apply Forall_app. split; [apply Forall_app in V; apply V|].
    eapply written_values; eauto. cbn. lia.
Qed.
Lemma value_small f max r : uint32 max -> set_element (fst r) -> value_ok f max r -> 0 <= snd r < Z.max max (10 ^ 15).
Proof.
  intros U S V. split; [eapply value_ok_nonneg; eauto|]. destruct f; cbn in V; try lia; try tauto. rewrite stoll_set_element in V by auto. apply Ok_inj' in V. apply number_range in S. lia.
Qed.
Lemma concat_written_length h : length (concat (map written h)) = list_sum (map (fun d => length (fst d) + length (snd d))%nat h).
Proof. induction h as [|[d a] h IH]; auto. cbn [map concat]. rewrite app_length, IH. unfold written at 1. cbn [fst snd]. rewrite app_length, map_length. reflexivity. Qed.
Lemma list_sum_const {A} (f : A -> nat) n l : Forall (fun x => f x = n) l -> list_sum (map f l) = (length l * n)%nat.
Proof. induction 1 as [|x l H F IH]; auto. change (list_sum (map f (x :: l))) with (f x + list_sum (map f l))%nat. rewrite IH, H. reflexivity. Qed.

(** What the two parties load satisfies the conditions of the theorems about the
    protocols with deletions (C20), and for the cardinality and sum
    functionalities the number returned is what these protocols compute: the
    inner product of the two histories, minus that of the initial trees. *)
Theorem C43_loaded : forall days daily start max f coins tree0 days0 tree1 days1 result rest,
  uint32 days -> uint32 daily -> uint32 start -> uint32 max ->
  generate_deletion days daily start max f coins = Ok ((tree0, days0, tree1, days1, result), rest) ->
  start + days * daily < 2 ^ 30 ->
  exists l0 l1, omap dataset_pairs (tree0 :: days0) = Ok l0 /\ omap dataset_pairs (tree1 :: days1) = Ok l1 /\
    length l1 = length l0 /\
    (forall n, 10 ^ 15 <= n -> max <= n -> proper_signed n l0 /\ proper_signed n l1) /\
    (f = CA \/ f = SUM -> result = inner (concat l0) (concat l1) - inner (nth 0 l0 []) (nth 0 l1 [])).
Proof.
  intros days daily start max f coins tree0 days0 tree1 days1 result rest U1 U2 U3 U4 H SM.
  destruct (C43_deletes_what_is_present _ _ _ _ _ _ _ _ _ _ _ _ U1 U2 U3 U4 H) as (DP & h0 & h1 & R0 & R1 & LV & O0 & O1 & A0 & A1 & V0 & V1 & S0 & S1 & (_ & RES) & SZ).
  unfold uint32 in *. destruct SZ as (LD0 & LD1 & SZ & SZ0); [lia|].
  assert (LV0 : Forall (fun d => length (d_values d) = length (d_elements d)) (tree0 :: days0)). { apply Forall_cons_iff in LV as (Q & LV). apply Forall_app in LV as (LV & _). constructor; auto. }
  assert (LV1 : Forall (fun d => length (d_values d) = length (d_elements d)) (tree1 :: days1)). { apply Forall_cons_iff in LV as (Q & LV). apply Forall_app in LV as (_ & LV). auto. }
  assert (E0 : Forall (fun r => set_element (fst r)) (rows tree0 ++ concat (map snd h0))) by (eapply Forall_impl; [|exact V0]; cbn; tauto).
  assert (E1 : Forall (fun r => set_element (fst r)) (rows tree1 ++ concat (map snd h1))) by (eapply Forall_impl; [|exact V1]; cbn; tauto).
  assert (B0 : Forall (fun r => 0 <= snd r < Z.max max (10 ^ 15)) (rows tree0 ++ concat (map snd h0))). { eapply Forall_impl; [|exact V0]. cbn beta. intros r (Q1 & Q2). eapply value_small; eauto. }
  assert (B1 : Forall (fun r => 0 <= snd r < Z.max max (10 ^ 15)) (rows tree1 ++ concat (map snd h1))). { eapply Forall_impl; [|exact V1]. cbn beta. intros r (Q1 & Q2). lia. }
  exists (map (map as_number) (rows tree0 :: map written h0)), (map (map as_number) (rows tree1 :: map written h1)).
  split. { apply load_rows; auto. eapply Forall_impl; [|exact B0]. cbn beta. intros r Q. lia. }
  split. { apply load_rows; auto. eapply Forall_impl; [|exact B1]. cbn beta. intros r Q. lia. }
  assert (LH0 : Z.of_nat (length h0) = Z.max 1 days) by (rewrite <- (map_length written h0), <- R0, map_length; auto).
  assert (LH1 : Z.of_nat (length h1) = Z.max 1 days) by (rewrite <- (map_length written h1), <- R1, map_length; auto).
  split. { cbn [map length]. rewrite !map_length. lia. }
  assert (LEN : forall tree h, Z.of_nat (length (rows tree)) = start -> Z.of_nat (length h) = Z.max 1 days ->
            (0 < days -> Forall (fun d => Z.of_nat (length (fst d) + length (snd d)) = daily) h) -> (days = 0 -> h = [([], [])]) ->
            int_range (length (concat (map (map as_number) (rows tree :: map written h))))).
  { intros tree h L1 L2 L3 L4. rewrite <- concat_map, map_length. cbn [concat]. rewrite app_length, concat_written_length. unfold int_range.
    destruct (Z.eq_dec days 0) as [->|ND]; [rewrite L4 by auto; cbn; lia|].
    rewrite (list_sum_const _ (Z.to_nat daily)); [nia|]. eapply Forall_impl; [|apply L3; lia]. cbn. intros d Q. lia. }
  split.
  - intros n N1 N2.
    assert (SG : forall tree h, only_held (rows tree) h -> Forall (fun r => set_element (fst r)) (rows tree ++ concat (map snd h)) -> Forall (fun r => 0 <= snd r < Z.max max (10 ^ 15)) (rows tree ++ concat (map snd h)) ->
              Forall (fun e : entry => 0 <= fst e < n /\ - n < snd e < n) (concat (map (map as_number) (rows tree :: map written h)))).
    { intros tree h O E B. rewrite <- concat_map. apply Forall_map. cbn [concat].
      assert (E' : Forall (fun r => set_element (fst r)) (rows tree ++ concat (map written h))). { apply Forall_app. split; [apply Forall_app in E; apply E|eapply written_elements; eauto]. }
      assert (B' : Forall (fun r => - n < snd r < n) (rows tree ++ concat (map written h))).
      { assert (Q : Forall (fun r : row => - n < snd r < n) (rows tree ++ concat (map snd h))) by (eapply Forall_impl; [|exact B]; cbn beta; intros; lia).
        apply Forall_app. split; [apply Forall_app in Q; apply Q|]. eapply written_values; eauto. cbn. lia. }
      rewrite Forall_forall in *. intros r Hr. specialize (E' r Hr). specialize (B' r Hr). apply number_range in E'. unfold as_number. cbn [fst snd]. lia. }
    split; (split; [apply SG; auto|apply LEN; auto]).
    + intros D. specialize (SZ D). apply Forall_app in SZ as (SZ & _). eapply Forall_impl; [|exact SZ]. cbn. tauto.
    + intros D. apply SZ0; auto.
    + intros D. specialize (SZ D). apply Forall_app in SZ as (_ & SZ). eapply Forall_impl; [|exact SZ]. cbn. tauto.
    + intros D. apply SZ0; auto.
  - intros F. rewrite RES by (intros ->; nia). rewrite <- !concat_map. cbn [nth map concat].
    assert (HE0 : Forall (fun r => set_element (fst r)) (held_after (rows tree0) h0)). { apply Forall_forall. intros r Hr. apply held_after_incl in Hr. rewrite Forall_forall in E0. auto. }
    assert (HE1 : Forall (fun r => set_element (fst r) /\ snd r = 1) (held_after (rows tree1) h1)). { apply Forall_forall. intros r Hr. apply held_after_incl in Hr. rewrite Forall_forall in V1. auto. }
    assert (AE0 : Forall (fun r => set_element (fst r)) (rows tree0 ++ concat (map written h0))). { apply Forall_app. split; [apply Forall_app in E0; apply E0|eapply written_elements; eauto]. }
    assert (AE1 : Forall (fun r => set_element (fst r)) (rows tree1 ++ concat (map written h1))). { apply Forall_app. split; [apply Forall_app in E1; apply E1|eapply written_elements; eauto]. }
    assert (I1 : inner (map as_number (rows tree0 ++ concat (map written h0))) (map as_number (rows tree1 ++ concat (map written h1))) =
                 inner (map as_number (held_after (rows tree0) h0)) (map as_number (held_after (rows tree1) h1))).
    { rewrite (inner_ext _ _ (map as_number (held_after (rows tree1) h1))).
      - rewrite inner_comm, (inner_ext _ _ (map as_number (held_after (rows tree0) h0))); [apply inner_comm|]. apply net_same; auto. intros s. apply signed_history; auto.
      - apply net_same; auto; [eapply Forall_impl; [|exact HE1]; cbn; tauto|]. intros s. apply signed_history; auto. }
    rewrite I1, !inner_score; auto.
    + destruct F as [-> | ->]; reflexivity.
    + apply Forall_app in E0. apply E0.
    + apply Forall_app in V1. apply V1.
    + unfold added_once in A1. rewrite map_app in A1. eapply NoDup_app_l; eauto.
    + clear - A1 O1. unfold added_once in A1. revert A1 O1. generalize (rows tree1). induction h1 as [|[d a] h IH]; intros held A O; cbn [held_after map concat snd only_held] in *; [rewrite app_nil_r in A; auto|].
      destruct O as (Q1 & Q2 & Q3). apply IH; auto. assert (NH : NoDup (map fst held)) by (rewrite map_app in A; eapply NoDup_app_l; eauto).
      apply (NoDup_app_r (map fst d)). rewrite <- map_app. eapply Permutation_NoDup; [|exact A]. apply Permutation_map. rewrite <- app_assoc, (app_assoc d). apply Permutation_app_tail, drop_split; auto.
Qed.

(** ** deletion-psi *)
Definition numbers (rs : list row) : list Z := map numeric_string2uint (map fst rs).
(** the initial tree as a first day, then the days, as sets of numbers *)
Definition number_history (h : changes) : history := map (fun d => (numbers (fst d), numbers (snd d))) h.
Section PsiHistory.
Variable H : changes.
Hypothesis O : only_held [] H.
Hypothesis A : NoDup (map fst (concat (map snd H))).
Hypothesis E : Forall (fun r => set_element (fst r)) (concat (map snd H)).
Lemma held_after_app a : forall held b, held_after held (a ++ b) = held_after (held_after held a) b.
Proof. induction a as [|[d ad] a IH]; intros held b; cbn [app held_after]; auto. Qed.
Lemma only_held_app a : forall held b, only_held held (a ++ b) -> only_held held a /\ only_held (held_after held a) b.
Proof. induction a as [|[d ad] a IH]; intros held b Q; cbn [app held_after only_held] in *; auto. destruct Q as (Q1 & Q2 & Q3). apply IH in Q3 as (Q3 & Q4). auto. Qed.
Lemma split_at k d : (k < length H)%nat -> nth k H d = nth k H ([], []) /\ H = firstn k H ++ nth k H ([], []) :: skipn (S k) H /\ firstn (S k) H = firstn k H ++ [nth k H ([], [])].
Proof.
  intros L. split; [apply nth_indep; auto|]. clear O A E. revert k L. induction H as [|x h IH]; intros k L; [cbn in L; lia|]. destruct k as [|k]; [auto|].
  destruct (IH k) as (Q1 & Q2); [cbn in L; lia|]. change (firstn (S k) (x :: h)) with (x :: firstn k h). change (firstn (S (S k)) (x :: h)) with (x :: firstn (S k) h).
  change (nth (S k) (x :: h) ([], [])) with (nth k h ([], [])). change (skipn (S (S k)) (x :: h)) with (skipn (S k) h). cbn [app]. split; f_equal; auto.
Qed.
Lemma held_elements k : Forall (fun r => set_element (fst r)) (held_after [] (firstn k H)).
Proof.
  apply Forall_forall. intros r Hr. apply held_after_incl in Hr. cbn [app] in Hr. rewrite Forall_forall in E. apply E. clear - Hr. revert k Hr. induction H as [|[d a] h IH]; intros [|k] Hr; cbn in *; auto; try tauto.
  apply in_app_or in Hr. apply in_or_app. destruct Hr; eauto.
Qed.
Lemma day_at k : (k < length H)%nat -> let '(d, a) := nth k H ([], []) in NoDup (map fst d) /\ incl d (held_after [] (firstn k H)).
Proof.
  intros L. destruct (split_at k ([], []) L) as (_ & Q & _). rewrite Q in O. apply only_held_app in O as (_ & OO). destruct (nth k H ([], [])) as [d a]. cbn [only_held] in OO. tauto.
Qed.
Lemma nth_numbers k : nth k (number_history H) ([], []) = (numbers (fst (nth k H ([], []))), numbers (snd (nth k H ([], [])))).
Proof. clear. unfold number_history. revert k. induction H as [|x h IH]; intros [|k]; auto. apply IH. Qed.
Lemma drop_numbers d held : Forall (fun r => set_element (fst r)) held -> Forall (fun r => set_element (fst r)) d -> numbers (drop d held) = without (numbers d) (numbers held).
Proof.
  intros F G. unfold numbers, drop, without. assert (G' : Forall set_element (map fst d)) by (apply Forall_map; auto).
  induction F as [|[e v] held Q F IH]; auto. cbn [map filter fst] in *. rewrite mem_number by auto. destruct (is_in (map fst d) e); cbn [negb map fst]; rewrite IH; auto.
Qed.
Lemma current_numbers k : (k <= length H)%nat -> current k (number_history H) = numbers (held_after [] (firstn k H)).
Proof.
  induction k as [|k IH]; intros L; [reflexivity|]. cbn [current]. destruct (split_at k ([], [])) as (_ & _ & Q); [lia|]. rewrite Q, held_after_app, IH, nth_numbers by lia.
  pose proof (day_at k ltac:(lia)) as D. destruct (nth k H ([], [])) as [d a]. destruct D as (_ & D). cbn [held_after fst snd]. unfold numbers at 4. rewrite !map_app. f_equal. symmetry. apply drop_numbers.
  - apply held_elements.
  - apply Forall_forall. intros r Hr. pose proof (held_elements k) as HE. rewrite Forall_forall in HE. auto.
Qed.
Lemma not_readded k x : (k < length H)%nat -> In x (numbers (snd (nth k H ([], [])))) -> ~ In x (current k (number_history H)).
Proof.
  intros L I J. rewrite current_numbers in J by lia. destruct (split_at k ([], []) L) as (_ & Q & _).
  apply in_map_iff in I as (s & <- & I). apply in_map_iff in J as (s' & EQ & J). apply in_map_iff in I as (r & <- & I). apply in_map_iff in J as (r' & <- & J).
  pose proof (held_elements k) as HE. pose proof E as E'. rewrite Forall_forall in HE, E'. assert (IR : In r (concat (map snd H))). { rewrite Q, map_app, concat_app. apply in_or_app. right. cbn. apply in_or_app. auto. }
  apply number_injective in EQ; auto. apply held_after_incl in J. cbn [app] in J. pose proof A as A'. rewrite Q, map_app, concat_app, map_app in A'. cbn [map concat] in A'.
  eapply (NoDup_app_no _ _ (fst r) A'); [rewrite <- EQ; apply in_map; auto|]. rewrite map_app. apply in_or_app. left. apply in_map; auto.
Qed.
Lemma numbers_NoDup rs : NoDup (map fst rs) -> Forall (fun r => set_element (fst r)) rs -> NoDup (numbers rs).
Proof. intros N F. apply NoDup_map_inj; auto. apply Forall_map in F. rewrite Forall_forall in F. intros; apply number_injective; auto. Qed.
Hypothesis NZ : Forall (fun r => numeric_string2uint (fst r) <> 0) (concat (map snd H)).
Lemma proper_numbers : proper_history (number_history H).
Proof.
  intros k L. unfold number_history in L. rewrite map_length in L. rewrite nth_numbers. pose proof (day_at k L) as D. destruct (split_at k ([], []) L) as (_ & Q & _).
  pose proof (not_readded k) as NR. destruct (nth k H ([], [])) as [d a] eqn:EN. destruct D as (D1 & D2). cbn [fst snd] in *.
  assert (AI : incl a (concat (map snd H))). { intros r Hr. rewrite Q, map_app, concat_app. apply in_or_app. right. cbn. apply in_or_app. auto. }
  assert (HE : Forall (fun r => set_element (fst r)) d). { apply Forall_forall. intros r Hr. pose proof (held_elements k) as HE. rewrite Forall_forall in HE. auto. }
  pose proof E as E'. pose proof NZ as NZ'. pose proof A as A'. rewrite Forall_forall in E', NZ'.
  split; [apply numbers_NoDup; auto|]. split. { apply numbers_NoDup; [|apply Forall_forall; auto]. rewrite Q, map_app, concat_app, map_app in A'. apply NoDup_app_r in A'. cbn [map concat snd] in A'. rewrite map_app in A'. eapply NoDup_app_l; eauto. }
  split. { rewrite current_numbers by (apply Nat.lt_le_incl; exact L). intros x Hx. apply in_map_iff in Hx as (s & <- & Hx). apply in_map_iff in Hx as (r & <- & Hx). apply in_map, in_map. auto. }
  split. { intros x Hx J. unfold kept, without in J. apply filter_In in J as (J & _). eapply NR; eauto. }
  apply Forall_forall. intros x Hx. apply in_map_iff in Hx as (s & <- & Hx). apply in_map_iff in Hx as (r & <- & Hx). apply AI in Hx. destruct (number_range _ (E' _ Hx)) as (NR1 & NR2). specialize (NZ' _ Hx).
  split; [apply Z.le_neq; split; [exact NR1|apply not_eq_sym; exact NZ']|eapply Z.lt_trans; [exact NR2|reflexivity]].
Qed.
Lemma no_return_one k x : (k < length H)%nat -> In x (current k (number_history H)) -> In x (current (S k) (number_history H)) -> In x (kept k (number_history H)).
Proof.
  intros L I J. cbn [current] in J. apply in_app_or in J as [J|J]; auto. exfalso. rewrite nth_numbers in J. cbn [snd] in J. eapply not_readded; eauto.
Qed.
Variable payload : Z -> Z.
Hypothesis P : Forall (fun r => snd r = payload (numeric_string2uint (fst r)) /\ 0 < snd r) (concat (map snd H)).
Lemma rows_numbers : Forall2 (rows_of payload) (map (map as_number) (map written H)) (number_history H).
Proof.
  unfold number_history.
  assert (PD : Forall (fun r => snd r = payload (numeric_string2uint (fst r)) /\ 0 < snd r) (concat (map fst H))). { pose proof (only_held_incl H [] O) as I. cbn [app] in I. rewrite Forall_forall in *. auto. }
  clear O A E NZ. induction H as [|[d a] h IH]; [constructor|]. cbn [map concat fst snd] in *. apply Forall_app in P as (P1 & P2). apply Forall_app in PD as (D1 & D2). constructor; [|auto].
  unfold rows_of, written. cbn [fst snd]. rewrite map_app, !filter_app.
  assert (G1 : filter (fun e => snd e <? 0) (map as_number (map (fun r => (fst r, - snd r)) d)) = map (fun x => (x, - payload x)) (numbers d) /\ filter (fun e => 0 <=? snd e) (map as_number (map (fun r => (fst r, - snd r)) d)) = []).
  { clear - D1. induction D1 as [|[e v] d (Q1 & Q2) D1 (I1 & I2)]; auto. cbn [map filter fst snd as_number] in *. unfold as_number at 1 3. cbn [fst snd]. unfold numbers in *. cbn [map fst].
    destruct (Z.ltb_spec (- v) 0); [|lia]. destruct (Z.leb_spec 0 (- v)); [lia|]. split; [|exact I2]. rewrite Q1. f_equal. exact I1. }
  assert (G2 : filter (fun e => snd e <? 0) (map as_number a) = [] /\ filter (fun e => 0 <=? snd e) (map as_number a) = map (fun x => (x, payload x)) (numbers a)).
  { clear - P1. induction P1 as [|[e v] d (Q1 & Q2) D1 (I1 & I2)]; auto. cbn [map filter fst snd] in *. change (snd (as_number (e, v))) with v. unfold numbers in *. cbn [map fst].
    destruct (Z.ltb_spec v 0); [lia|]. destruct (Z.leb_spec 0 v); [|lia]. split; [exact I1|]. unfold as_number at 1. cbn [fst snd]. rewrite Q1 at 1. f_equal. exact I2. }
  destruct G1 as (-> & ->), G2 as (-> & ->). rewrite app_nil_r. auto.
Qed.
End PsiHistory.
Lemma written_added h r : In r (concat (map snd h)) -> In r (concat (map written h)).
Proof. induction h as [|[d a] h IH]; intros I; auto. cbn [map concat snd] in *. apply in_app_or in I as [I|I]; apply in_or_app; auto. left. unfold written. cbn [fst snd]. apply in_or_app; auto. Qed.
Lemma both_numbers a b : Forall (fun r => set_element (fst r)) a -> Forall (fun r => set_element (fst r)) b ->
  length (both (numbers a) (numbers b)) = length (common_strings (map fst a) (map fst b)).
Proof.
  intros FA FB. assert (FB' : Forall set_element (map fst b)) by (apply Forall_map; auto). unfold both, numbers, common_strings. induction FA as [|[e v] a Q F IH]; auto.
  cbn [map filter fst] in *. rewrite mem_number by auto. destruct (is_in (map fst b) e); cbn [length]; rewrite ?IH; auto.
Qed.
(** For the intersection functionality, unless the element 000...0 was drawn
    (its value 0 has no sign): the two parties load histories (the initial trees
    being the first day) for which the deletion-psi theorems (C22) hold, without
    returning elements, and the number returned is the change of the size of the
    intersection. *)
Theorem C43_psi : forall days daily start max coins tree0 days0 tree1 days1 result rest,
  uint32 days -> uint32 daily -> uint32 start -> uint32 max ->
  generate_deletion days daily start max PSI coins = Ok ((tree0, days0, tree1, days1, result), rest) ->
  start + days * daily < 2 ^ 30 ->
  Forall (fun s => numeric_string2uint s <> 0) (all_elements tree0 days0 ++ all_elements tree1 days1) ->
  exists l0 l1 h0 h1, omap dataset_pairs (tree0 :: days0) = Ok l0 /\ omap dataset_pairs (tree1 :: days1) = Ok l1 /\
    proper_history h0 /\ proper_history h1 /\ length h1 = length h0 /\
    data_of (fun x => x) l0 h0 /\ data_of (fun _ => 1) l1 h1 /\
    (forall k, (k < length h0)%nat -> no_return k h0 h1) /\
    result = Z.of_nat (length (both (current (length h0) h0) (current (length h1) h1))) - Z.of_nat (length (both (current 1 h0) (current 1 h1))).
Proof.
  intros days daily start max coins tree0 days0 tree1 days1 result rest U1 U2 U3 U4 H SM NZ.
  destruct (C43_loaded _ _ _ _ _ _ _ _ _ _ _ _ U1 U2 U3 U4 H SM) as (l0 & l1 & LO0 & LO1 & LL & PS & _).
  destruct (C43_deletes_what_is_present _ _ _ _ _ _ _ _ _ _ _ _ U1 U2 U3 U4 H) as (DP & h0 & h1 & R0 & R1 & LV & O0 & O1 & A0 & A1 & V0 & V1 & S0 & S1 & (_ & RES) & SZ).
  assert (LV0 : Forall (fun d => length (d_values d) = length (d_elements d)) (tree0 :: days0)). { apply Forall_cons_iff in LV as (Q & LV). apply Forall_app in LV as (LV & _). constructor; auto. }
  assert (LV1 : Forall (fun d => length (d_values d) = length (d_elements d)) (tree1 :: days1)). { apply Forall_cons_iff in LV as (Q & LV). apply Forall_app in LV as (_ & LV). auto. }
  assert (E0 : Forall (fun r => set_element (fst r)) (rows tree0 ++ concat (map snd h0))) by (eapply Forall_impl; [|exact V0]; cbn; tauto).
  assert (E1 : Forall (fun r => set_element (fst r)) (rows tree1 ++ concat (map snd h1))) by (eapply Forall_impl; [|exact V1]; cbn; tauto).
  apply Forall_app in NZ as (NZ0 & NZ1). change (all_elements tree0 days0) with (concat (map d_elements (tree0 :: days0))) in NZ0. change (all_elements tree1 days1) with (concat (map d_elements (tree1 :: days1))) in NZ1.
  rewrite <- (rows_elements _ LV0) in NZ0. rewrite <- (rows_elements _ LV1) in NZ1. rewrite Forall_map in NZ0, NZ1. cbn [map concat] in NZ0, NZ1. rewrite R0 in NZ0. rewrite R1 in NZ1.
  assert (N0 : Forall (fun r => numeric_string2uint (fst r) <> 0) (rows tree0 ++ concat (map snd h0))).
  { apply Forall_forall. intros r Hr. rewrite Forall_forall in NZ0. apply NZ0. apply in_app_or in Hr as [Hr|Hr]; apply in_or_app; auto. right. apply written_added; auto. }
  assert (N1 : Forall (fun r => numeric_string2uint (fst r) <> 0) (rows tree1 ++ concat (map snd h1))).
  { apply Forall_forall. intros r Hr. rewrite Forall_forall in NZ1. apply NZ1. apply in_app_or in Hr as [Hr|Hr]; apply in_or_app; auto. right. apply written_added; auto. }
  assert (P0 : Forall (fun r => snd r = numeric_string2uint (fst r) /\ 0 < snd r) (rows tree0 ++ concat (map snd h0))).
  { rewrite Forall_forall in *. intros r Hr. destruct (V0 r Hr) as (Q1 & Q2). cbn [value_ok] in Q2. rewrite stoll_set_element in Q2 by auto. apply Ok_inj' in Q2. specialize (N0 r Hr). pose proof (number_range _ Q1). split; [exact Q2|]. apply Z.le_neq. split; [apply (Z.le_trans _ (numeric_string2uint (fst r))); [apply H0|apply Z.eq_le_incl; symmetry; exact Q2]|]. intros Q3. apply N0. transitivity (snd r); [symmetry; exact Q2|symmetry; exact Q3]. }
  assert (P1 : Forall (fun r => snd r = 1 /\ 0 < snd r) (rows tree1 ++ concat (map snd h1))). { eapply Forall_impl; [|exact V1]. cbn beta. intros r (Q1 & Q2). lia. }
  assert (L0 : l0 = map (map as_number) (rows tree0 :: map written h0)).
  { rewrite (load_rows tree0 days0 h0) in LO0; auto; [apply Ok_inj' in LO0; auto|]. eapply Forall_impl; [|exact V0]. cbn beta. intros r (Q1 & Q2). pose proof (value_small _ _ _ U4 Q1 Q2). unfold uint32 in U4. lia. }
  assert (L1 : l1 = map (map as_number) (rows tree1 :: map written h1)).
  { rewrite (load_rows tree1 days1 h1) in LO1; auto; [apply Ok_inj' in LO1; auto|]. eapply Forall_impl; [|exact P1]. cbn beta. intros r (Q1 & Q2). lia. }
  set (H0 := ([], rows tree0) :: h0 : changes). set (H1 := ([], rows tree1) :: h1 : changes).
  assert (OH0 : only_held [] H0). { unfold H0. cbn [only_held]. split; [constructor|]. split; [intros x []|]. exact O0. }
  assert (OH1 : only_held [] H1). { unfold H1. cbn [only_held]. split; [constructor|]. split; [intros x []|]. exact O1. }
  destruct (PS (Z.max max (10 ^ 15))) as ((_ & IR0) & (_ & IR1)); [apply Z.le_max_r|apply Z.le_max_l|].
  exists l0, l1, (number_history H0), (number_history H1). split; [auto|]. split; [auto|].
  assert (LH : length (number_history H1) = length (number_history H0)). { unfold number_history. rewrite !map_length. rewrite L0, L1, !map_length in LL. cbn [length] in *. rewrite !map_length in LL. auto. }
  split; [apply proper_numbers; auto|]. split; [apply proper_numbers; auto|]. split; [auto|].
  split. { split; auto. rewrite L0. change (rows tree0 :: map written h0) with (map written H0). apply (rows_numbers H0 OH0). exact P0. }
  split. { split; auto. rewrite L1. change (rows tree1 :: map written h1) with (map written H1). apply (rows_numbers H1 OH1). exact P1. }
  assert (LN : length (number_history H0) = length H0 /\ length (number_history H1) = length H1) by (unfold number_history; rewrite !map_length; auto). destruct LN as (LN0 & LN1).
  split.
  - intros k L x Hx Hy. unfold both in *. apply filter_In in Hx as (X1 & X2). apply filter_In in Hy as (Y1 & Y2). apply existsb_exists in X2 as (x' & X2 & QX). apply Z.eqb_eq in QX. subst x'. apply existsb_exists in Y2 as (x' & Y2 & QY). apply Z.eqb_eq in QY. subst x'.
    apply filter_In. split; [apply (no_return_one H0); auto; rewrite <- LN0; auto|]. apply existsb_exists. exists x. split; [|apply Z.eqb_refl]. apply (no_return_one H1); auto. rewrite <- LN1, LH. auto.
  - rewrite RES by discriminate. rewrite LN0, LN1. cbn [score]. rewrite (current_numbers H0), (current_numbers H1), (current_numbers H0 OH0 E0 1), (current_numbers H1 OH1 E1 1); auto; try (unfold H0, H1; cbn [length]; lia).
    rewrite !firstn_all. unfold H0, H1. cbn [firstn held_after drop filter app].
    assert (T0 : Forall (fun r => set_element (fst r)) (rows tree0)) by (apply Forall_app in E0; apply E0). assert (T1 : Forall (fun r => set_element (fst r)) (rows tree1)) by (apply Forall_app in E1; apply E1).
    rewrite (both_numbers (rows tree0) (rows tree1)) by auto.
    rewrite both_numbers; [reflexivity| |].
    + apply Forall_forall. intros r Hr. apply held_after_incl in Hr. rewrite Forall_forall in E0. auto.
    + apply Forall_forall. intros r Hr. apply held_after_incl in Hr. rewrite Forall_forall in E1. auto.
Qed.

(** ** concrete cases *)
(** 2 days of 4 rows after initial trees of 4, both sum and intersection *)
Definition ex_deletion (f : functionality) (k v : Z) : bool :=
  match generate_deletion 2 4 4 20 f (ex_coins k) with
  | Ok ((tree0, days0, tree1, days1, result), _) =>
      (Z.of_nat (length (filter (fun r => snd r <? 0) (concat (map rows days0)))) =? 2) && (Z.of_nat (length (concat (map rows days1))) =? 8) && (result =? v)
      && forallb (fun s => negb (numeric_string2uint s =? 0)) (all_elements tree0 days0 ++ all_elements tree1 days1)
  | _ => false
  end.
Example ex_C43_sum : ex_deletion SUM 9 24 = true.
Proof. vm_cast_no_check (eq_refl true). Qed.
Example ex_C43_psi : ex_deletion PSI 23 (-1) = true.
Proof. vm_cast_no_check (eq_refl true). Qed.
Example ex_C43_usable : usable SUM 20 /\ usable PSI 0. Proof. cbn. lia. Qed.

Print Assumptions C43_deletes_what_is_present.
Print Assumptions C43_returns.
Print Assumptions C43_refused.
Print Assumptions C43_loaded.
Print Assumptions C43_psi.
