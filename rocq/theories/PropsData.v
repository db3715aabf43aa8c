(** * C42: generated addition-only data *)
Require Import List Arith Lia ZArith Bool Permutation.
Import ListNotations.
From Verif Require Import Prelude BytesModel FlagModel Coins TreeModel TreeSpec AddSpec WireModel WireProofs CsvModel CsvSpec CsvProofs PropsCsv DataModel DataSpec DataProofs.
Local Open Scope Z_scope.

Lemma of_nat_inj_Z a b : Z.of_nat a = b -> a = Z.to_nat b. Proof. lia. Qed.
Lemma u32_range x : 0 <= u32 x < 2 ^ 32. Proof. apply Z.mod_pos_bound. reflexivity. Qed.
Lemma u32_id x : 0 <= x < 2 ^ 32 -> u32 x = x. Proof. apply Z.mod_small. Qed.
Lemma u32_le x : 0 <= x -> u32 x <= x. Proof. intros H. apply Z.mod_le; auto. reflexivity. Qed.
Lemma total_wrap start days daily : uint32 start -> uint32 days -> uint32 daily ->
  u32 (start + u32 (days * daily)) = u32 (start + days * daily).
Proof. intros _ _ _. unfold u32. apply Zplus_mod_idemp_r. Qed.

(** what the two loops drawing strings produce *)
Lemma draw_pairs n t rest t' : repeatM (A := bytes * bytes) n (a <- random_set_element ;; b <- random_set_element ;; ret (a, b)) t = Ok (rest, t') ->
  length rest = n /\ Forall set_element (map fst rest) /\ Forall set_element (map snd rest).
Proof.
  intros H. apply repeatM_Ok in H as (L & F). split; auto.
  split; apply Forall_map; (eapply Forall_impl; [|exact F]); intros [x y] (s & s' & H); apply bind_Ok in H as (a & t1 & Ha & H); apply bind_Ok in H as (b & t2 & Hb & H); apply ret_Ok in H as (E & _); inversion E; subst; cbn;
  [apply random_set_element_spec in Ha; tauto | apply random_set_element_spec in Hb; tauto].
Qed.
Lemma draw_strings n t (l : list bytes) t' : repeatM (A := bytes) n random_set_element t = Ok (l, t') -> length l = n /\ Forall set_element l.
Proof. intros H. apply repeatM_Ok in H as (L & F). split; auto. eapply Forall_impl; [|exact F]. intros x (s & s' & H). apply random_set_element_spec in H; tauto. Qed.
Lemma draw_pairs_total n t : exists rest t', repeatM (A := bytes * bytes) n (a <- random_set_element ;; b <- random_set_element ;; ret (a, b)) t = Ok (rest, t').
Proof.
  apply repeatM_total. intros t0. destruct (random_set_element_total t0) as (a & t1 & E1). destruct (random_set_element_total t1) as (b & t2 & E2).
  unfold bind. rewrite E1, E2. eexists _, _. reflexivity.
Qed.

(** GenerateAddOnlySets(days, daily, start, shared, max): whatever is drawn,
    when it returns the sizes did not wrap around and the result is as asked:
    initial trees of [start] rows and [days] days of [daily] rows for each
    party, party zero's with values below [max]; elements are 16 digits; [shared]
    of the drawn elements are given to both parties; and the reported sum is the
    sum of the values of party zero's rows whose element party one also has. *)
Theorem C42_as_requested : forall days daily start shared max coins tree0 days0 tree1 days1 sum rest,
  uint32 days -> uint32 daily -> uint32 start -> uint32 shared -> uint32 max ->
  generate_add_only days daily start shared max coins = Ok ((tree0, days0, tree1, days1, sum), rest) ->
  let total := start + days * daily in
  total < 2 ^ 32 /\ shared <= total /\ shared * max < 2 ^ 63 /\
  with_values start tree0 /\ Z.of_nat (length days0) = days /\ Forall (with_values daily) days0 /\
  without_values start tree1 /\ Z.of_nat (length days1) = days /\ Forall (without_values daily) days1 /\
  Forall set_element (all_elements tree0 days0) /\ Forall set_element (all_elements tree1 days1) /\
  Forall (fun r => 0 <= snd r < max) (all_rows tree0 days0) /\
  (exists both own0 own1, Z.of_nat (length both) = shared /\
     Permutation (all_elements tree0 days0) (both ++ own0) /\ Permutation (all_elements tree1 days1) (both ++ own1)) /\
  sum = sum_over (all_elements tree1 days1) (all_rows tree0 days0).
Proof.
  intros days daily start shared max coins tree0 days0 tree1 days1 sum rest U1 U2 U3 U4 U5 H total.
  unfold generate_add_only in H. rewrite total_wrap in H by auto. set (T := u32 (start + days * daily)) in *. pose proof (u32_range (start + days * daily)) as RT. fold T in RT.
  unfold uint32 in *.
  destruct (Z.ltb_spec T shared) as [|ST]; [discriminate|].
  destruct ((0 <? max) && ((2 ^ 63 - 1) / max <? shared)) eqn:EM; [discriminate|].
  apply bind_Ok in H as (inter & t1 & H1 & H). apply draw_strings in H1 as (L1 & F1).
  apply bind_Ok in H as (own & t2 & H2 & H). apply draw_pairs in H2 as (L2 & F2 & F3).
  apply bind_Ok in H as (p0 & t3 & H3 & H). apply shuffle_perm in H3.
  apply bind_Ok in H as (p1 & t4 & H4 & H). apply shuffle_perm in H4.
  apply bind_Ok in H as ((vs & sm) & t5 & H5 & H). apply add_values_inv in H5 as (LV & FV & SV).
  apply bind_Ok in H as ((tr0 & tr1) & t6 & H6 & H). apply lift_Ok in H6 as (H6 & _). apply add_rows_inv in H6 as ((A1 & A2 & A3 & A4) & B1 & B2 & B3).
  apply bind_Ok in H as (ds & t7 & H7 & H). apply lift_Ok in H7 as (H7 & _). apply add_days_inv in H7 as (LD & FD & C1 & C2 & C3).
  apply ret_Ok in H as (E & _). inversion E; subst tree0 days0 tree1 days1 sum; clear E. cbn [fst snd] in *.
  assert (LP0 : length p0 = Z.to_nat T). { rewrite (Permutation_length H3), app_length, map_length, L1, L2. lia. }
  assert (LP1 : length p1 = Z.to_nat T). { rewrite (Permutation_length H4), app_length, map_length, L1, L2. lia. }
  assert (LS : (Z.to_nat start <= Z.to_nat T)%nat). { rewrite <- A1, B1, firstn_length. cbn [skipn]. lia. }
  assert (LDD : (Z.to_nat days * Z.to_nat daily = 0 \/ Z.to_nat start + Z.to_nat days * Z.to_nat daily <= Z.to_nat T)%nat).
  { assert (K : length (concat (map d_elements (map fst ds))) = (Z.to_nat days * Z.to_nat daily)%nat).
    { rewrite <- LD. clear - FD. induction FD as [|x ds (H & _) F IH]; auto. cbn [map concat length]. rewrite app_length, H, IH. reflexivity. }
    rewrite C1, firstn_length, skipn_length, LP0 in K. lia. }
  assert (NT : total = T).
  { unfold total. destruct LDD as [Z0|LE].
    - assert (days * daily = 0) by (apply Nat.eq_mul_0 in Z0; nia). unfold T. rewrite u32_id; lia.
    - rewrite <- Z2Nat.inj_mul in LE by lia. assert (start + days * daily <= T) by lia. pose proof (u32_le (start + days * daily)) as Q. fold T in Q. lia. }
  assert (LT : (Z.to_nat start + Z.to_nat days * Z.to_nat daily = Z.to_nat T)%nat) by (rewrite <- Z2Nat.inj_mul by lia; lia).
  assert (E0 : all_elements tr0 (map fst ds) = p0).
  { unfold all_elements. rewrite B1, C1. cbn [skipn]. rewrite <- firstn_add, LT, <- LP0. apply firstn_all. }
  assert (E1 : all_elements tr1 (map snd ds) = p1).
  { unfold all_elements. rewrite B2, C2. cbn [skipn]. rewrite <- firstn_add, LT, <- LP1. apply firstn_all. }
  assert (E2 : all_rows tr0 (map fst ds) = combine p0 vs).
  { unfold all_rows. rewrite B3, C3. cbn [skipn]. rewrite <- firstn_add, LT. apply firstn_all2. rewrite combine_length. lia. }
  rewrite E0, E1, E2. rewrite NT.
  split; [lia|]. split; [auto|]. split.
  { destruct (Z.ltb_spec 0 max) as [P|P]; cbn [andb] in EM; [|nia]. apply Z.ltb_ge in EM.
    pose proof (Z.mul_div_le (2 ^ 63 - 1) max P). nia. }
  unfold with_values, without_values. rewrite A1, A2, A3, A4, !map_length, LD. rewrite !Z2Nat.id by lia.
  split; [auto|]. split; [auto|]. split.
  { apply Forall_map. eapply Forall_impl; [|exact FD]. intros x (Q1 & Q2 & _). lia. }
  split; [auto|]. split; [auto|]. split.
  { apply Forall_map. eapply Forall_impl; [|exact FD]. intros x (_ & _ & Q1 & Q2). split; auto; lia. }
  split. { eapply Permutation_Forall; [symmetry; eauto|]. apply Forall_app; auto. }
  split. { eapply Permutation_Forall; [symmetry; eauto|]. apply Forall_app; auto. }
  split. { apply Forall_forall. intros [s v] I. apply in_combine_r in I. rewrite Forall_forall in FV. apply FV; auto. }
  split; [|lia].
  exists inter, (map fst own), (map snd own). split; [lia|]. auto.
Qed.

(** If no two drawn strings coincide, no party has an element twice and exactly
    [shared] elements are common. *)
Theorem C42_overlap : forall days daily start shared max coins tree0 days0 tree1 days1 sum rest,
  uint32 days -> uint32 daily -> uint32 start -> uint32 shared -> uint32 max ->
  generate_add_only days daily start shared max coins = Ok ((tree0, days0, tree1, days1, sum), rest) ->
  no_coincidence (start + days * daily) shared (all_elements tree0 days0) (all_elements tree1 days1) ->
  NoDup (all_elements tree0 days0) /\ NoDup (all_elements tree1 days1) /\
  Z.of_nat (length (common_strings (all_elements tree0 days0) (all_elements tree1 days1))) = shared.
Proof.
  intros days daily start shared max coins tree0 days0 tree1 days1 sum rest U1 U2 U3 U4 U5 H N.
  destruct (C42_as_requested _ _ _ _ _ _ _ _ _ _ _ _ U1 U2 U3 U4 U5 H) as (T1 & T2 & _ & (W0 & _) & LD0 & W0' & (W1 & _) & LD1 & W1' & _ & _ & _ & (I & R0 & R1 & LI & P0 & P1) & _).
  assert (LA0 : Z.of_nat (length (all_elements tree0 days0)) = start + days * daily).
  { unfold all_elements. rewrite app_length, Nat2Z.inj_add, W0. f_equal. rewrite <- LD0. clear - W0'. induction W0' as [|x l (Hx & _) F IH]; auto. cbn [map concat length]. rewrite app_length. lia. }
  assert (LA1 : Z.of_nat (length (all_elements tree1 days1)) = start + days * daily).
  { unfold all_elements. rewrite app_length, Nat2Z.inj_add, W1. f_equal. rewrite <- LD1. clear - W1'. induction W1' as [|x l (Hx & _) F IH]; auto. cbn [map concat length]. rewrite app_length. lia. }
  pose proof (Permutation_length P0) as Q0. pose proof (Permutation_length P1) as Q1. rewrite app_length in Q0, Q1.
  destruct (common_overlap _ _ _ _ _ P0 P1) as (X1 & X2 & X3 & _); [unfold no_coincidence in N; lia|]. rewrite X3. auto.
Qed.

(** With sizes below 2^32 that make sense it always returns. *)
Theorem C42_always : forall days daily start shared max coins,
  uint32 days -> uint32 daily -> uint32 start -> uint32 shared -> uint32 max ->
  let total := start + days * daily in
  total < 2 ^ 32 -> shared <= total -> 0 < max -> total * max < 2 ^ 63 ->
  exists r, generate_add_only days daily start shared max coins = Ok r.
Proof.
  intros days daily start shared max coins U1 U2 U3 U4 U5 total NW ST PM OV. unfold uint32 in *. subst total.
  unfold generate_add_only. rewrite total_wrap by auto. rewrite u32_id by nia. set (T := start + days * daily) in *.
  destruct (Z.ltb_spec T shared) as [|_]; [lia|].
  assert ((0 <? max) && ((2 ^ 63 - 1) / max <? shared) = false) as ->.
  { apply andb_false_iff. right. apply Z.ltb_ge. apply Z.div_le_lower_bound; nia. }
  destruct (repeatM_total (A := bytes) random_set_element (Z.to_nat shared) random_set_element_total coins) as (inter & t1 & E1).
  unfold bind at 1. rewrite E1. apply draw_strings in E1 as (L1 & _).
  destruct (draw_pairs_total (Z.to_nat (T - shared)) t1) as (own & t2 & E2). unfold bind at 1. rewrite E2. apply draw_pairs in E2 as (L2 & _).
  destruct (shuffle_total (inter ++ map fst own) t2) as (p0 & t3 & E3). unfold bind at 1. rewrite E3. apply shuffle_perm, Permutation_length in E3. rewrite app_length, map_length in E3.
  destruct (shuffle_total (inter ++ map snd own) t3) as (p1 & t4 & E4). unfold bind at 1. rewrite E4. apply shuffle_perm, Permutation_length in E4. rewrite app_length, map_length in E4.
  assert (LP : length p0 = Z.to_nat T) by lia.
  destruct (add_values_ok max p1 p0 0 t4 PM) as (vs & sm & t5 & E5); [rewrite LP; nia|]. unfold bind at 1. rewrite E5. apply add_values_inv in E5 as (LV & _ & _).
  destruct (add_rows_ok p0 p1 vs 0 (Z.to_nat start)) as ((tr0 & tr1) & E6); [nia|lia|lia|]. rewrite E6. unfold bind at 1, lift at 1.
  destruct (add_days_ok p0 p1 vs (Z.to_nat daily) (Z.to_nat days) (Z.to_nat start)) as (ds & E7); [rewrite <- Z2Nat.inj_mul; lia|lia|lia|]. rewrite E7.
  eexists. reflexivity.
Qed.

(** Requests that make no sense are refused with an exception: more shared
    elements than elements, a sum that might not fit, or no possible value;
    sizes that wrap around never give a result. *)
Theorem C42_refused : forall days daily start shared max coins,
  uint32 days -> uint32 daily -> uint32 start -> uint32 shared -> uint32 max ->
  let total := start + days * daily in
  (total < shared -> generate_add_only days daily start shared max coins = Abort) /\
  (total < 2 ^ 32 -> 2 ^ 63 <= shared * max -> generate_add_only days daily start shared max coins = Abort) /\
  (total < 2 ^ 32 -> 0 < total -> max = 0 -> generate_add_only days daily start shared max coins = Abort) /\
  (2 ^ 32 <= total -> forall r, generate_add_only days daily start shared max coins <> Ok r).
Proof.
  intros days daily start shared max coins U1 U2 U3 U4 U5 total.
  assert (G : generate_add_only days daily start shared max coins = generate_add_only days daily start shared max coins) by auto.
  unfold generate_add_only at 2 in G. rewrite total_wrap in G by auto. unfold uint32 in *.
  split; [|split; [|split]].
  - intros L. subst total. rewrite u32_id in G by nia. destruct (Z.ltb_spec (start + days * daily) shared); [auto|lia].
  - intros NW OV. rewrite G. subst total. rewrite u32_id by nia. destruct (Z.ltb_spec (start + days * daily) shared) as [|LE]; auto.
    assert ((0 <? max) && ((2 ^ 63 - 1) / max <? shared) = true) as ->; auto.
    apply andb_true_iff. split; [apply Z.ltb_lt; nia|]. apply Z.ltb_lt. apply Z.div_lt_upper_bound; nia.
  - intros NW P0 ->. rewrite G. subst total. rewrite u32_id by nia. set (T := start + days * daily) in *. destruct (Z.ltb_spec T shared) as [|LE]; auto. cbn [Z.ltb Z.compare andb].
    destruct (repeatM_total (A := bytes) random_set_element (Z.to_nat shared) random_set_element_total coins) as (inter & t1 & E1).
    unfold bind at 1. rewrite E1. apply draw_strings in E1 as (L1 & _).
    destruct (draw_pairs_total (Z.to_nat (T - shared)) t1) as (own & t2 & E2). unfold bind at 1. rewrite E2. apply draw_pairs in E2 as (L2 & _).
    destruct (shuffle_total (inter ++ map fst own) t2) as (p0 & t3 & E3). unfold bind at 1. rewrite E3. apply shuffle_perm, Permutation_length in E3. rewrite app_length, map_length in E3.
    destruct (shuffle_total (inter ++ map snd own) t3) as (p1 & t4 & E4). unfold bind at 1. rewrite E4.
    destruct p0 as [|s p0]; [cbn in E3; lia|]. reflexivity.
  - intros W [[[[[tr0 d0] tr1] d1] sm] t] H. apply C42_as_requested in H; auto. lia.
Qed.

(** ** what the parties then load *)
Lemma numeric_injective a : forall b, length a = length b -> Forall (fun c => 48 <= c <= 57) a -> Forall (fun c => 48 <= c <= 57) b ->
  forall x y, fold_left (fun x c => x * 10 + c - 48) a x = fold_left (fun x c => x * 10 + c - 48) b y -> x = y /\ a = b.
Proof.
  induction a as [|c a IH]; intros [|d b] L FA FB x y E; cbn in L; try lia; [cbn in E; auto|].
  apply Forall_cons_iff in FA as (C & FA). apply Forall_cons_iff in FB as (D & FB). cbn [fold_left] in E. apply IH in E as (E & ->); auto.
  assert (x = y) by lia. subst. split; auto. f_equal. lia.
Qed.
Lemma number_injective a b : set_element a -> set_element b -> numeric_string2uint a = numeric_string2uint b -> a = b.
Proof. intros (L1 & F1 & _) (L2 & F2 & _) E. unfold numeric_string2uint in E. apply numeric_injective in E as (_ & E); auto. congruence. Qed.
Lemma number_range s : set_element s -> 0 <= numeric_string2uint s < 10 ^ 15.
Proof.
  intros (L & F & N). destruct s as [|c s]; [discriminate|]. cbn [nth] in N. subst c. inversion F; subst. cbn in L.
  assert (FS : Forall (fun c => 48 <= c < 58) s) by (eapply Forall_impl; [|eauto]; cbn; lia).
  pose proof (digits_bound s FS 0) as B. assert (length s = 15%nat) as LS by lia. rewrite LS in B. unfold numeric_string2uint. cbn [fold_left]. change (0 * 10 + 48 - 48) with 0.
  change (Z.of_nat 15) with 15 in B. lia.
Qed.
Lemma set_element_digits s : set_element s -> digits s.
Proof. intros (L & F & _). split; auto. intros ->. discriminate. Qed.
Lemma NoDup_map_inj {A B} (f : A -> B) l : (forall a b, In a l -> In b l -> f a = f b -> a = b) -> NoDup l -> NoDup (map f l).
Proof.
  induction l as [|x l IH]; intros H N; [constructor|]. inversion N; subst. cbn. constructor.
  - intros I. apply in_map_iff in I as (y & E & I). apply H in E; [subst; auto|right; auto|left; auto].
  - apply IH; auto. intros a b Ia Ib. apply H; right; auto.
Qed.
Lemma load_elements ds : Forall set_element (concat (map d_elements ds)) -> omap dataset_elements ds = Ok (map (fun d => map numeric_string2uint (d_elements d)) ds).
Proof.
  induction ds as [|d ds IH]; intros F; auto. cbn [map concat] in F. apply Forall_app in F as (F1 & F2). cbn [omap map].
  destruct (C41_numbers d) as (E & _).
  - eapply Forall_impl; [|exact F1]. apply set_element_digits.
  - eapply Forall_impl; [|exact F1]. intros s H. apply number_range in H. lia.
  - rewrite E, IH by auto. reflexivity.
Qed.
Definition as_number (r : bytes * Z) : Z * Z := (numeric_string2uint (fst r), snd r).
Lemma as_number_fst rs : map fst (map as_number rs) = map numeric_string2uint (map fst rs).
Proof. induction rs as [|r rs IH]; auto. cbn [map]. rewrite IH. auto. Qed.
Lemma as_number_snd rs : map snd (map as_number rs) = map snd rs.
Proof. induction rs as [|r rs IH]; auto. cbn [map]. rewrite IH. auto. Qed.
Lemma load_pairs ds : Forall set_element (concat (map d_elements ds)) -> Forall (fun d => length (d_values d) = length (d_elements d)) ds ->
  Forall (fun r => - 2 ^ 63 < snd r) (concat (map rows ds)) ->
  omap dataset_pairs ds = Ok (map (fun d => map as_number (rows d)) ds).
Proof.
  induction ds as [|d ds IH]; intros F L V; auto. cbn [map concat] in F, V. apply Forall_app in F as (F1 & F2). apply Forall_app in V as (V1 & V2). apply Forall_cons_iff in L as (L1 & L2). cbn [omap map].
  destruct (C41_numbers d) as (_ & E & _).
  - eapply Forall_impl; [|exact F1]. apply set_element_digits.
  - eapply Forall_impl; [|exact F1]. intros s H. apply number_range in H. lia.
  - rewrite E, IH; auto.
    + cbn [obind]. do 2 f_equal. unfold rows. clear - L1. destruct d as [es vs]. cbn [d_elements d_values] in *. revert vs L1. induction es as [|e es IH]; intros [|v vs] L1; cbn in *; auto; try lia. f_equal. apply IH. lia.
    + apply Forall_forall. intros v Iv. rewrite Forall_forall in V1. destruct d as [es vs]. unfold rows in V1. cbn [d_elements d_values] in *.
      destruct (In_nth _ _ 0 Iv) as (k & Hk & <-). specialize (V1 (nth k es [], nth k vs 0)). cbn [snd] in V1.
      assert (I : In (nth k es [], nth k vs 0) (combine es vs)). { rewrite <- (combine_nth _ _ _ _ _ (eq_sym L1)). apply nth_In. rewrite combine_length. lia. }
      apply V1 in I. lia.
Qed.
Lemma concat_map_map {A B C} (f : B -> C) (g : A -> list B) l : concat (map (fun x => map f (g x)) l) = map f (concat (map g l)).
Proof. induction l as [|x l IH]; auto. cbn. rewrite map_app, IH. auto. Qed.
Lemma combine_fst {A B} (a : list A) : forall b : list B, length b = length a -> map fst (combine a b) = a.
Proof. induction a as [|x a IH]; intros [|y b] L; cbn in *; try lia; auto. f_equal. auto. Qed.
Lemma rows_elements ds : Forall (fun d => length (d_values d) = length (d_elements d)) ds -> map fst (concat (map rows ds)) = concat (map d_elements ds).
Proof. induction 1 as [|d ds H F IH]; auto. cbn. rewrite map_app, IH. f_equal. apply combine_fst; auto. Qed.
Lemma mem_number s l : set_element s -> Forall set_element l -> mem (numeric_string2uint s) (map numeric_string2uint l) = is_in l s.
Proof.
  intros S F. destruct (is_in l s) eqn:E.
  - apply is_in_spec in E. apply existsb_exists. exists (numeric_string2uint s). split; [apply in_map; auto|apply Z.eqb_refl].
  - destruct (mem _ _) eqn:M; auto. apply existsb_exists in M as (x & I & Q). apply Z.eqb_eq in Q. subst x. apply in_map_iff in I as (y & Q & I).
    rewrite Forall_forall in F. apply number_injective in Q; auto. subst y. apply is_in_spec in I. congruence.
Qed.
Lemma common_number rs l : Forall (fun r => set_element (fst r)) rs -> Forall set_element l ->
  common (@fst Z Z) (map as_number rs) (map numeric_string2uint l) =
  map as_number (filter (fun r => is_in l (fst r)) rs).
Proof.
  intros F G. unfold common. induction F as [|[s v] rs H F IH]; auto. cbn [map filter]. unfold as_number at 1. cbn [fst snd] in *. rewrite mem_number by auto. destruct (is_in l s); cbn [map]; [f_equal|]; apply IH.
Qed.
Lemma filter_map_fst {A B} (f : A -> bool) (l : list (A * B)) : map fst (filter (fun r => f (fst r)) l) = filter f (map fst l).
Proof. induction l as [|x l IH]; auto. cbn. destruct (f (fst x)); cbn; rewrite IH; auto. Qed.

(** What the two parties load from the generated data (party zero elements with
    values, party one elements) satisfies the conditions of the addition-only
    protocol theorems (C16-C19) if no two strings coincide: as numbers there are
    exactly [shared] common elements, and the reported sum is the sum of their
    values. *)
Theorem C42_loaded : forall days daily start shared max coins tree0 days0 tree1 days1 sum rest,
  uint32 days -> uint32 daily -> uint32 start -> uint32 shared -> uint32 max ->
  generate_add_only days daily start shared max coins = Ok ((tree0, days0, tree1, days1, sum), rest) ->
  no_coincidence (start + days * daily) shared (all_elements tree0 days0) (all_elements tree1 days1) ->
  start + days * daily < 2 ^ 30 ->
  exists l0 l1, omap dataset_pairs (tree0 :: days0) = Ok l0 /\ omap dataset_elements (tree1 :: days1) = Ok l1 /\
    length l1 = length l0 /\ proper (@fst Z Z) l0 /\ proper (fun x => x) l1 /\ Forall (fun a => 0 <= snd a < max) (concat l0) /\
    Z.of_nat (length (common (@fst Z Z) (concat l0) (concat l1))) = shared /\ total (map snd (common (@fst Z Z) (concat l0) (concat l1))) = sum.
Proof.
  intros days daily start shared max coins tree0 days0 tree1 days1 sum rest U1 U2 U3 U4 U5 H N SM.
  destruct (C42_overlap _ _ _ _ _ _ _ _ _ _ _ _ U1 U2 U3 U4 U5 H N) as (N0 & N1 & OV).
  destruct (C42_as_requested _ _ _ _ _ _ _ _ _ _ _ _ U1 U2 U3 U4 U5 H) as (T1 & T2 & _ & (W0 & V0) & LD0 & W0' & (W1 & V1) & LD1 & W1' & S0 & S1 & VR & (I & R0 & R1 & LI & P0 & P1) & SU).
  assert (LV : Forall (fun d => length (d_values d) = length (d_elements d)) (tree0 :: days0)).
  { constructor; [lia|]. eapply Forall_impl; [|exact W0']. intros d (A & B). lia. }
  assert (LA0 : Z.of_nat (length (all_elements tree0 days0)) = start + days * daily).
  { unfold all_elements. rewrite app_length, Nat2Z.inj_add, W0. f_equal. rewrite <- LD0. clear - W0'. induction W0' as [|x l (Hx & _) F IH]; auto. cbn [map concat length]. rewrite app_length. lia. }
  assert (LA1 : Z.of_nat (length (all_elements tree1 days1)) = start + days * daily).
  { unfold all_elements. rewrite app_length, Nat2Z.inj_add, W1. f_equal. rewrite <- LD1. clear - W1'. induction W1' as [|x l (Hx & _) F IH]; auto. cbn [map concat length]. rewrite app_length. lia. }
  change (all_elements tree0 days0) with (concat (map d_elements (tree0 :: days0))) in *. change (all_elements tree1 days1) with (concat (map d_elements (tree1 :: days1))) in *.
  change (all_rows tree0 days0) with (concat (map rows (tree0 :: days0))) in *.
  eexists _, _. split; [apply load_pairs; auto; eapply Forall_impl; [|exact VR]; cbn; intros; lia|]. split; [apply load_elements; auto|].
  rewrite !map_length. split; [cbn [length]; lia|]. unfold proper. rewrite !concat_map_map.
  pose proof (rows_elements _ LV) as RE. set (rs := concat (map rows (tree0 :: days0))) in *. set (e0 := concat (map d_elements (tree0 :: days0))) in *. set (e1 := concat (map d_elements (tree1 :: days1))) in *.
  assert (SR : Forall (fun r => set_element (fst r)) rs). { apply Forall_map with (f := fst). rewrite RE. auto. }
  split; [split; [|split]|split; [split; [|split]|split; [|split]]].
  - rewrite as_number_fst, RE. apply NoDup_map_inj; auto. rewrite Forall_forall in S0. intros; apply number_injective; auto.
  - apply Forall_map. eapply Forall_impl; [|exact SR]. intros r Hr. cbn. apply number_range; auto.
  - unfold int_range. rewrite map_length. assert (length rs = length e0) by (rewrite <- RE, map_length; auto). lia.
  - rewrite map_id. apply NoDup_map_inj; auto. rewrite Forall_forall in S1. intros; apply number_injective; auto.
  - apply Forall_map. eapply Forall_impl; [|exact S1]. intros r Hr. cbn. apply number_range; auto.
  - unfold int_range. rewrite map_length. change (Z.of_nat (length e1) < 2 ^ 30). lia.
  - apply Forall_map. exact VR.
  - rewrite common_number by auto. rewrite map_length. unfold common_strings in OV. rewrite <- RE, <- filter_map_fst, map_length in OV. auto.
  - rewrite common_number by auto. rewrite as_number_snd. subst sum. reflexivity.
Qed.

(** ** concrete cases *)
Definition ex_coins (k : Z) : tape := fun n => Z.of_nat n * Z.of_nat n / k + Z.of_nat n.
(** 2 days of 2 rows after an initial tree of 1, 3 of them shared, values below 20 *)
Definition ex_add_only : bool :=
  match generate_add_only 2 2 1 3 20 (ex_coins 7) with
  | Ok ((tree0, days0, tree1, days1, sum), _) =>
      (length (distinct (all_elements tree0 days0 ++ all_elements tree1 days1)) =? 7)%nat && (length days0 =? 2)%nat &&
      (length (common_strings (all_elements tree0 days0) (all_elements tree1 days1)) =? 3)%nat && (0 <? sum)
  | _ => false
  end.
Example ex_C42 : ex_add_only = true.
Proof. vm_cast_no_check (eq_refl true). Qed.
Example ex_C42_refused : generate_add_only 2 2 1 6 20 (ex_coins 7) = Abort /\ generate_add_only 2 2 1 3 0 (ex_coins 7) = Abort.
Proof. split; reflexivity. Qed.

Print Assumptions C42_as_requested.
Print Assumptions C42_overlap.
Print Assumptions C42_always.
Print Assumptions C42_refused.
Print Assumptions C42_loaded.
