(** * Lemmas about generated data with deletions (C43) *)
Require Import List Arith Lia ZArith Bool Permutation.
Import ListNotations.
From Verif Require Import Prelude BytesModel FlagModel Coins WireModel WireProofs CsvModel DataModel DataSpec DataProofs.
Local Open Scope Z_scope.

Definition keys (m : list row) : list bytes := map fst m.
Lemma keys_app a b : keys (a ++ b) = keys a ++ keys b. Proof. apply map_app. Qed.
Lemma keys_perm a b : Permutation a b -> Permutation (keys a) (keys b). Proof. apply Permutation_map. Qed.
Lemma same_string_refl k : same_string k k = true. Proof. apply same_string_spec; auto. Qed.
Lemma same_string_neq a b : a <> b -> same_string a b = false.
Proof. intros N. destruct (same_string a b) eqn:E; auto. apply same_string_spec in E. congruence. Qed.
Lemma map_set_fresh m k v : ~ In k (keys m) -> map_set m k v = m ++ [(k, v)].
Proof.
  induction m as [|[k' v'] m IH]; intros N; auto. cbn [map_set keys map fst In app] in *. rewrite same_string_neq by intuition. rewrite IH by tauto. auto.
Qed.
Lemma map_set_present m k v : In k (keys m) -> exists a b v', m = a ++ (k, v') :: b /\ map_set m k v = a ++ (k, v) :: b.
Proof.
  induction m as [|[k' v'] m IH]; intros N; [destruct N|]. cbn [map_set]. destruct (same_string k k') eqn:E.
  - apply same_string_spec in E. subst k'. exists [], m, v'. auto.
  - destruct N as [N|N]; [cbn in N; subst; rewrite same_string_refl in E; discriminate|]. destruct (IH N) as (a & b & w & -> & ->). exists ((k', v') :: a), b, w. auto.
Qed.
Lemma map_set_keys m k v : incl (keys (map_set m k v)) (k :: keys m) /\ (NoDup (keys m) -> NoDup (keys (map_set m k v))) /\
  (length (map_set m k v) <= S (length m))%nat /\ (forall r, In r (map_set m k v) -> r = (k, v) \/ In r m).
Proof.
  destruct (in_dec string_eq_dec k (keys m)) as [I|N].
  - destruct (map_set_present m k v I) as (a & b & w & -> & ->). unfold keys. rewrite !map_app, !app_length. cbn [map fst length].
    split; [intros x Hx; right; auto|]. split; auto. split; [lia|]. intros r Hr. apply in_app_or in Hr. destruct Hr as [Hr|[Hr|Hr]]; auto; right; apply in_or_app; cbn; auto.
  - rewrite map_set_fresh by auto. unfold keys. rewrite map_app, app_length. cbn [map fst length]. split.
    { intros x Hx. apply in_app_or in Hx as [Hx|[Hx|[]]]; cbn; auto. }
    split. { intros ND. apply Permutation_NoDup with (l := k :: keys m); [apply Permutation_cons_append|constructor; auto]. }
    split; [lia|]. intros r Hr. apply in_app_or in Hr as [Hr|[Hr|[]]]; auto.
Qed.

Lemma nth_split_perm {A} (m : list A) d : forall k, (k < length m)%nat -> Permutation m (nth k m d :: firstn k m ++ skipn (S k) m).
Proof.
  induction m as [|x m IH]; intros k H; cbn [length] in H; [lia|]. destruct k as [|k]; [reflexivity|].
  cbn [nth firstn app]. change (skipn (S (S k)) (x :: m)) with (skipn (S k) m). rewrite (IH k) at 1 by lia. apply perm_swap.
Qed.
Lemma sample_inv m t e m' t' : sample m t = Ok ((e, m'), t') -> Permutation m (e :: m').
Proof.
  unfold sample. destruct m as [|r0 m]; [discriminate|]. destruct (2 ^ 31 <? _); [discriminate|].
  intros H. apply bind_Ok in H as (i & t1 & H1 & H). apply rand_less_than_range in H1. apply ret_Ok in H as (E & _).
  apply pair_equal_spec in E as (-> & ->). apply nth_split_perm. lia.
Qed.
Lemma sample_ok m t : m <> [] -> Z.of_nat (length m) <= 2 ^ 31 -> exists e m' t', sample m t = Ok ((e, m'), t').
Proof.
  intros N L. destruct m as [|r0 m]; [congruence|]. unfold sample. destruct (Z.ltb_spec (2 ^ 31) (Z.of_nat (length (r0 :: m)))); [lia|].
  unfold bind, rand_less_than. destruct (Z.ltb_spec 0 (Z.of_nat (length (r0 :: m)))); [|cbn [length] in *; lia]. eexists _, _, _. reflexivity.
Qed.

Definition neg (r : row) : row := (fst r, - snd r).
Lemma delete_rows_inv n : forall current t rs c' t', delete_rows n current t = Ok ((rs, c'), t') ->
  exists dels, rs = map neg dels /\ Permutation current (dels ++ c') /\ length dels = Nat.min n (length current).
Proof.
  induction n as [|n IH]; intros current t rs c' t' H.
  { cbn in H. apply ret_Ok in H as (E & _). apply pair_equal_spec in E as (-> & ->). exists []. auto. }
  destruct current as [|r0 cur].
  { cbn in H. apply ret_Ok in H as (E & _). apply pair_equal_spec in E as (-> & ->). exists []. auto. }
  cbn [delete_rows] in H. apply bind_Ok in H as ((e & c1) & t1 & H1 & H). apply sample_inv in H1.
  apply bind_Ok in H as ((rs1 & c2) & t2 & H2 & H). apply ret_Ok in H as (E & _). apply pair_equal_spec in E as (-> & ->).
  apply IH in H2 as (dels & -> & P & L). exists (e :: dels). split; auto. split.
  - rewrite H1. cbn. constructor. auto.
  - apply Permutation_length in H1. cbn [length] in *. rewrite L. lia.
Qed.
Lemma delete_rows_ok n : forall current t, Z.of_nat (length current) <= 2 ^ 31 -> exists rs c' t', delete_rows n current t = Ok ((rs, c'), t').
Proof.
  induction n as [|n IH]; intros current t L; [eexists _, _, _; reflexivity|]. destruct current as [|r0 cur]; [eexists _, _, _; reflexivity|].
  cbn [delete_rows]. destruct (sample_ok (r0 :: cur) t) as (e & m' & t1 & E); [discriminate|auto|]. unfold bind at 1. rewrite E.
  apply sample_inv, Permutation_length in E. destruct (IH m' t1) as (rs & c' & t2 & E2); [cbn [length] in *; lia|]. unfold bind. rewrite E2. eexists _, _, _. reflexivity.
Qed.
Lemma insert_rows_inv n : forall u c t rs u' c' t', insert_rows n u c t = Ok ((rs, u', c'), t') -> NoDup (keys (c ++ u)) ->
  Permutation u (rs ++ u') /\ c' = c ++ rs /\ length rs = n.
Proof.
  induction n as [|n IH]; intros u c t rs u' c' t' H ND; cbn [insert_rows] in H.
  { apply ret_Ok in H as (E & _). inversion E; subst. rewrite app_nil_r. auto. }
  apply bind_Ok in H as ((e & u1) & t1 & H1 & H). apply sample_inv in H1. apply bind_Ok in H as (((rs1 & u2) & c2) & t2 & H2 & H).
  apply ret_Ok in H as (E & _). inversion E; subst rs u' c'; clear E.
  assert (ND1 : NoDup (keys (c ++ e :: u1))). { eapply Permutation_NoDup; [|exact ND]. apply keys_perm, Permutation_app_head. auto. }
  assert (FR : ~ In (fst e) (keys c)). { intros I. rewrite keys_app in ND1. eapply (NoDup_app_no (keys c)); [exact ND1|exact I|left; auto]. }
  rewrite map_set_fresh in H2 by auto. replace (fst e, snd e) with e in H2 by (destruct e; auto).
  apply IH in H2.
  - destruct H2 as (P & -> & L). split; [rewrite H1; cbn; constructor; auto|]. split; [rewrite <- app_assoc; auto|cbn; auto].
  - rewrite <- app_assoc. exact ND1.
Qed.
Lemma insert_rows_ok n : forall u c t, (n <= length u)%nat -> Z.of_nat (length u) <= 2 ^ 31 -> exists rs u' c' t', insert_rows n u c t = Ok ((rs, u', c'), t').
Proof.
  induction n as [|n IH]; intros u c t L B; [eexists _, _, _, _; reflexivity|]. cbn [insert_rows].
  destruct (sample_ok u t) as (e & m' & t1 & E); [intros ->; cbn in L; lia|auto|]. unfold bind at 1. rewrite E. apply sample_inv, Permutation_length in E. cbn [length] in E.
  destruct (IH m' (map_set c (fst e) (snd e)) t1) as (rs & u' & c' & t2 & E2); [lia|lia|]. unfold bind. rewrite E2. eexists _, _, _, _. reflexivity.
Qed.

(** ** dropping *)
Lemma drop_perm dels held c' : Permutation held (dels ++ c') -> NoDup (keys held) -> Permutation (drop dels held) c'.
Proof.
  intros P ND. unfold drop. rewrite (filter_perm' _ _ _ P), filter_app, filter_none, filter_all; auto.
  - intros r Hr. apply negb_true_iff. destruct (is_in (map fst dels) (fst r)) eqn:E; auto. apply is_in_spec in E.
    exfalso. apply keys_perm, Permutation_NoDup in P; [|auto]. rewrite keys_app in P. eapply (NoDup_app_no (keys dels)); [exact P|exact E|]. apply in_map. auto.
  - intros r Hr. apply negb_false_iff, is_in_spec, in_map. auto.
Qed.
Lemma drop_perm_held dels a b : Permutation a b -> Permutation (drop dels a) (drop dels b).
Proof. apply filter_perm'. Qed.
Lemma held_after_perm h : forall a b, Permutation a b -> Permutation (held_after a h) (held_after b h).
Proof. induction h as [|[d ad] h IH]; intros a b P; cbn; auto. apply IH, Permutation_app_tail, drop_perm_held; auto. Qed.
Lemma only_held_perm h : forall a b, Permutation a b -> only_held a h -> only_held b h.
Proof.
  induction h as [|[d ad] h IH]; intros a b P H; cbn in *; auto. destruct H as (H1 & H2 & H3). split; auto. split.
  - intros x Hx. eapply Permutation_in; eauto.
  - eapply IH; [|exact H3]. apply Permutation_app_tail, drop_perm_held; auto.
Qed.
(** rows that are never deleted can be added earlier *)
Lemma drop_app dels a b : drop dels (a ++ b) = drop dels a ++ drop dels b. Proof. apply filter_app. Qed.
Lemma drop_nothing dels x : (forall r, In r x -> ~ In (fst r) (map fst dels)) -> drop dels x = x.
Proof. intros H. apply filter_all. intros r Hr. apply negb_true_iff. destruct (is_in _ _) eqn:E; auto. apply is_in_spec in E. exfalso. eapply H; eauto. Qed.
Lemma held_extra h x : forall held, (forall r, In r x -> ~ In (fst r) (map fst (concat (map fst h)))) ->
  Permutation (held_after (held ++ x) h) (held_after held h ++ x) /\ (only_held held h -> only_held (held ++ x) h).
Proof.
  induction h as [|[d ad] h IH]; intros held N; cbn [held_after only_held map concat fst] in *; auto.
  assert (N1 : drop d x = x). { apply drop_nothing. intros r Hr I. apply (N r Hr). rewrite map_app. apply in_or_app. auto. }
  assert (N2 : forall r, In r x -> ~ In (fst r) (map fst (concat (map fst h)))). { intros r Hr I. apply (N r Hr). rewrite map_app. apply in_or_app. auto. }
  assert (P : Permutation (drop d (held ++ x) ++ ad) ((drop d held ++ ad) ++ x)). { rewrite drop_app, N1, <- !app_assoc. apply Permutation_app_head, Permutation_app_comm. }
  destruct (IH (drop d held ++ ad) N2) as (Q1 & Q2). split.
  - rewrite (held_after_perm h _ _ P). auto.
  - intros (A & B & C). split; auto. split; [intros y Hy; apply in_or_app; left; auto|]. eapply only_held_perm; [symmetry; exact P|]. auto.
Qed.
(** deletions only concern rows that were there or were added *)
Lemma only_held_incl h : forall held, only_held held h -> incl (concat (map fst h)) (held ++ concat (map snd h)).
Proof.
  induction h as [|[d ad] h IH]; intros held H; cbn in *; [intros x []|]. destruct H as (_ & H2 & H3). apply IH in H3. intros x Hx. apply in_app_or in Hx as [Hx|Hx].
  - apply in_or_app. left. auto.
  - apply H3 in Hx. rewrite <- app_assoc in Hx. apply in_app_or in Hx as [Hx|Hx]; [|apply in_or_app; auto]. apply filter_In in Hx as (Hx & _). apply in_or_app; auto.
Qed.
Lemma held_after_incl h : forall held, incl (held_after held h) (held ++ concat (map snd h)).
Proof.
  induction h as [|[d ad] h IH]; intros held x Hx; cbn [held_after map concat snd] in *; [rewrite app_nil_r; auto|]. apply IH in Hx. rewrite <- app_assoc in Hx.
  apply in_app_or in Hx as [Hx|Hx]; [|apply in_or_app; auto]. apply filter_In in Hx as (Hx & _). apply in_or_app; auto.
Qed.
Lemma NoDup_keys_incl_filter (f : row -> bool) l : NoDup (keys l) -> NoDup (keys (filter f l)).
Proof. induction l as [|r l IH]; intros H; auto. cbn in *. inversion H; subst. destruct (f r); auto. cbn. constructor; auto. intros I. apply H2. apply in_map_iff in I as (y & E & I). apply filter_In in I as (I & _). rewrite <- E. apply in_map. auto. Qed.

Definition day_ok (n del : nat) (d : list row * list row) : Prop := (length (fst d) + length (snd d) = n /\ length (fst d) <= del)%nat.
Lemma deletion_loop_inv daily del days : (del <= daily)%nat -> forall u c t ds u' c' t', deletion_loop days daily del u c t = Ok ((ds, u', c'), t') ->
  NoDup (keys (c ++ u)) ->
  exists h : changes, ds = map written h /\ length h = days /\ Forall (day_ok daily del) h /\ only_held c h /\
    Permutation u (concat (map snd h) ++ u') /\ Permutation c' (held_after c h) /\ NoDup (keys (c' ++ u')).
Proof.
  intros DD. induction days as [|days IH]; intros u c t ds u' c' t' H ND; cbn [deletion_loop] in H.
  { apply ret_Ok in H as (E & _). inversion E; subst. exists []. cbn. auto 10. }
  apply bind_Ok in H as ((rs & c1) & t1 & H1 & H). apply delete_rows_inv in H1 as (dels & -> & P1 & L1).
  apply bind_Ok in H as (((adds & u1) & c2) & t2 & H2 & H).
  assert (NDc : NoDup (keys c)) by (rewrite keys_app in ND; eapply NoDup_app_l; eauto).
  assert (ND1 : NoDup (keys (dels ++ c1 ++ u))). { rewrite app_assoc. eapply Permutation_NoDup; [|exact ND]. apply keys_perm, Permutation_app_tail; auto. }
  assert (ND2 : NoDup (keys (c1 ++ u))) by (rewrite keys_app in ND1; eapply NoDup_app_r; eauto).
  apply insert_rows_inv in H2 as (P2 & -> & L2); [|auto]. rewrite map_length in L2.
  apply bind_Ok in H as (((rest & u2) & c3) & t3 & H3 & H). apply ret_Ok in H as (E & _). inversion E; subst ds u' c'; clear E.
  assert (PD : Permutation (drop dels c) c1) by (apply drop_perm; auto).
  apply IH in H3.
  - destruct H3 as (h & -> & LH & FH & OH & PU & PC & NF). exists ((dels, adds) :: h). cbn [map length concat fst snd only_held held_after].
    split; [reflexivity|]. split; [auto|]. split; [constructor; auto; split; cbn; lia|].
    split. { split; [|split].
      - rewrite keys_app in ND1. eapply NoDup_app_l; eauto.
      - intros x Hx. eapply Permutation_in; [symmetry; eauto|]. apply in_or_app; auto.
      - eapply only_held_perm; [|exact OH]. apply Permutation_app_tail. symmetry; auto. }
    split. { rewrite P2, PU, app_assoc. auto. }
    split; auto. rewrite PC. apply held_after_perm, Permutation_app_tail. symmetry. auto.
  - rewrite <- app_assoc. eapply Permutation_NoDup; [|exact ND2]. apply keys_perm, Permutation_app_head. auto.
Qed.
Lemma deletion_days_inv daily del total u c t ds u' c' t' : 0 <= daily -> 0 <= del <= daily -> 0 <= total ->
  deletion_days daily del total u c t = Ok ((ds, u', c'), t') -> NoDup (keys (c ++ u)) ->
  0 < daily /\ exists h : changes, ds = map written h /\ length h = Nat.max 1 (Z.to_nat (total / daily)) /\ only_held c h /\
    Permutation u (concat (map snd h) ++ u') /\ Permutation c' (held_after c h) /\ NoDup (keys (c' ++ u')) /\
    (total mod daily = 0 -> 0 < total -> Forall (day_ok (Z.to_nat daily) (Z.to_nat del)) h) /\
    (total = 0 -> h = [([], [])]).
Proof.
  intros D0 DD T0 H ND. unfold deletion_days in H. destruct (Z.eqb_spec daily 0); [discriminate|]. split; [lia|].
  apply bind_Ok in H as (((ds0 & u1) & c1) & t1 & H1 & H). apply deletion_loop_inv in H1; [|lia|auto].
  destruct H1 as (h & -> & LH & FH & OH & PU & PC & N1).
  apply bind_Ok in H as (((x & u2) & c2) & t2 & H2 & H). apply insert_rows_inv in H2 as (PX & -> & LX); auto.
  apply ret_Ok in H as (E & _). inversion E; subst ds u' c'; clear E.
  assert (ND2 : NoDup (keys ((c1 ++ x) ++ u2))). { rewrite <- app_assoc. eapply Permutation_NoDup; [|exact N1]. apply keys_perm, Permutation_app_head. auto. }
  assert (M0 : total mod daily = 0 -> x = []).
  { intros M. apply Z.mod_divide in M as (k & M); auto. subst total. rewrite Z.div_mul in LX by auto. replace (k * daily - k * daily) with 0 in LX by lia. destruct x; auto; discriminate. }
  destruct h as [|[d a] h].
  - cbn [map] in *. exists [([], x)]. cbn [map written fst snd concat only_held held_after length app] in *. rewrite app_nil_r.
    assert (DN : drop [] c = c) by (apply drop_nothing; auto). rewrite DN.
    split; auto. split; [lia|]. split; [repeat split; auto; [constructor|intros y []]|]. split; [rewrite PU; auto|].
    split; [apply Permutation_app_tail; auto|]. split; [auto|]. split.
    + intros M TP. exfalso. pose proof (Z.div_str_pos total daily). assert (total < daily). { destruct (Z.lt_ge_cases total daily); auto. assert (0 < total / daily) by (apply H; lia). lia. }
      rewrite Z.mod_small in M by lia. lia.
    + intros ->. rewrite M0; auto.
  - exists ((d, a ++ x) :: h). cbn [map written fst snd concat only_held held_after length] in *. split; [unfold written; cbn [fst snd]; rewrite <- app_assoc; reflexivity|]. split; [lia|].
    assert (NX : forall r, In r x -> ~ In (fst r) (map fst (concat (map fst h)))).
    { intros r Hr I. destruct OH as (_ & _ & OH). apply only_held_incl in OH. apply in_map_iff in I as (r' & E & I). apply OH in I.
      assert (ND3 : NoDup (keys ((c ++ a ++ concat (map snd h)) ++ x ++ u2))).
      { eapply Permutation_NoDup; [|exact ND]. apply keys_perm. rewrite <- !app_assoc. apply Permutation_app_head. rewrite PU, PX, <- app_assoc. auto. }
      rewrite keys_app in ND3. eapply (NoDup_app_no _ _ (fst r) ND3).
      - rewrite <- E. apply in_map. rewrite <- app_assoc in I. apply in_app_or in I as [I|I]; [apply filter_In in I as (I & _)|]; apply in_or_app; auto.
      - apply in_map, in_or_app; auto. }
    destruct OH as (O1 & O2 & O3). destruct (held_extra h x (drop d c ++ a) NX) as (HP & HO). rewrite <- app_assoc in HP, HO.
    split; [auto|]. split. { rewrite PU, PX. rewrite <- !app_assoc. apply Permutation_app_head. rewrite !app_assoc. apply Permutation_app_tail, Permutation_app_comm. }
    split; [rewrite PC; symmetry; auto|]. split; [auto|]. split.
    + intros M _. rewrite (M0 M), app_nil_r. auto.
    + intros ->. rewrite Z.div_0_l in LH by auto. discriminate.
Qed.

(** ** universes *)
Section Universe.
Variable f : functionality.
Variable max : Z.
Definition good0 (u : list row) : Prop := NoDup (keys u) /\ Forall (fun r => set_element (fst r) /\ value_ok f max r) u.
Definition good1 (u : list row) : Prop := NoDup (keys u) /\ Forall (fun r => set_element (fst r) /\ snd r = 1) u.
Lemma value_of_ok e t v t' : value_of f max e t = Ok (v, t') -> value_ok f max (e, v).
Proof.
  unfold value_of, value_ok. cbn [fst snd]. destruct f; intros H.
  - apply lift_Ok in H as (H & _). auto.
  - apply ret_Ok in H as (H & _). auto.
  - apply rand_between_range in H. auto.
  - discriminate.
  - discriminate.
Qed.
Lemma good0_set u e v : good0 u -> set_element e -> value_ok f max (e, v) -> good0 (map_set u e v) /\ (length (map_set u e v) <= S (length u))%nat.
Proof.
  intros (N & F) S V. destruct (map_set_keys u e v) as (_ & K2 & K3 & K4). split; auto. split; auto. apply Forall_forall. intros r Hr. apply K4 in Hr as [->|Hr]; auto.
  rewrite Forall_forall in F; auto.
Qed.
Lemma good1_set u e : good1 u -> set_element e -> good1 (map_set u e 1) /\ (length (map_set u e 1) <= S (length u))%nat.
Proof.
  intros (N & F) S. destruct (map_set_keys u e 1) as (_ & K2 & K3 & K4). split; auto. split; auto. apply Forall_forall. intros r Hr. apply K4 in Hr as [->|Hr]; auto.
  rewrite Forall_forall in F; auto.
Qed.
Lemma shared_universe_inv n : forall u0 u1 t r0 r1 t', shared_universe n f max u0 u1 t = Ok ((r0, r1), t') -> good0 u0 -> good1 u1 ->
  good0 r0 /\ good1 r1 /\ (length r0 <= n + length u0)%nat /\ (length r1 <= n + length u1)%nat.
Proof.
  induction n as [|n IH]; intros u0 u1 t r0 r1 t' H G0 G1; cbn [shared_universe] in H.
  { apply ret_Ok in H as (E & _). apply pair_equal_spec in E as (-> & ->). auto. }
  apply bind_Ok in H as (e & t1 & H1 & H). apply random_set_element_spec in H1 as (S & _). apply bind_Ok in H as (v & t2 & H2 & H). apply value_of_ok in H2.
  destruct (good0_set u0 e v G0 S H2) as (Q0 & L0). destruct (good1_set u1 e G1 S) as (Q1 & L1). apply IH in H as (A & B & C & D); auto. repeat split; try apply A; try apply B; lia.
Qed.
Lemma own_universe_inv n : forall u0 u1 t r0 r1 t', own_universe n f max u0 u1 t = Ok ((r0, r1), t') -> good0 u0 -> good1 u1 ->
  good0 r0 /\ good1 r1 /\ (length r0 <= n + length u0)%nat /\ (length r1 <= n + length u1)%nat.
Proof.
  induction n as [|n IH]; intros u0 u1 t r0 r1 t' H G0 G1; cbn [own_universe] in H.
  { apply ret_Ok in H as (E & _). apply pair_equal_spec in E as (-> & ->). auto. }
  apply bind_Ok in H as (e & t1 & H1 & H). apply random_set_element_spec in H1 as (S & _). apply bind_Ok in H as (v & t2 & H2 & H). apply value_of_ok in H2.
  apply bind_Ok in H as (e' & t3 & H3 & H). apply random_set_element_spec in H3 as (S' & _).
  destruct (good0_set u0 e v G0 S H2) as (Q0 & L0). destruct (good1_set u1 e' G1 S') as (Q1 & L1). apply IH in H as (A & B & C & D); auto. repeat split; try apply A; try apply B; lia.
Qed.
End Universe.
Lemma start_rows_inv n : forall u0 u1 s0 s1 t a b v0 v1 r0 r1 t', start_rows n u0 u1 s0 s1 t = Ok ((a, b, v0, v1, r0, r1), t') ->
  NoDup (keys (s0 ++ u0)) -> NoDup (keys (s1 ++ u1)) ->
  Permutation u0 (a ++ v0) /\ Permutation u1 (b ++ v1) /\ r0 = s0 ++ a /\ r1 = s1 ++ b /\ length a = n /\ length b = n.
Proof.
  induction n as [|n IH]; intros u0 u1 s0 s1 t a b v0 v1 r0 r1 t' H N0 N1; cbn [start_rows] in H.
  { apply ret_Ok in H as (E & _). inversion E; subst. rewrite !app_nil_r. auto 10. }
  apply bind_Ok in H as ((e0 & w0) & t1 & H0 & H). apply sample_inv in H0. apply bind_Ok in H as ((e1 & w1) & t2 & H1 & H). apply sample_inv in H1.
  apply bind_Ok in H as ((((((a' & b') & x0) & x1) & y0) & y1) & t3 & H2 & H). apply ret_Ok in H as (E & _). inversion E; subst a b v0 v1 r0 r1; clear E.
  assert (M0 : NoDup (keys (s0 ++ e0 :: w0))). { eapply Permutation_NoDup; [|exact N0]. apply keys_perm, Permutation_app_head. auto. }
  assert (M1 : NoDup (keys (s1 ++ e1 :: w1))). { eapply Permutation_NoDup; [|exact N1]. apply keys_perm, Permutation_app_head. auto. }
  assert (F0 : ~ In (fst e0) (keys s0)). { intros I. rewrite keys_app in M0. eapply (NoDup_app_no (keys s0)); [exact M0|exact I|left; auto]. }
  assert (F1 : ~ In (fst e1) (keys s1)). { intros I. rewrite keys_app in M1. eapply (NoDup_app_no (keys s1)); [exact M1|exact I|left; auto]. }
  rewrite !map_set_fresh in H2 by auto. replace (fst e0, snd e0) with e0 in H2 by (destruct e0; auto). replace (fst e1, snd e1) with e1 in H2 by (destruct e1; auto).
  apply IH in H2; [|rewrite <- app_assoc; auto|rewrite <- app_assoc; auto]. destruct H2 as (P0 & P1 & -> & -> & L0 & L1).
  cbn [length app]. rewrite <- !app_assoc. repeat split; auto; [rewrite H0, P0; auto|rewrite H1, P1; auto].
Qed.

(** ** the expected result *)
Lemma u64_id x : 0 <= x < 2 ^ 64 -> u64 x = x. Proof. apply Z.mod_small. Qed.
Lemma sum_over_cons l e v s : sum_over l ((e, v) :: s) = (if is_in l e then v else 0) + sum_over l s.
Proof. unfold sum_over. cbn [filter fst]. destruct (is_in l e); cbn [map fold_right snd]; lia. Qed.
Lemma score_cons f e v s0 s1 : score f ((e, v) :: s0) s1 = (if is_in (map fst s1) e then match f with PSI => 1 | _ => v end else 0) + score f s0 s1.
Proof. unfold score. destruct f; try apply sum_over_cons. unfold common_strings. cbn [map fst filter]. destruct (is_in (map fst s1) e); cbn [length]; lia. Qed.
Lemma expected_spec f s1 s0 : forall sum, 0 <= sum < 2 ^ 64 -> expected f s0 s1 sum = u64 (sum + score f s0 s1).
Proof.
  induction s0 as [|[e v] s0 IH]; intros sum R; cbn [expected].
  - rewrite u64_id; [destruct f; unfold score, sum_over; cbn; lia|destruct f; unfold score, sum_over; cbn; lia].
  - rewrite score_cons, has_spec. destruct (is_in (map fst s1) e).
    + rewrite IH by (apply Z.mod_pos_bound; reflexivity). unfold u64. rewrite Zplus_mod_idemp_l. f_equal. lia.
    + rewrite IH by auto. auto.
Qed.
Lemma in_perm_bool l l' e : Permutation l l' -> is_in l e = is_in l' e.
Proof. intros P. destruct (is_in l' e) eqn:E; [apply is_in_spec; apply is_in_spec in E; eapply Permutation_in; [symmetry; eauto|auto]|]. destruct (is_in l e) eqn:F; auto. apply is_in_spec in F. apply (Permutation_in _ P) in F. apply is_in_spec in F. congruence. Qed.
Lemma score_perm f a0 b0 a1 b1 : Permutation a0 b0 -> Permutation a1 b1 -> score f a0 a1 = score f b0 b1.
Proof.
  intros P0 P1. transitivity (score f a0 b1).
  - clear P0. induction a0 as [|[e v] a0 IH]; [destruct f; reflexivity|]. rewrite !score_cons, IH. rewrite (in_perm_bool (map fst a1) (map fst b1)) by (apply Permutation_map; auto). auto.
  - clear P1. induction P0 as [|[e v] a b P IH|[e v] [e' v'] l|a b c P1 IH1 P2 IH2]; auto; rewrite ?score_cons; try lia.
Qed.
Lemma score_range f max s0 s1 : Forall (value_ok f max) s0 ->
  0 <= score f s0 s1 <= Z.of_nat (length s0) * (match f with SUM => max | _ => 1 end).
Proof.
  intros V. induction V as [|[e v] s0 H V IH]; [destruct f; unfold score, sum_over; cbn; lia|].
  rewrite score_cons. cbn [length]. rewrite Nat2Z.inj_succ. destruct (is_in (map fst s1) e); destruct f; cbn [value_ok snd] in H; try contradiction; nia.
Qed.
Lemma to_int64_id x : - 2 ^ 63 <= x < 2 ^ 63 -> to_int64 (u64 x) = x.
Proof.
  intros R. unfold to_int64, u64. destruct (Z.lt_ge_cases x 0).
  - replace (x mod 2 ^ 64) with (x + 2 ^ 64); [destruct (Z.ltb_spec (x + 2 ^ 64) (2 ^ 63)); lia|]. apply Z.mod_unique with (q := -1); lia.
  - rewrite Z.mod_small by lia. destruct (Z.ltb_spec x (2 ^ 63)); lia.
Qed.
