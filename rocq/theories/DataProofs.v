(** * Lemmas about generated data (C42) *)
Require Import List Arith Lia ZArith Bool Permutation.
Import ListNotations.
From Verif Require Import Prelude BytesModel FlagModel Coins WireModel WireProofs CsvModel DataModel DataSpec.
Local Open Scope Z_scope.

Lemma Ok_inj' {A} (a b : A) : Ok a = Ok b -> b = a. Proof. congruence. Qed.
Lemma same_string_spec a b : same_string a b = true <-> a = b.
Proof. unfold same_string. destruct (list_eq_dec Z.eq_dec a b); split; intros; auto; congruence. Qed.
Lemma has_spec l s : has l s = is_in l s.
Proof.
  unfold is_in. destruct (in_dec string_eq_dec s l) as [i|n].
  - apply existsb_exists. exists s. split; auto. apply same_string_spec; auto.
  - destruct (has l s) eqn:E; auto. exfalso. apply n. apply existsb_exists in E as (x & I & E). apply same_string_spec in E. subst; auto.
Qed.
Lemma is_in_spec l s : is_in l s = true <-> In s l.
Proof. unfold is_in. destruct (in_dec string_eq_dec s l); split; intros; auto; congruence. Qed.

(** ** slices *)
Lemma nth_error_skipn {A} (l : list A) : forall i k, nth_error (skipn i l) k = nth_error l (i + k).
Proof. induction l as [|x l IH]; intros [|i] k; auto. destruct k; auto. cbn. apply IH. Qed.
Lemma slice_cons {A} (l : list A) i n : slice l i (S n) = (let! x := vat l i in let! xs := slice l (S i) n in Ok (x :: xs)).
Proof. reflexivity. Qed.
Lemma skipn_cons {A} (l : list A) : forall i a, nth_error l i = Some a -> skipn i l = a :: skipn (S i) l.
Proof. induction l as [|x l IH]; intros [|i] a H; cbn in H |- *; try discriminate; [congruence|]. rewrite (IH _ _ H). reflexivity. Qed.
Lemma slice_inv {A} (l : list A) n : forall i x, slice l i n = Ok x -> x = firstn n (skipn i l) /\ length x = n.
Proof.
  induction n as [|n IH]; intros i x H; [apply Ok_inj' in H; subst; auto|]. rewrite slice_cons in H. unfold vat in H.
  destruct (nth_error l i) as [a|] eqn:E; [|discriminate]. cbn [obind] in H. apply obind_Ok in H as (xs & H & X). apply Ok_inj' in X; subst x.
  apply IH in H as (-> & L). rewrite (skipn_cons _ _ _ E). cbn [firstn length]. auto.
Qed.
Lemma slice_ok {A} (l : list A) n : forall i, (i + n <= length l)%nat -> slice l i n = Ok (firstn n (skipn i l)).
Proof.
  induction n as [|n IH]; intros i L; auto. rewrite slice_cons. unfold vat. destruct (nth_error l i) as [a|] eqn:E.
  - cbn [obind]. rewrite IH by lia. rewrite (skipn_cons _ _ _ E). reflexivity.
  - apply nth_error_None in E. lia.
Qed.
Lemma slice_not {A} (l : list A) n : forall i, (length l < i + n)%nat -> (0 < n)%nat -> slice l i n = UB.
Proof.
  induction n as [|n IH]; intros i L N; [lia|]. rewrite slice_cons. unfold vat. destruct (nth_error l i) as [a|] eqn:E; auto.
  cbn [obind]. assert (i < length l)%nat by (apply nth_error_Some; congruence). rewrite IH by lia. reflexivity.
Qed.
Lemma firstn_add {A} (l : list A) a b : firstn (a + b) l = firstn a l ++ firstn b (skipn a l).
Proof. revert l; induction a as [|a IH]; intros l; cbn [Nat.add]; auto. destruct l; cbn; [rewrite firstn_nil; auto|]. rewrite IH. auto. Qed.
Lemma skipn_add {A} (l : list A) : forall a b, skipn b (skipn a l) = skipn (a + b) l.
Proof. induction l as [|x l IH]; intros [|a] b; cbn; auto. destruct b; auto. Qed.
Lemma firstn_combine {A B} n : forall (a : list A) (b : list B), firstn n (combine a b) = combine (firstn n a) (firstn n b).
Proof. induction n as [|n IH]; intros [|x a] [|y b]; cbn; auto. f_equal; auto. Qed.
Lemma skipn_combine {A B} n : forall (a : list A) (b : list B), skipn n (combine a b) = combine (skipn n a) (skipn n b).
Proof. induction n as [|n IH]; intros [|x a] [|y b]; cbn; auto. destruct (skipn n a); auto. Qed.

Definition day_sizes (n : nat) (x : dataset * dataset) : Prop :=
  length (d_elements (fst x)) = n /\ length (d_values (fst x)) = n /\ length (d_elements (snd x)) = n /\ d_values (snd x) = [].
Lemma add_rows_inv p0 p1 vs i n x : add_rows p0 p1 vs i n = Ok x ->
  day_sizes n x /\ d_elements (fst x) = firstn n (skipn i p0) /\ d_elements (snd x) = firstn n (skipn i p1) /\
  rows (fst x) = firstn n (skipn i (combine p0 vs)).
Proof.
  unfold add_rows. intros H. apply obind_Ok in H as (e0 & H0 & H). apply obind_Ok in H as (e1 & H1 & H). apply obind_Ok in H as (v0 & H2 & H).
  apply Ok_inj' in H; subst x. apply slice_inv in H0 as (E0 & L0), H1 as (E1 & L1), H2 as (E2 & L2).
  unfold day_sizes, rows. cbn [fst snd d_elements d_values]. rewrite skipn_combine, firstn_combine. subst. auto 10.
Qed.
Lemma add_rows_ok p0 p1 vs i n : (i + n <= length p0)%nat -> length p1 = length p0 -> length vs = length p0 ->
  exists x, add_rows p0 p1 vs i n = Ok x.
Proof. intros L L1 L2. unfold add_rows. rewrite !slice_ok by lia. cbn [obind]. eauto. Qed.
Lemma add_days_inv p0 p1 vs n days : forall i ds, add_days days p0 p1 vs i n = Ok ds ->
  length ds = days /\ Forall (day_sizes n) ds /\
  concat (map d_elements (map fst ds)) = firstn (days * n) (skipn i p0) /\
  concat (map d_elements (map snd ds)) = firstn (days * n) (skipn i p1) /\
  concat (map rows (map fst ds)) = firstn (days * n) (skipn i (combine p0 vs)).
Proof.
  induction days as [|d IH]; intros i ds H; [apply Ok_inj' in H; subst; cbn; auto|].
  cbn [add_days] in H. apply obind_Ok in H as (x & Hx & H). apply obind_Ok in H as (r & Hr & H). apply Ok_inj' in H; subst ds.
  apply add_rows_inv in Hx as (S1 & E0 & E1 & E2). apply IH in Hr as (L & F & R0 & R1 & R2).
  cbn [length map concat]. split; [auto|]. split; [auto|]. rewrite R0, R1, R2, E0, E1, E2. cbn [Nat.mul]. rewrite !firstn_add, !skipn_add. auto.
Qed.
Lemma add_days_ok p0 p1 vs n days : forall i, (i + days * n <= length p0)%nat -> length p1 = length p0 -> length vs = length p0 ->
  exists ds, add_days days p0 p1 vs i n = Ok ds.
Proof.
  induction days as [|d IH]; intros i L L1 L2; [eexists; reflexivity|]. cbn [add_days].
  destruct (add_rows_ok p0 p1 vs i n) as (x & ->); auto; [cbn in L; lia|]. cbn [obind].
  destruct (IH (i + n)%nat) as (r & ->); auto; [cbn in L; lia|]. cbn [obind]. eauto.
Qed.

(** ** values *)
Lemma add_values_inv max p1 set : forall sum t vs total t', add_values max p1 set sum t = Ok ((vs, total), t') ->
  length vs = length set /\ Forall (fun v => 0 <= v < max) vs /\ total = sum + sum_over p1 (combine set vs).
Proof.
  induction set as [|s set IH]; intros sum t vs total t' H; cbn [add_values] in H.
  { apply ret_Ok in H as (E & _). inversion E; subst. unfold sum_over. cbn. repeat split; auto; lia. }
  apply bind_Ok in H as (v & t1 & Hv & H). apply rand_less_than_range in Hv.
  apply bind_Ok in H as (sum' & t2 & Hs & H). apply bind_Ok in H as ((ws & tot) & t3 & Hr & H). apply ret_Ok in H as (E & _). inversion E; subst.
  apply IH in Hr as (L & F & T). cbn [length]. split; [auto|]. split; [auto|]. unfold sum_over in *. cbn [combine filter fst].
  rewrite has_spec in Hs. destruct (is_in p1 s).
  - apply lift_Ok in Hs as (Hs & _). destruct (sum + v <? 2 ^ 63); [|discriminate]. apply Ok_inj' in Hs; subst. cbn [map snd fold_right]. lia.
  - apply ret_Ok in Hs as (-> & _). auto.
Qed.
Lemma add_values_ok max p1 set : forall sum t, 0 < max -> sum + Z.of_nat (length set) * (max - 1) < 2 ^ 63 ->
  exists vs total t', add_values max p1 set sum t = Ok ((vs, total), t').
Proof.
  induction set as [|s set IH]; intros sum t P B; cbn [add_values]; [eexists _, _, _; reflexivity|].
  unfold bind at 1. unfold rand_less_than. destruct (Z.ltb_spec 0 max); [|lia]. set (v := t O mod max).
  assert (0 <= v < max) by (apply Z.mod_pos_bound; lia). cbn [length] in B. rewrite Nat2Z.inj_succ in B.
  assert (K : exists sum' t1, (if has p1 s then lift (if sum + v <? 2 ^ 63 then Ok (sum + v) else UB) else ret sum) (tl_tape t) = Ok (sum', t1) /\ sum' <= sum + (max - 1)).
  { destruct (has p1 s).
    - destruct (Z.ltb_spec (sum + v) (2 ^ 63)) as [Q|Q]; [|nia]. eexists _, _. split; [reflexivity|]. lia.
    - eexists _, _. split; [reflexivity|]. lia. }
  destruct K as (sum' & t1 & E & Q). unfold bind at 1. rewrite E.
  destruct (IH sum' t1 P) as (vs & tot & t2 & E2); [lia|]. unfold bind. rewrite E2. eexists _, _, _. reflexivity.
Qed.

(** ** generated strings *)
Lemma random_set_element_spec t s t' : random_set_element t = Ok (s, t') -> set_element s /\ 0 <= numeric_string2uint s < 10 ^ 15.
Proof.
  intros H. split; [|apply random_numeric_string_spec in H; apply H].
  unfold random_set_element, random_numeric_string in H. apply bind_Ok in H as (ds & t1 & H & E). apply ret_Ok in E as (-> & _).
  apply repeatM_Ok in H as (L & F). unfold set_element. split; [cbn; auto|]. split; auto. constructor; [lia|].
  eapply Forall_impl; [|exact F]. intros c (t2 & t3 & H). apply bind_Ok in H as (d & t4 & H & E). apply ret_Ok in E as (-> & _). apply rand_less_than_range in H. lia.
Qed.
Lemma random_set_element_total t : exists s t', random_set_element t = Ok (s, t').
Proof. apply random_numeric_string_total. Qed.

(** no coincidence between the strings means no repetition and exactly the
    shared strings in common *)
Lemma distinct_length l : length (distinct l) = length l -> NoDup l.
Proof. intros H. apply NoDup_incl_NoDup with (l := distinct l); [apply NoDup_nodup | unfold distinct in *; lia | intros x; apply nodup_In]. Qed.
Lemma distinct_perm l l' : (forall x, In x l <-> In x l') -> length (distinct l) = length (distinct l').
Proof. intros P. apply Permutation_length, NoDup_Permutation; try apply NoDup_nodup. intros x. unfold distinct. rewrite !nodup_In. auto. Qed.
Lemma NoDup_app_l {A} (a b : list A) : NoDup (a ++ b) -> NoDup a.
Proof. induction a as [|x a IH]; intros H; [constructor|]. inversion H; subst. constructor; auto. intros I. apply H2, in_or_app. auto. Qed.
Lemma NoDup_app_r {A} (a b : list A) : NoDup (a ++ b) -> NoDup b.
Proof. induction a as [|x a IH]; intros H; auto. inversion H; auto. Qed.
Lemma NoDup_app_no {A} (a b : list A) x : NoDup (a ++ b) -> In x a -> In x b -> False.
Proof. induction a as [|y a IH]; intros H I J; [destruct I|]. inversion H; subst. destruct I as [->|I]; auto. apply H2, in_or_app; auto. Qed.
Lemma filter_none {A} (f : A -> bool) l : (forall x, In x l -> f x = false) -> filter f l = [].
Proof. induction l as [|x l IH]; intros H; auto. cbn. rewrite H by (left; auto). apply IH. intros; apply H; right; auto. Qed.
Lemma filter_all {A} (f : A -> bool) l : (forall x, In x l -> f x = true) -> filter f l = l.
Proof. induction l as [|x l IH]; intros H; auto. cbn. rewrite H by (left; auto). f_equal. apply IH. intros; apply H; right; auto. Qed.
Lemma filter_perm' {A} (f : A -> bool) l l' : Permutation l l' -> Permutation (filter f l) (filter f l').
Proof. induction 1; cbn; auto; try (destruct (f x)); try (destruct (f y)); auto; try constructor. eapply Permutation_trans; eauto. Qed.
Lemma common_overlap a0 a1 I R0 R1 : Permutation a0 (I ++ R0) -> Permutation a1 (I ++ R1) ->
  length (distinct (a0 ++ a1)) = (length I + length R0 + length R1)%nat ->
  NoDup a0 /\ NoDup a1 /\ length (common_strings a0 a1) = length I /\ (forall x, In x (common_strings a0 a1) <-> In x I).
Proof.
  intros P0 P1 D. assert (N : NoDup (I ++ R0 ++ R1)).
  { apply distinct_length. rewrite (distinct_perm _ (a0 ++ a1)).
    - rewrite D, !app_length. lia.
    - intros x. rewrite !in_app_iff. split.
      + intros [H|[H|H]]; [left; eapply Permutation_in; [symmetry; eauto|] | left; eapply Permutation_in; [symmetry; eauto|] | right; eapply Permutation_in; [symmetry; eauto|]]; rewrite in_app_iff; auto.
      + intros [H|H]; [apply (Permutation_in _ P0) in H | apply (Permutation_in _ P1) in H]; rewrite in_app_iff in H; tauto. }
  assert (N0 : NoDup (I ++ R0)) by (rewrite app_assoc in N; eapply NoDup_app_l; eauto).
  assert (N1 : NoDup (I ++ R1)).
  { assert (Q : Permutation (I ++ R0 ++ R1) ((I ++ R1) ++ R0)) by (rewrite <- app_assoc; apply Permutation_app_head, Permutation_app_comm).
    apply (Permutation_NoDup Q) in N. eapply NoDup_app_l; eauto. }
  split; [eapply Permutation_NoDup; [symmetry; eauto|auto]|]. split; [eapply Permutation_NoDup; [symmetry; eauto|auto]|].
  assert (Q : Permutation (common_strings a0 a1) I).
  { unfold common_strings. rewrite (filter_perm' _ _ _ P0), filter_app, filter_all, filter_none; [rewrite app_nil_r; auto| |].
    - intros x Hx. destruct (is_in a1 x) eqn:E; auto. exfalso. apply is_in_spec in E. apply (Permutation_in _ P1) in E. apply in_app_or in E as [E|E].
      + eapply (NoDup_app_no I R0); eauto.
      + apply NoDup_app_r in N. apply (NoDup_app_no R0 R1 x); auto.
    - intros x Hx. apply is_in_spec. eapply Permutation_in; [symmetry; eauto|]. apply in_or_app; auto. }
  split; [apply Permutation_length; auto|]. intros x; split; intros H; [apply (Permutation_in _ Q); auto | apply (Permutation_in _ (Permutation_sym Q)); auto].
Qed.
