(** * Proofs about [insert]: conservation, placement, capacity, overflow. *)
Require Import List Arith Lia Permutation Bool Sorted.
Import ListNotations.
From Verif Require Import Prelude TreeModel TreeIndex.

Section Proofs.
Context {A : Type}.
Variable hash : A -> list bool.

Notation nodeAt := (@nodeAt A).

(** everything stored in an array of nodes *)
Definition stored (ns : list (node A)) : list A := flat_map elems ns.

(** ** arrays of nodes *)
Lemma stored_set_nth u n ns : u < length ns ->
  Permutation (elems (nodeAt ns u) ++ stored (set_nth u n ns)) (elems n ++ stored ns).
Proof.
  intros H. destruct (set_nth_split u n ns H) as (l1 & y & l2 & E & L & E').
  rewrite E'. unfold TreeModel.nodeAt. rewrite E at 1. rewrite app_nth2, L, Nat.sub_diag by lia. simpl.
  unfold stored. rewrite E, !flat_map_app. simpl.
  rewrite (app_assoc (flat_map elems l1)), (app_assoc (flat_map elems l1) (elems y)).
  rewrite (Permutation_app_comm (flat_map elems l1)), (Permutation_app_comm (flat_map elems l1)).
  rewrite <- !app_assoc. rewrite !app_assoc. apply Permutation_app_tail.
  apply Permutation_app_tail. apply Permutation_app_comm.
Qed.

Lemma stored_extend u n taken ns : u < length ns -> elems n = elems (nodeAt ns u) ++ taken ->
  Permutation (stored (set_nth u n ns)) (taken ++ stored ns).
Proof.
  intros H E. apply (Permutation_app_inv_l (elems (nodeAt ns u))).
  rewrite stored_set_nth by auto. rewrite E, <- app_assoc. reflexivity.
Qed.

Lemma nodeAt_set_eq u n ns : u < length ns -> nodeAt (set_nth u n ns) u = n.
Proof. intros. unfold TreeModel.nodeAt. apply nth_set_nth_eq; auto. Qed.
Lemma nodeAt_set_neq u v n ns : u <> v -> nodeAt (set_nth u n ns) v = nodeAt ns v.
Proof. intros. unfold TreeModel.nodeAt. apply nth_set_nth_neq; auto. Qed.
Lemma nodeAt_out ns v : length ns <= v -> nodeAt ns v = node_new 0.
Proof. intros. unfold TreeModel.nodeAt. apply nth_overflow; auto. Qed.
Lemma nodeAt_set u v n ns : u < length ns -> nodeAt (set_nth u n ns) v = if u =? v then n else nodeAt ns v.
Proof.
  intros. destruct (Nat.eqb_spec u v) as [<-|]; [apply nodeAt_set_eq|apply nodeAt_set_neq]; auto.
Qed.

Lemma stored_In x ns : In x (stored ns) <-> exists v, In x (elems (nodeAt ns v)).
Proof.
  unfold stored. rewrite in_flat_map. split.
  - intros (n & Hn & Hx). apply (In_nth _ _ (node_new 0)) in Hn as (v & _ & E). exists v.
    unfold TreeModel.nodeAt. rewrite E. auto.
  - intros (v & Hv). destruct (le_lt_dec (length ns) v) as [H|H].
    + rewrite nodeAt_out in Hv by auto. inversion Hv.
    + exists (nodeAt ns v). split; auto. apply nth_In; auto.
Qed.

(** ** buckets *)
Lemma push_length i e (bs : list (list A)) : length (push i e bs) = length bs.
Proof. revert i; induction bs; intros [|i]; simpl; auto. Qed.
Lemma push_perm i e (bs : list (list A)) : i < length bs -> Permutation (concat (push i e bs)) (e :: concat bs).
Proof.
  revert i; induction bs as [|b bs IH]; intros [|i] H; simpl in *; try lia; auto.
  rewrite IH by lia. symmetry. apply Permutation_middle.
Qed.
Lemma push_nth i e j (bs : list (list A)) x : In x (nth j (push i e bs) []) ->
  In x (nth j bs []) \/ (x = e /\ i = j).
Proof.
  revert i j; induction bs as [|b bs IH]; intros [|i] [|j] H; simpl in *; auto.
  - destruct H; auto.
  - apply IH in H as [|[]]; auto.
Qed.

Variable key : A -> nat.

Definition bucket_ok (st : nat) (bs : list (list A)) : Prop :=
  forall i x, In x (nth i bs []) -> key x = st + i.

Lemma bucket_fold es : forall bs, bucket_ok 0 bs -> (forall x, In x es -> key x < length bs) ->
  let r := fold_left (fun bs x => push (key x) x bs) es bs in
  bucket_ok 0 r /\ length r = length bs /\ Permutation (concat r) (es ++ concat bs).
Proof.
  induction es as [|e es IH]; intros bs B H; simpl.
  - auto.
  - destruct (IH (push (key e) e bs)) as (B' & L & P).
    + intros i x Hx. apply push_nth in Hx as [Hx|[-> ->]]; auto.
    + intros x Hx. rewrite push_length. auto with datatypes.
    + rewrite push_length in L. split; [|split]; auto. rewrite P, push_perm by auto with datatypes.
      symmetry. apply Permutation_middle.
Qed.

(** ** filling *)
Lemma fill_from_spec b : forall (n n' : node A) b', fill_from b n = (n', b') ->
  node_cap n' = node_cap n /\
  (exists taken, elems n' = elems n ++ taken /\ b = taken ++ b') /\
  (b' <> [] -> node_cap n <= length (elems n')) /\
  (length (elems n) <= node_cap n -> length (elems n') <= node_cap n).
Proof.
  induction b as [|x b IH]; intros n n' b' E; simpl in E.
  - inversion E; subst. split; auto. split. { exists []. rewrite app_nil_r. auto. } split; auto. congruence.
  - unfold node_add in E. destruct (Nat.leb_spec (node_cap n) (length (elems n))).
    + inversion E; subst. split; auto. split. { exists []. rewrite app_nil_r. auto. } split; auto.
    + apply IH in E. simpl in E. destruct E as (E1 & (t & E2 & ->) & E3 & E4).
      split; auto. split. { exists (x :: t). split; auto. rewrite E2, <- app_assoc. reflexivity. }
      split; auto. intros. apply E4. rewrite app_length. simpl. lia.
Qed.

Lemma fill_node_spec steps bs : forall st (n n' : node A) st' bs',
  fill_node steps st bs n = (n', (st', bs')) ->
  bucket_ok st bs ->
  node_cap n' = node_cap n /\
  (exists taken, elems n' = elems n ++ taken /\ concat bs = taken ++ concat bs'
     /\ Forall (fun x => key x <= steps) taken) /\
  (length (elems n) <= node_cap n -> length (elems n') <= node_cap n) /\
  bucket_ok st' bs' /\ st' + length bs' = st + length bs /\
  (bs' = [] \/ steps < st' \/ (exists b r, bs' = b :: r /\ b <> [])).
Proof.
  induction bs as [|b bs IH]; intros st n n' st' bs' E B; simpl in E.
  - inversion E; subst. split; auto. split. { exists []. rewrite app_nil_r. auto. }
    repeat split; auto.
  - destruct (Nat.leb_spec st steps) as [Hs|Hs].
    + destruct (fill_from b n) as [n1 b1] eqn:F. apply fill_from_spec in F as (F1 & (t & F2 & ->) & F3 & F4).
      assert (Bt : Forall (fun x => key x <= steps) t).
      { apply Forall_forall. intros x Hx. rewrite (B 0 x). lia. simpl. apply in_or_app; auto. }
      destruct b1 as [|y b1].
      * apply IH in E as (E1 & (t' & E2 & E3 & E3') & E4 & E5 & E6 & E7).
        2:{ intros i x Hx. rewrite (B (S i) x); auto. lia. }
        split; [congruence|]. split.
        { exists (t ++ t'). rewrite E2, F2, app_assoc, app_nil_r. simpl. rewrite E3, app_assoc.
          repeat split; auto. apply Forall_app; auto. }
        split. { intros. rewrite F1 in E4. auto. }
        split; auto. split; auto. simpl. lia.
      * inversion E; subst. split; [auto|]. split.
        { exists t. simpl. rewrite <- app_assoc. repeat split; auto. }
        split; [auto|]. split.
        { intros [|i] x Hx; apply B; simpl in *; auto. apply in_or_app; auto. }
        split; [auto|]. right. right. exists (y :: b1), bs. split; auto. discriminate.
    + inversion E; subst. split; [auto|]. split. { exists []. rewrite app_nil_r. auto. }
      split; [auto|]. split; [auto|]. split; auto.
Qed.

Lemma fill_path_spec path : forall steps st bs ns ns' st' bs',
  fill_path path steps st bs ns = (ns', (st', bs')) ->
  bucket_ok st bs -> NoDup path -> (forall u, In u path -> u < length ns) ->
  length ns' = length ns /\
  (forall u, ~ In u path -> nodeAt ns' u = nodeAt ns u) /\
  (forall u, node_cap (nodeAt ns' u) = node_cap (nodeAt ns u)) /\
  (forall k, k < length path -> exists taken,
      elems (nodeAt ns' (nth k path 0)) = elems (nodeAt ns (nth k path 0)) ++ taken
      /\ Forall (fun x => key x <= steps + k) taken) /\
  (forall u, length (elems (nodeAt ns u)) <= node_cap (nodeAt ns u) ->
             length (elems (nodeAt ns' u)) <= node_cap (nodeAt ns u)) /\
  Permutation (stored ns' ++ concat bs') (stored ns ++ concat bs) /\
  bucket_ok st' bs' /\ st' + length bs' = st + length bs /\
  (path <> [] -> bs' = [] \/ steps + length path <= st' \/ (exists b r, bs' = b :: r /\ b <> [])).
Proof.
  induction path as [|u path IH]; intros steps st bs ns ns' st' bs' E B ND R; simpl in E.
  - inversion E; subst. repeat split; auto. { intros k Hk; simpl in Hk; lia. } congruence.
  - destruct (fill_node steps st bs (nodeAt ns u)) as [n1 [st1 bs1]] eqn:F.
    apply fill_node_spec in F as (F1 & (t & F2 & F3 & F3') & F4 & F5 & F6 & F7); auto.
    inversion ND as [|? ? NI ND']; subst.
    assert (Hu : u < length ns) by auto with datatypes.
    assert (EL : set_nth u n1 ns = set_nth u n1 ns) by auto.
    pose proof (IH _ _ _ _ _ _ _ E F5 ND') as IH'.
    destruct IH' as (L & O & C & K & CA & P & B' & SL & FIN).
    { intros v Hv. rewrite set_nth_length. auto with datatypes. }
    rewrite set_nth_length in L.
    split; auto. split.
    { intros v Hv. rewrite O by (intro; apply Hv; right; auto). apply nodeAt_set_neq.
      intros ->. apply Hv. left; auto. }
    split.
    { intros v. rewrite C, nodeAt_set by auto. destruct (Nat.eqb_spec u v) as [<-|]; auto. }
    split.
    { intros [|k] Hk.
      - simpl nth. rewrite O by auto. rewrite nodeAt_set_eq by auto. exists t. split; auto.
        eapply Forall_impl; [|exact F3']. simpl; lia.
      - simpl in Hk. destruct (K k) as (t' & K1 & K2); [lia|]. simpl nth. exists t'. split.
        + rewrite K1. rewrite nodeAt_set_neq; auto. intros ->. apply NI. apply nth_In. lia.
        + eapply Forall_impl; [|exact K2]. simpl; lia. }
    split.
    { intros v Hv. specialize (CA v). rewrite nodeAt_set in CA by auto.
      destruct (Nat.eqb_spec u v) as [e|e]; [subst v|]; auto. rewrite F1 in CA. apply CA, F4, Hv. }
    split.
    { rewrite P. rewrite (stored_extend u n1 t) by auto. rewrite F3.
      rewrite (Permutation_app_comm t (stored ns)). rewrite <- app_assoc. reflexivity. }
    split; [auto|]. split; [lia|]. intros _.
    destruct path as [|u' path'].
    + simpl in E. inversion E; subst. simpl. destruct F7 as [F7|[F7|F7]]; auto. right; left; lia.
    + destruct FIN as [FIN|[FIN|FIN]]; auto; [discriminate|]. right; left. simpl in *. lia.
Qed.

(** ** clearing a path *)
Lemma clear_path_length path : forall ns : list (node A), length (clear_path path ns) = length ns.
Proof. induction path; simpl; intros; auto. unfold clear_path in *. simpl. rewrite IHpath. apply set_nth_length. Qed.

Lemma clear_path_spec path : forall ns : list (node A), NoDup path -> (forall u, In u path -> u < length ns) ->
  (forall u, nodeAt (clear_path path ns) u =
             if in_dec Nat.eq_dec u path then node_clear (nodeAt ns u) else nodeAt ns u) /\
  Permutation (stored (clear_path path ns) ++ flat_map (fun u => elems (nodeAt ns u)) path) (stored ns).
Proof.
  induction path as [|v path IH]; intros ns ND R.
  - simpl. rewrite app_nil_r. split; auto.
  - inversion ND as [|? ? NI ND']; subst.
    unfold clear_path. simpl. fold (clear_path path (set_nth v (node_clear (nodeAt ns v)) ns)).
    destruct (IH (set_nth v (node_clear (nodeAt ns v)) ns)) as [I1 I2]; auto.
    { intros u Hu. rewrite set_nth_length. auto with datatypes. }
    assert (Hv : v < length ns) by auto with datatypes.
    split.
    + intros u. fold (clear_path path (set_nth v (node_clear (nodeAt ns v)) ns)) in *.
      rewrite I1. rewrite nodeAt_set by auto.
      destruct (Nat.eqb_spec v u) as [<-|N].
      * destruct (in_dec Nat.eq_dec v path); [contradiction|].
        destruct (Nat.eq_dec v v); [reflexivity|congruence].
      * destruct (Nat.eq_dec v u); [congruence|]. destruct (in_dec Nat.eq_dec u path); reflexivity.
    + assert (EQ : flat_map (fun u => elems (nodeAt (set_nth v (node_clear (nodeAt ns v)) ns) u)) path
                 = flat_map (fun u => elems (nodeAt ns u)) path).
      { clear -NI. induction path as [|w path IH]; auto. simpl.
        rewrite nodeAt_set_neq by (intros ->; apply NI; left; auto). f_equal. apply IH.
        intro; apply NI; right; auto. }
      rewrite EQ in I2.
      rewrite (Permutation_app_comm (elems (nodeAt ns v))), app_assoc.
      unfold clear_path in I2 at 1. rewrite I2.
      rewrite Permutation_app_comm. rewrite stored_set_nth by auto. reflexivity.
Qed.

Lemma gather_perm (ns : list (node A)) e path : NoDup path -> In 0 path ->
  Permutation (gather_elems ns e path) (e :: flat_map (fun u => elems (nodeAt ns u)) path).
Proof.
  intros ND H0.
  assert (G : forall p, ~ In 0 p -> gather_elems ns e p = flat_map (fun u => elems (nodeAt ns u)) p).
  { induction p as [|u p IH]; intros HN; auto. unfold gather_elems in *. simpl.
    destruct (Nat.eqb_spec u 0) as [->|]. { exfalso; apply HN; left; auto. }
    rewrite app_nil_r. f_equal. apply IH. intro; apply HN; right; auto. }
  apply in_split in H0 as (p1 & p2 & ->). apply NoDup_remove in ND as [_ NI].
  unfold gather_elems. rewrite !flat_map_app. simpl.
  change (flat_map _ p1) with (gather_elems ns e p1) at 1.
  change (flat_map (fun u => elems (nodeAt ns u) ++ (if u =? 0 then [e] else [])) p2) with (gather_elems ns e p2).
  rewrite !G by (intro; apply NI; apply in_or_app; auto).
  rewrite <- app_assoc. simpl. rewrite !app_assoc. symmetry. apply Permutation_middle.
Qed.

End Proofs.

Section InsertProofs.
Context {A : Type}.
Variable hash : A -> list bool.
Notation nodeAt := (@nodeAt A).

(** every element stored in node [v] has [v] on the path of its own leaf *)
Definition placed (d : nat) (ns : list (node A)) : Prop :=
  forall v x, In x (elems (nodeAt ns v)) -> anc v (compute_index d (hash x)).

Definition caps_ok (ns : list (node A)) : Prop :=
  forall v, length (elems (nodeAt ns v)) <= node_cap (nodeAt ns v).

Definition long_enough (d : nat) : Prop := forall x : A, d <= length (hash x).

Lemma insert_one_spec d e leaf ns ns' st lost :
  long_enough d -> 2 ^ d <= leaf < 2 ^ (d + 1) -> length ns = 2 ^ (d + 1) ->
  insert_one hash d e leaf ns = (ns', (st, lost)) ->
  length ns' = length ns /\
  (forall u, node_cap (nodeAt ns' u) = node_cap (nodeAt ns u)) /\
  (forall u, ~ In u (path_up leaf) -> nodeAt ns' u = nodeAt ns u) /\
  Permutation (stored ns' ++ lost) (e :: stored ns) /\
  (placed d ns -> placed d ns') /\
  (caps_ok ns -> caps_ok ns') /\
  (st <= d <-> lost <> []).
Proof.
  intros HL Hleaf Hlen E. unfold insert_one in E.
  set (path := path_up leaf) in *.
  set (key := fun x => steps_of (compute_index d (hash x)) leaf).
  assert (Kle : forall x, key x <= d).
  { intros x. apply steps_of_le; auto. apply compute_index_bounds. apply HL. }
  assert (ND : NoDup path) by (apply (path_up_NoDup d); auto).
  assert (R : forall u, In u path -> u < length ns).
  { intros u Hu. rewrite Hlen. apply (path_up_lt d leaf); auto. }
  set (es := gather_elems ns e path) in *.
  unfold bucketize in E.
  destruct (bucket_fold key es (repeat [] (d + 2))) as (B & BL & BP).
  { intros i x Hx. exfalso. assert (HN : forall n i, nth i (repeat (@nil A) n) [] = []).
    { induction n; intros [|j]; simpl; auto. } rewrite HN in Hx. inversion Hx. }
  { intros x _. rewrite repeat_length. specialize (Kle x). lia. }
  fold key in E. change (fun bs x => push (steps_of (compute_index d (hash x)) leaf) x bs)
    with (fun bs x => push (key x) x bs) in E.
  set (bs := fold_left (fun bs x => push (key x) x bs) es (repeat [] (d + 2))) in *.
  destruct (fill_path path 0 0 bs (clear_path path ns)) as [ns1 [st1 bs1]] eqn:F.
  inversion E; subst ns1 st1. clear E.
  destruct (fill_path_spec key path 0 0 bs (clear_path path ns) ns' st bs1 F B ND) as (L & O & C & K & CA & P & B1 & SL & FIN).
  { intros u Hu. rewrite clear_path_length. auto. }
  destruct (clear_path_spec path ns ND R) as [CN CP].
  rewrite clear_path_length in L.
  assert (CC : concat (repeat (@nil A) (d + 2)) = []).
  { clear. induction (d + 2); auto. }
  rewrite CC, app_nil_r in BP. rewrite repeat_length in BL.
  assert (Hpl : length path = d + 2) by (apply path_up_length; auto).
  split; auto. split.
  { intros u. rewrite C, CN. destruct (in_dec Nat.eq_dec u path); auto. }
  split.
  { intros u Hu. rewrite O by auto. rewrite CN. destruct (in_dec Nat.eq_dec u path); auto. contradiction. }
  split.
  { rewrite P, BP. unfold es. rewrite gather_perm by (auto; apply (path_up_0 d); auto).
    rewrite <- Permutation_middle. apply perm_skip. exact CP. }
  split.
  { intros PL v x Hx. destruct (in_dec Nat.eq_dec v path) as [Hv|Hv].
    - apply (In_nth _ _ 0) in Hv as (k & Hk & <-). destruct (K k Hk) as (t & K1 & K2).
      rewrite K1 in Hx. rewrite CN in Hx.
      destruct (in_dec Nat.eq_dec (nth k path 0) path) as [_|N]; [|exfalso; apply N, nth_In; auto].
      simpl in Hx. rewrite Forall_forall in K2. specialize (K2 x Hx). simpl in K2.
      apply steps_of_spec in K2. exists k. rewrite K2. unfold path. apply (path_up_nth d); auto. lia.
    - rewrite O in Hx by auto. rewrite CN in Hx. destruct (in_dec Nat.eq_dec v path); [contradiction|]. auto. }
  split.
  { intros CO v. rewrite C. apply CA. rewrite CN. destruct (in_dec Nat.eq_dec v path); auto. simpl. lia. }
  rewrite Nat.add_0_l, BL in SL.
  assert (Hpne : path <> []) by (intros Z; rewrite Z in Hpl; simpl in Hpl; lia).
  specialize (FIN Hpne).
  split.
  { intros Hst. destruct FIN as [->|[FIN|(b & r & -> & Hb)]].
    - simpl in SL. lia.
    - lia.
    - simpl. destruct b; [congruence|]. discriminate. }
  { intros Hne. destruct (le_lt_dec st d) as [|Hgt]; auto. exfalso. apply Hne.
    destruct bs1 as [|b [|b2 r]]; auto; simpl in SL; [|lia].
    simpl. destruct b as [|x b]; auto. exfalso.
    assert (key x = st + 0) by (apply B1; simpl; auto). specialize (Kle x). lia. }
Qed.
End InsertProofs.
