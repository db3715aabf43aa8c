(** * Facts about indices, paths and path-index extraction. *)
Require Import List Arith Lia Permutation Bool Sorted.
Import ListNotations.
From Verif Require Import Prelude TreeModel.

(** ** compute_index *)
Definition idx (l : list bool) : nat :=
  fold_left (fun x (b : bool) => if b then 2 * x + 1 else 2 * x) l 1.

Lemma compute_index_idx d h : compute_index d h = idx (firstn d h).
Proof. reflexivity. Qed.

Lemma idx_snoc l b : idx (l ++ [b]) = 2 * idx l + (if b then 1 else 0).
Proof. unfold idx. rewrite fold_left_app. simpl. destruct b; lia. Qed.

Lemma pow2_add1 n : 2 ^ (n + 1) = 2 * 2 ^ n.
Proof. rewrite Nat.add_1_r. apply Nat.pow_succ_r'. Qed.

Lemma idx_bounds l : 2 ^ length l <= idx l < 2 ^ (length l + 1).
Proof.
  induction l as [|b l IH] using rev_ind.
  - cbn [length Nat.add]. change (2 ^ 0) with 1. change (2 ^ 1) with 2. change (idx []) with 1. lia.
  - rewrite idx_snoc, app_length. simpl length. rewrite !pow2_add1 in *. destruct b; lia.
Qed.

Lemma compute_index_bounds d h : d <= length h ->
  2 ^ d <= compute_index d h < 2 ^ (d + 1).
Proof.
  intros H. rewrite compute_index_idx. pose proof (idx_bounds (firstn d h)) as B.
  rewrite firstn_length_le in B by lia. exact B.
Qed.

Lemma compute_index_pos d h : 1 <= compute_index d h.
Proof.
  rewrite compute_index_idx. pose proof (idx_bounds (firstn d h)).
  assert (1 <= 2 ^ length (firstn d h)) by (apply Nat.neq_0_lt_0, Nat.pow_nonzero; lia). lia.
Qed.

Lemma firstn_S_snoc {A} d (l : list A) x : d < length l -> firstn (S d) l = firstn d l ++ [nth d l x].
Proof.
  revert d; induction l; intros [|d] H; simpl in *; try lia; auto.
  f_equal. apply IHl; lia.
Qed.

Lemma compute_index_S d h : S d <= length h -> compute_index (S d) h / 2 = compute_index d h.
Proof.
  intros H. rewrite !compute_index_idx, (firstn_S_snoc d h false) by lia. rewrite idx_snoc.
  symmetry. apply Nat.div_unique with (r := if nth d h false then 1 else 0); destruct (nth d h false); lia.
Qed.

Lemma compute_index_shift d k h : d + k <= length h ->
  compute_index (d + k) h / 2 ^ k = compute_index d h.
Proof.
  induction k; intros H.
  - rewrite Nat.add_0_r, Nat.pow_0_r, Nat.div_1_r. auto.
  - rewrite Nat.pow_succ_r', <- Nat.div_div by (try apply Nat.pow_nonzero; lia).
    rewrite Nat.add_succ_r, compute_index_S by lia. apply IHk; lia.
Qed.

(** ** path_up *)
Lemma path_up_fuel_spec d : forall fuel u, 2 ^ d <= u < 2 ^ (d + 1) -> d < fuel ->
  path_up_fuel fuel u = map (fun k => u / 2 ^ k) (seq 0 (d + 2)).
Proof.
  induction d; intros fuel u Hu Hf.
  - change (2 ^ 0) with 1 in Hu. change (2 ^ (0 + 1)) with 2 in Hu. assert (u = 1) by lia. subst. destruct fuel as [|[|f]]; try lia; reflexivity.
  - destruct fuel as [|f]; [lia|].
    assert (u <> 0) by (pose proof (Nat.pow_nonzero 2 (S d)); lia).
    cbn [path_up_fuel]. destruct (u =? 0) eqn:E; [apply Nat.eqb_eq in E; lia|].
    rewrite (IHd f (u / 2)).
    + replace (S d + 2) with (S (d + 2)) by lia. cbn [seq map]. rewrite Nat.pow_0_r, Nat.div_1_r. f_equal.
      rewrite <- seq_shift, map_map. apply map_ext. intros k.
      rewrite Nat.pow_succ_r', Nat.div_div by (try apply Nat.pow_nonzero; lia). reflexivity.
    + rewrite Nat.pow_succ_r' in Hu. replace (S d + 1) with (S (d + 1)) in Hu by lia.
      rewrite Nat.pow_succ_r' in Hu. split.
      * apply Nat.div_le_lower_bound; lia.
      * apply Nat.div_lt_upper_bound; lia.
    + lia.
Qed.

Lemma pow2_gt d : d < 2 ^ d.
Proof. apply Nat.pow_gt_lin_r; lia. Qed.

Lemma path_up_spec d u : 2 ^ d <= u < 2 ^ (d + 1) ->
  path_up u = map (fun k => u / 2 ^ k) (seq 0 (d + 2)).
Proof. intros H. apply path_up_fuel_spec; auto. pose proof (pow2_gt d). lia. Qed.

Lemma path_up_length d u : 2 ^ d <= u < 2 ^ (d + 1) -> length (path_up u) = d + 2.
Proof. intros H. rewrite (path_up_spec d) by auto. rewrite map_length, seq_length. auto. Qed.

Lemma div_pow_0 u d k : u < 2 ^ d -> d <= k -> u / 2 ^ k = 0.
Proof. intros. apply Nat.div_small. pose proof (Nat.pow_le_mono_r 2 d k). lia. Qed.

(** every ancestor (and the stash) is on the path *)
Lemma path_up_In d u v : 2 ^ d <= u < 2 ^ (d + 1) -> (In v (path_up u) <-> exists k, v = u / 2 ^ k).
Proof.
  intros H. rewrite (path_up_spec d) by auto. rewrite in_map_iff. split.
  - intros (k & E & _). eauto.
  - intros (k & ->). destruct (le_lt_dec k (d + 1)).
    + exists k. split; auto. apply in_seq. lia.
    + exists (d + 1). split. 2:{ apply in_seq; lia. }
      rewrite !(div_pow_0 u (d + 1)); auto; lia.
Qed.

Lemma path_up_nth d u k x : 2 ^ d <= u < 2 ^ (d + 1) -> k < d + 2 -> nth k (path_up u) x = u / 2 ^ k.
Proof.
  intros H Hk. rewrite (path_up_spec d) by auto.
  rewrite (nth_indep _ x (u / 2 ^ 0)) by (rewrite map_length, seq_length; auto).
  rewrite (map_nth (fun k => u / 2 ^ k) (seq 0 (d + 2)) 0 k), seq_nth by auto. reflexivity.
Qed.

Lemma div_pow_lt d u i j : 2 ^ d <= u < 2 ^ (d + 1) -> i < j -> i < d + 1 -> u / 2 ^ j < u / 2 ^ i.
Proof.
  intros H Hij Hi. replace j with (i + (j - i)) by lia.
  rewrite Nat.pow_add_r, <- Nat.div_div by (apply Nat.pow_nonzero; lia).
  apply Nat.div_lt.
  - apply Nat.div_str_pos. split. { apply Nat.neq_0_lt_0, Nat.pow_nonzero; lia. }
    pose proof (Nat.pow_le_mono_r 2 i d). lia.
  - pose proof (pow2_gt (j - i)). lia.
Qed.

Lemma path_up_NoDup d u : 2 ^ d <= u < 2 ^ (d + 1) -> NoDup (path_up u).
Proof.
  intros H. apply NoDup_nth with 0. rewrite (path_up_length d) by auto. intros i j Hi Hj E.
  rewrite !(path_up_nth d) in E by auto.
  destruct (lt_eq_lt_dec i j) as [[L|L]|L]; auto; exfalso.
  - pose proof (div_pow_lt d u i j H L). lia.
  - pose proof (div_pow_lt d u j i H L). lia.
Qed.

Lemma path_up_lt d u v : 2 ^ d <= u < 2 ^ (d + 1) -> In v (path_up u) -> v < 2 ^ (d + 1).
Proof.
  intros H Hv. apply (path_up_In d) in Hv as (k & ->); auto.
  apply Nat.le_lt_trans with u; [|lia]. apply Nat.div_le_upper_bound. apply Nat.pow_nonzero; lia.
  pose proof (Nat.pow_nonzero 2 k). nia.
Qed.

Lemma path_up_0 d u : 2 ^ d <= u < 2 ^ (d + 1) -> In 0 (path_up u).
Proof. intros H. apply (path_up_In d); auto. exists (d + 1). symmetry. apply Nat.div_small; lia. Qed.

(** ** steps_of : distance to the lowest common ancestor *)
Lemma lxor_shiftr_eq x y k : x / 2 ^ k = y / 2 ^ k <-> Nat.lxor x y < 2 ^ k.
Proof.
  rewrite <- !Nat.shiftr_div_pow2. split; intros H.
  - assert (E : Nat.shiftr (Nat.lxor x y) k = 0).
    { rewrite Nat.shiftr_lxor, H. apply Nat.lxor_nilpotent. }
    rewrite Nat.shiftr_div_pow2 in E. apply Nat.div_small_iff in E; auto. apply Nat.pow_nonzero; lia.
  - apply Nat.lxor_eq. rewrite <- Nat.shiftr_lxor, Nat.shiftr_div_pow2. apply Nat.div_small; auto.
Qed.

Lemma steps_of_spec x leaf k : steps_of x leaf <= k <-> x / 2 ^ k = leaf / 2 ^ k.
Proof.
  unfold steps_of. destruct (Nat.eqb_spec x leaf) as [->|N].
  - split; intros; auto. lia.
  - rewrite lxor_shiftr_eq.
    assert (P : 0 < Nat.lxor x leaf).
    { destruct (Nat.eq_dec (Nat.lxor x leaf) 0) as [E|]; [|lia]. apply Nat.lxor_eq in E. contradiction. }
    split; intros H.
    + apply Nat.log2_lt_pow2; auto.
    + apply Nat.log2_lt_pow2 in H; auto.
Qed.

Lemma steps_of_le d x leaf : 2 ^ d <= x < 2 ^ (d + 1) -> 2 ^ d <= leaf < 2 ^ (d + 1) ->
  steps_of x leaf <= d.
Proof.
  intros Hx Hl. apply steps_of_spec.
  assert (forall z, 2 ^ d <= z < 2 ^ (d + 1) -> z / 2 ^ d = 1).
  { intros z Hz. symmetry. apply Nat.div_unique with (z - 2 ^ d); try lia.
    rewrite Nat.add_1_r, Nat.pow_succ_r' in Hz. lia. }
  rewrite !H; auto.
Qed.

(** ** extract_path_indices *)
Definition anc (v u : nat) : Prop := exists k, v = u / 2 ^ k.

Lemma insert_desc_perm x l : Permutation (insert_desc x l) (x :: l).
Proof.
  induction l as [|y l IH]; simpl; auto. destruct (y <=? x); auto.
  rewrite IH. apply perm_swap.
Qed.
Lemma sort_desc_perm l : Permutation (sort_desc l) l.
Proof. induction l; simpl; auto. rewrite insert_desc_perm. auto. Qed.

Lemma insert_desc_sorted x l : StronglySorted ge l -> StronglySorted ge (insert_desc x l).
Proof.
  induction 1 as [|y l S IH F]; simpl.
  - repeat constructor.
  - destruct (Nat.leb_spec y x).
    + constructor. { constructor; auto. } constructor; [lia|]. eapply Forall_impl; [|exact F]. simpl; lia.
    + constructor; auto. eapply Permutation_Forall; [symmetry; apply insert_desc_perm|].
      constructor; auto. lia.
Qed.
Lemma sort_desc_sorted l : StronglySorted ge (sort_desc l).
Proof. induction l; simpl; [constructor|]. apply insert_desc_sorted; auto. Qed.

Lemma unique_adj_In x l : In x (unique_adj l) <-> In x l.
Proof.
  induction l as [|a l IH]; simpl; [tauto|]. destruct l as [|b l]; [simpl; tauto|].
  destruct (Nat.eqb_spec a b) as [->|N].
  - rewrite IH. simpl. tauto.
  - simpl In at 1. rewrite IH. tauto.
Qed.

Lemma unique_adj_sorted l : StronglySorted ge l -> StronglySorted gt (unique_adj l).
Proof.
  induction 1 as [|a l S IH F]; simpl; [constructor|].
  destruct l as [|b l]; [repeat constructor|].
  destruct (Nat.eqb_spec a b) as [->|N]; auto.
  constructor; auto. apply Forall_forall. intros x Hx. apply (proj1 (unique_adj_In x (b :: l))) in Hx.
  inversion F as [|? ? Hab HF]; subst. simpl in Hx. destruct Hx as [->|Hx]; [lia|].
  inversion S; subst. rewrite Forall_forall in H2. specialize (H2 x Hx). simpl in *. lia.
Qed.

Lemma StronglySorted_gt_snoc l x : StronglySorted gt l -> Forall (fun y => y > x) l -> StronglySorted gt (l ++ [x]).
Proof.
  induction 1 as [|a l S IH F]; intros G; simpl; [repeat constructor|].
  inversion G; subst. constructor; auto. apply Forall_app; split; auto.
Qed.

Lemma last_snoc {A} (l : list A) x d : last (l ++ [x]) d = x.
Proof. induction l; simpl; auto. destruct (l ++ [x]) eqn:E; auto. destruct l; discriminate. Qed.

(** invariant of the queue loop: the vector [rev rdone ++ todo] is strictly
    decreasing, its last element is >= the parent of the head of [todo], and
    parents of processed entries are present. *)
Definition pl_inv (rdone todo : list nat) : Prop :=
  StronglySorted gt (rev rdone ++ todo)
  /\ (forall x, In x todo -> x <> 0 -> x / 2 <= last todo 0)
  /\ (forall x, In x rdone -> x <> 0 /\ In (x / 2) (rev rdone ++ todo)).

Lemma div2_lt x : x <> 0 -> x / 2 < x.
Proof. intros. apply Nat.div_lt; lia. Qed.

Lemma sorted_last_min l d x : StronglySorted gt l -> In x l -> last l d <= x.
Proof.
  induction 1 as [|a l S IH F]; simpl; [tauto|]. intros [->|Hx].
  - destruct l as [|b l]; auto. rewrite Forall_forall in F.
    assert (In (last (b :: l) d) (b :: l)).
    { clear. revert b; induction l; intros b; [left; auto|]. right. apply IHl. }
    specialize (F _ H). lia.
  - destruct l; [inversion Hx|]. auto.
Qed.

Lemma sorted_app_r l1 l2 : StronglySorted gt (l1 ++ l2) -> StronglySorted gt l2.
Proof. induction l1; simpl; auto. inversion 1; auto. Qed.

Lemma last_app_ne {A} (l1 l2 : list A) d : l2 <> [] -> last (l1 ++ l2) d = last l2 d.
Proof.
  intros H. induction l1 as [|a l1 IH]; auto. simpl.
  destruct (l1 ++ l2) eqn:E; auto. apply app_eq_nil in E as [_ E]. contradiction.
Qed.

Lemma parents_loop_spec : forall fuel rdone todo leaves,
  pl_inv rdone todo ->
  (forall x, In x (rev rdone ++ todo) -> exists l, In l leaves /\ anc x l) ->
  (forall l, In l leaves -> In l (rev rdone ++ todo)) ->
  (todo = [] -> rdone = []) ->
  (match todo with [] => 0 | x :: _ => S x end <= fuel) ->
  let r := parents_loop fuel rdone todo in
  StronglySorted gt r
  /\ (forall x, In x r -> exists l, In l leaves /\ anc x l)
  /\ (forall l, In l leaves -> In l r)
  /\ (forall x, In x r -> x <> 0 -> In (x / 2) r).
Proof.
  induction fuel as [|f IH]; intros rdone todo leaves (SS & LB & PR) A L E F.
  { simpl. destruct todo as [|x todo]; [|lia]. rewrite (E eq_refl) in *. simpl in *.
    repeat split; auto; try tauto. }
  simpl. destruct todo as [|x r].
  { rewrite (E eq_refl) in *. simpl in *. repeat split; auto; tauto. }
  destruct (Nat.eqb_spec x 0) as [->|Nx].
  { repeat split; auto. intros y Hy Ny. apply in_app_or in Hy as [Hy|Hy].
    - apply in_rev in Hy. apply PR; auto.
    - exfalso. apply sorted_app_r in SS. inversion SS; subst. simpl in Hy. destruct Hy as [|Hy]; [lia|].
      rewrite Forall_forall in H2. specialize (H2 y Hy). lia. }
  assert (EqA : forall t, rev (x :: rdone) ++ t = rev rdone ++ x :: t).
  { intros. simpl. rewrite <- app_assoc. reflexivity. }
  assert (LB' := LB x (or_introl eq_refl) Nx).
  set (lst := last (x :: r) 0) in *.
  change (match r with [] => x | _ :: _ => last r 0 end) with lst.
  pose proof (sorted_app_r _ _ SS) as ST.
  pose proof (div2_lt x Nx) as Dx.
  assert (HD : forall y, In y r -> y < x).
  { inversion ST; subst. rewrite Forall_forall in H2. intros y Hy. specialize (H2 _ Hy). lia. }
  destruct (Nat.ltb_spec (x / 2) lst) as [Hlt|Hge].
  - assert (S' : StronglySorted gt (rev rdone ++ x :: r ++ [x / 2])).
    { rewrite app_comm_cons, app_assoc. apply StronglySorted_gt_snoc; auto.
      apply Forall_forall. intros y Hy. apply Nat.lt_le_trans with lst; auto.
      replace lst with (last (rev rdone ++ x :: r) 0). { apply sorted_last_min; auto. }
      unfold lst. apply last_app_ne. discriminate. }
    apply IH.
    + split; [|split].
      * rewrite EqA. auto.
      * intros y Hy Ny. rewrite last_snoc. apply Nat.div_le_mono; [lia|].
        apply in_app_or in Hy as [Hy|[<-|[]]]; [specialize (HD y Hy)|]; lia.
      * intros y Hy. rewrite EqA. simpl in Hy. destruct Hy as [<-|Hy].
        -- split; auto. apply in_or_app. right. right. apply in_or_app. right. left. auto.
        -- apply PR in Hy as [Ny Hy]. split; auto. rewrite app_comm_cons, app_assoc. apply in_or_app. auto.
    + intros y Hy. rewrite EqA in Hy. rewrite app_comm_cons, app_assoc in Hy.
      apply in_app_or in Hy as [Hy|[<-|[]]]; auto.
      destruct (A x) as (l & Hl & k & Hk). { apply in_or_app. right. left. auto. }
      exists l. split; auto. exists (S k). rewrite Hk, Nat.pow_succ_r', Nat.mul_comm.
      rewrite Nat.div_div by (try apply Nat.pow_nonzero; lia). reflexivity.
    + intros l Hl. rewrite EqA, app_comm_cons, app_assoc. apply in_or_app. left. auto.
    + intros H. destruct r; discriminate.
    + destruct r as [|y r]; simpl; [lia|]. specialize (HD y (or_introl eq_refl)). lia.
  - assert (Hr : r <> []). { intros ->. unfold lst in *. simpl in *. lia. }
    assert (Hlr : last r 0 = lst). { unfold lst. destruct r; [congruence|]. reflexivity. }
    apply IH.
    + split; [|split].
      * rewrite EqA. auto.
      * intros y Hy Ny. rewrite Hlr. apply LB; simpl; auto.
      * intros y Hy. rewrite EqA. simpl in Hy. destruct Hy as [<-|Hy]; auto. split; auto.
        apply in_or_app. right. right. replace (x / 2) with (last r 0) by lia.
        destruct r as [|a r]; [congruence|]. clear. revert a; induction r; intros a'; [left; auto|]. right. apply IHr.
    + intros y Hy. rewrite EqA in Hy. auto.
    + intros l Hl. rewrite EqA. auto.
    + intros ->. contradiction.
    + destruct r as [|y r]; [congruence|]. specialize (HD y (or_introl eq_refl)). lia.
Qed.

Lemma list_max_ge l x : In x l -> x <= list_max l.
Proof.
  intros H. pose proof (proj1 (list_max_le l (list_max l)) (le_n _)) as F.
  rewrite Forall_forall in F. auto.
Qed.

Lemma parents_closed_anc r : (forall x, In x r -> x <> 0 -> In (x / 2) r) ->
  forall l, In l r -> forall k, In (l / 2 ^ k) r.
Proof.
  intros H l Hl k. revert l Hl. induction k; intros l Hl.
  - rewrite Nat.pow_0_r, Nat.div_1_r. auto.
  - rewrite Nat.pow_succ_r', <- Nat.div_div by (try apply Nat.pow_nonzero; lia).
    destruct (Nat.eq_dec l 0) as [->|N].
    + replace (0 / 2) with 0 by reflexivity. apply IHk; auto.
    + apply IHk; auto.
Qed.

Lemma extract_path_indices_empty : extract_path_indices [] = [].
Proof. reflexivity. Qed.

(** main result: for leaves on one level the extracted list is exactly the set
    of ancestors (stash included), strictly decreasing. *)
Lemma extract_path_indices_spec d leaves :
  (forall l, In l leaves -> 2 ^ d <= l < 2 ^ (d + 1)) ->
  StronglySorted gt (extract_path_indices leaves)
  /\ forall v, In v (extract_path_indices leaves) <-> exists l, In l leaves /\ anc v l.
Proof.
  intros HL. unfold extract_path_indices.
  set (ind := unique_adj (sort_desc leaves)).
  assert (HI : forall x, In x ind <-> In x leaves).
  { intros x. unfold ind. rewrite unique_adj_In. split; apply Permutation_in;
      [|symmetry]; apply sort_desc_perm. }
  assert (HS : StronglySorted gt ind) by (apply unique_adj_sorted, sort_desc_sorted).
  assert (P : 1 <= 2 ^ d) by (apply Nat.neq_0_lt_0, Nat.pow_nonzero; lia).
  destruct (parents_loop_spec (S (list_max leaves)) [] ind leaves) as (R1 & R2 & R3 & R4).
  - split; [|split]; auto.
    + intros x Hx Nx. apply Nat.le_trans with (2 ^ d).
      * apply HI, HL in Hx. rewrite pow2_add1 in Hx. apply Nat.div_le_upper_bound; lia.
      * assert (In (last ind 0) ind). { destruct ind; [inversion Hx|]. clear. revert n. induction ind; intros n; [left; auto|]. right; apply IHind. }
        apply HI, HL in H. lia.
    + simpl. tauto.
  - simpl. intros x Hx. apply HI in Hx. exists x. split; auto. exists 0. rewrite Nat.div_1_r. auto.
  - simpl. intros l Hl. apply HI. auto.
  - auto.
  - destruct ind as [|x r] eqn:E; [lia|]. assert (In x leaves) by (apply HI; left; auto).
    apply list_max_ge in H. lia.
  - split; auto. intros v. split; auto. intros (l & Hl & k & ->).
    apply parents_closed_anc; auto.
Qed.
