(** * Stash overflow: for every hash there is a batch that loses an element. *)
Require Import List Arith Lia ZArith Permutation Bool Sorted.
Import ListNotations.
From Verif Require Import Prelude TreeModel TreeSpec TreeIndex TreeProofs TreeHistory.

Section O.
Context {A : Type}.
Variable hash : A -> list bool.
Hypothesis hash_len : forall x, length (hash x) = 256.
Notation nodeAt := (@nodeAt A).

Definition first_bit (x : A) : bool := hd false (hash x).

(** pigeonhole: among 2K distinct elements, K share the first hash bit *)
Lemma same_first_bit (f : nat -> A) (Hf : forall i j, f i = f j -> i = j) K :
  exists b es, length es = K /\ NoDup es /\ Forall (fun x => first_bit x = b) es.
Proof.
  set (l := map f (seq 0 (2 * K))).
  assert (ND : NoDup l).
  { apply FinFun.Injective_map_NoDup; [exact Hf|apply seq_NoDup]. }
  assert (L : length (filter first_bit l) + length (filter (fun x => negb (first_bit x)) l) = 2 * K).
  { assert (E : length l = 2 * K) by (unfold l; rewrite map_length, seq_length; auto).
    rewrite <- E. clear. induction l as [|x l IH]; simpl; auto. destruct (first_bit x); simpl; lia. }
  assert (G : forall b p, (forall x, p x = true -> first_bit x = b) -> K <= length (filter p l) ->
     exists b es, length es = K /\ NoDup es /\ Forall (fun x => first_bit x = b) es).
  { intros b p Hp HK. exists b, (firstn K (filter p l)). split; [apply firstn_length_le; auto|]. split.
    - assert (NoDup (firstn K (filter p l) ++ skipn K (filter p l))) by (rewrite firstn_skipn; apply NoDup_filter; auto).
      revert H. generalize (skipn K (filter p l)). induction (firstn K (filter p l)); intros l1 H; [constructor|].
      simpl in H. inversion H; subst. constructor; eauto. intro. apply H2. apply in_or_app; auto.
    - apply Forall_forall. intros x Hx. apply Hp.
      assert (In x (filter p l)). { rewrite <- (firstn_skipn K). apply in_or_app; auto. }
      apply filter_In in H. tauto. }
  destruct (le_lt_dec K (length (filter first_bit l))).
  - apply (G true first_bit); auto.
  - apply (G false (fun x => negb (first_bit x))); [|lia]. intros x. destruct (first_bit x); simpl; congruence.
Qed.

(** the path on the other side of the root *)
Definition far_path (b : bool) : list bool := negb b :: repeat false 255.

Lemma far_path_len b : length (far_path b) = 256.
Proof. reflexivity. Qed.

Lemma compute_index_first d b r : compute_index (1 + d) (b :: r) =
  fold_left (fun x (c : bool) => if c then 2 * x + 1 else 2 * x) (firstn d r) (if b then 3 else 2).
Proof. unfold compute_index. simpl. destruct b; reflexivity. Qed.

Lemma compute_index_1 (b : bool) r : compute_index 1 (b :: r) = if b then 3 else 2.
Proof. reflexivity. Qed.

Lemma div_level d L k v : 2 ^ d <= L < 2 ^ (d + 1) -> v = L / 2 ^ k -> 2 <= v -> k < d.
Proof.
  intros HL -> Hv. destruct (le_lt_dec d k) as [H|]; auto. exfalso.
  assert (L / 2 ^ k <= L / 2 ^ d).
  { apply Nat.div_le_compat_l. pose proof (Nat.pow_le_mono_r 2 d k). pose proof (Nat.pow_nonzero 2 d). lia. }
  assert (L / 2 ^ d = 1).
  { symmetry. apply Nat.div_unique with (L - 2 ^ d); rewrite ?pow2_add1 in HL; lia. }
  lia.
Qed.

Lemma same_node_same_first d L1 L2 k1 k2 v : 2 ^ d <= L1 < 2 ^ (d + 1) -> 2 ^ d <= L2 < 2 ^ (d + 1) ->
  v = L1 / 2 ^ k1 -> v = L2 / 2 ^ k2 -> 2 <= v -> 1 <= d -> L1 / 2 ^ (d - 1) = L2 / 2 ^ (d - 1).
Proof.
  intros H1 H2 E1 E2 Hv Hd.
  pose proof (div_level d L1 k1 v H1 E1 Hv). pose proof (div_level d L2 k2 v H2 E2 Hv).
  assert (R : forall L k, 2 ^ d <= L < 2 ^ (d + 1) -> v = L / 2 ^ k -> k < d -> 2 ^ (d - k) <= v < 2 ^ (d - k + 1)).
  { intros L k HL -> Hk. split.
    - apply Nat.div_le_lower_bound. apply Nat.pow_nonzero; lia. rewrite <- Nat.pow_add_r. replace (k + (d - k)) with d by lia. lia.
    - apply Nat.div_lt_upper_bound. apply Nat.pow_nonzero; lia. rewrite <- Nat.pow_add_r. replace (k + (d - k + 1)) with (d + 1) by lia. lia. }
  pose proof (R L1 k1 H1 E1 H) as R1. pose proof (R L2 k2 H2 E2 H0) as R2.
  assert (k1 = k2).
  { destruct (lt_eq_lt_dec k1 k2) as [[X|X]|X]; auto; exfalso.
    - assert (2 ^ (d - k2 + 1) <= 2 ^ (d - k1)) by (apply Nat.pow_le_mono_r; lia). lia.
    - assert (2 ^ (d - k1 + 1) <= 2 ^ (d - k2)) by (apply Nat.pow_le_mono_r; lia). lia. }
  subst k2.
  assert (forall L, L / 2 ^ (d - 1) = (L / 2 ^ k1) / 2 ^ (d - 1 - k1)).
  { intros L. rewrite Nat.div_div by (apply Nat.pow_nonzero; lia). rewrite <- Nat.pow_add_r. do 2 f_equal. lia. }
  rewrite !H3. congruence.
Qed.

Lemma index_first_bit d h : 1 <= d -> d <= length h ->
  compute_index d h / 2 ^ (d - 1) = if hd false h then 3 else 2.
Proof.
  intros H1 H2. pose proof (compute_index_shift 1 (d - 1) h) as S. replace (1 + (d - 1)) with d in S by lia.
  rewrite S by auto. destruct h as [|b r]; [simpl in H2; lia|]. apply compute_index_1.
Qed.

Lemma contents_root_stash t : wf hash t -> (forall v, 2 <= v -> elems (nodeAt (t_nodes t) v) = []) ->
  length (contents t) <= t_stash_size t + t_node_size t.
Proof.
  intros [L C CO _] H. unfold contents.
  pose proof (Nat.pow_nonzero 2 (t_depth t)). rewrite pow2_add1 in L.
  assert (0 < length (t_nodes t) /\ 1 < length (t_nodes t)) as [C0 C1] by lia.
  apply C in C0. apply C in C1. pose proof (CO 0) as O0. pose proof (CO 1) as O1.
  unfold TreeModel.nodeAt, cap_at in *. destruct (t_nodes t) as [|n0 [|n1 r]]; simpl in *; try lia.
  assert (E : flat_map elems r = []).
  { assert (F : forall n, In n r -> elems n = []).
    { intros n Hn. apply (In_nth _ _ (node_new 0)) in Hn as (v & Hv & <-). apply (H (S (S v))). lia. }
    clear -F. induction r; simpl; auto. rewrite F, IHr; auto with datatypes. }
  rewrite !app_length, E. simpl. lia.
Qed.

Lemma overflow_exists (f : nat -> A) (Hf : forall i j, f i = f j -> i = j) s n :
  int_range (s + n + 1) ->
  exists es hsh, NoDup es /\ valid_batch (es, hsh) /\ length es = s + n + 1 /\
    exists x, In x es /\ ~ In x (contents (fst (insert hash es hsh (tree_new s n)))).
Proof.
  intros IR. set (K := s + n + 1) in *.
  destruct (same_first_bit f Hf K) as (b & es & LE & ND & FB).
  exists es, (repeat (far_path b) K).
  assert (V : valid_batch (es, repeat (far_path b) K)).
  { split; simpl. rewrite repeat_length; auto. apply Forall_forall. intros h Hh. apply repeat_spec in Hh. subst h. reflexivity. }
  split; auto. split; auto. split; auto.
  destruct (insert hash es (repeat (far_path b) K) (tree_new s n)) as [t' out] eqn:E. simpl fst.
  destruct (reach_step hash (tree_new s n) 0 (es, repeat (far_path b) K) t' out hash_len (reach_new hash s n) V)
    as (DB & R & D & SS & NS & P & _ & UT & _).
  { simpl. rewrite LE. auto. }
  { exact E. }
  simpl fst in *. simpl snd in *. set (d := t_depth (grow (length es) (tree_new s n))) in *.
  assert (LC : length (contents t') <= s + n).
  { destruct (le_lt_dec 1 d) as [Hd|Hd].
    - assert (SN : s + n = t_stash_size t' + t_node_size t') by (rewrite SS, NS; reflexivity).
      rewrite SN. destruct R as [W _ _ _]. apply contents_root_stash; auto. intros v Hv.
      destruct (in_dec Nat.eq_dec v (path_indices d (repeat (far_path b) K))) as [I|I].
      + destruct (elems (nodeAt (t_nodes t') v)) as [|x r] eqn:EV; auto. exfalso.
        assert (Hx : In x (elems (nodeAt (t_nodes t') v))) by (rewrite EV; left; auto).
        assert (Inx : In x es).
        { assert (In x (contents t')) by (apply (stored_In x (t_nodes t')); eauto).
          assert (In x (contents t' ++ lost_by hash es (repeat (far_path b) K) (tree_new s n))) by (apply in_or_app; auto).
          rewrite P in H0. apply in_app_or in H0 as [|H0]; auto. inversion H0. }
        pose proof (wf_placed _ _ W v x Hx) as (k1 & E1). rewrite D in E1.
        unfold path_indices in I. apply (extract_path_indices_spec d) in I.
        2:{ apply path_leaves_range. intros h Hh. apply repeat_spec in Hh. subst. rewrite far_path_len. lia. }
        destruct I as (l & Hl & (k2 & E2)). unfold path_leaves in Hl. apply in_map_iff in Hl as (h & <- & Hh).
        apply repeat_spec in Hh. subst h.
        assert (Lh : d <= length (hash x)) by (rewrite hash_len; lia).
        assert (Lf : d <= length (far_path b)) by (rewrite far_path_len; lia).
        pose proof (same_node_same_first d _ _ k1 k2 v (compute_index_bounds d _ Lh) (compute_index_bounds d _ Lf) E1 E2 Hv Hd) as Q.
        rewrite !index_first_bit in Q by auto.
        rewrite Forall_forall in FB. specialize (FB x Inx). unfold first_bit in FB. rewrite FB in Q.
        simpl in Q. destruct b; simpl in Q; discriminate.
      + rewrite UT by auto. destruct v as [|[|v]]; try lia. unfold TreeModel.nodeAt. cbn. destruct v; reflexivity.
    - (* depth 0: batch of one element, no room at all *)
      destruct R as [W _ RL _]. rewrite D in RL. replace d with 0 in RL by lia. rewrite LE in RL.
      change (0 + K < 2) in RL. assert (s = 0 /\ n = 0) as [-> ->] by lia.
      assert (H : length (contents t') <= t_stash_size t' + t_node_size t').
      { apply contents_root_stash; auto. intros v Hv. destruct W as [L _ _ _]. rewrite nodeAt_out; auto.
        rewrite L, D. replace d with 0 by lia. exact Hv. }
      rewrite SS, NS in H. exact H. }
  (* counting *)
  change (contents (tree_new s n)) with (@nil A) in P. rewrite app_nil_r in P.
  destruct (lost_by hash es (repeat (far_path b) K) (tree_new s n)) as [|x l] eqn:EL.
  { apply Permutation_length in P. rewrite app_nil_r in P. lia. }
  exists x. split.
  - eapply Permutation_in; [exact P|]. apply in_or_app; right; left; auto.
  - intro Hx. symmetry in P. apply (Permutation_NoDup P) in ND. apply NoDup_remove_2 in ND.
    apply ND. apply in_or_app; auto.
Qed.
End O.
