(** * Growth, whole insertions and histories. *)
Require Import List Arith Lia ZArith Permutation Bool Sorted.
Import ListNotations.
From Verif Require Import Prelude TreeModel TreeSpec TreeIndex TreeProofs.

Section H.
Context {A : Type}.
Variable hash : A -> list bool.
Notation nodeAt := (@nodeAt A).

Definition cap_at (t : tree A) (v : nat) : nat :=
  if v =? 0 then t_stash_size t else t_node_size t.

Record wf (t : tree A) : Prop := {
  wf_len : length (t_nodes t) = 2 ^ (t_depth t + 1);
  wf_cap : forall v, v < length (t_nodes t) -> node_cap (nodeAt (t_nodes t) v) = cap_at t v;
  wf_caps : caps_ok (t_nodes t);
  wf_placed : placed hash (t_depth t) (t_nodes t)
}.

Lemma wf_new s n : wf (tree_new s n).
Proof.
  constructor; simpl.
  - reflexivity.
  - intros [|[|v]] H; simpl in H; try lia; reflexivity.
  - intros [|[|[|v]]]; cbn; lia.
  - intros [|[|[|v]]] x H; cbn in H; tauto.
Qed.

Lemma nodeAt_app_new (ns : list (node A)) m c v :
  elems (nodeAt (ns ++ repeat (node_new c) m) v) = elems (nodeAt ns v).
Proof.
  unfold TreeModel.nodeAt. destruct (lt_dec v (length ns)).
  - rewrite app_nth1 by auto. auto.
  - rewrite app_nth2 by lia. rewrite (nth_overflow ns) by lia.
    generalize (v - length ns). induction m; intros [|k]; simpl; auto.
Qed.

Lemma stored_app_new (ns : list (node A)) m c : stored (ns ++ repeat (node_new c) m) = stored ns.
Proof.
  unfold stored. rewrite flat_map_app. replace (flat_map elems (repeat (node_new c) m)) with (@nil A).
  - apply app_nil_r.
  - induction m; simpl; auto.
Qed.

Lemma placed_deeper d ns : (forall x : A, d + 1 <= length (hash x)) -> placed hash d ns -> placed hash (d + 1) ns.
Proof.
  intros HL P v x Hx. destruct (P v x Hx) as (k & ->). exists (S k).
  rewrite Nat.pow_succ_r', <- Nat.div_div by (try apply Nat.pow_nonzero; lia).
  rewrite Nat.add_1_r, compute_index_S; auto. specialize (HL x). lia.
Qed.

Lemma wf_add_layer t : wf t -> (forall x : A, t_depth t + 1 <= length (hash x)) -> wf (add_new_layer t).
Proof.
  intros [L C CO P] HL. constructor; simpl.
  - rewrite app_length, repeat_length, L. rewrite !pow2_add1. lia.
  - intros v Hv. rewrite app_length, repeat_length in Hv. unfold cap_at. simpl.
    unfold TreeModel.nodeAt. destruct (lt_dec v (length (t_nodes t))).
    + rewrite app_nth1 by auto. apply C; auto.
    + rewrite app_nth2 by lia. destruct (Nat.eqb_spec v 0); [pose proof (Nat.pow_nonzero 2 (t_depth t + 1)); lia|].
      rewrite nth_repeat_lt by lia. reflexivity.
  - intros v. rewrite nodeAt_app_new. destruct (lt_dec v (length (t_nodes t))) as [H|H].
    + unfold TreeModel.nodeAt at 2. rewrite app_nth1 by auto. apply CO.
    + rewrite nodeAt_out by lia. simpl. lia.
  - intros v x Hx. rewrite nodeAt_app_new in Hx. revert v x Hx. apply placed_deeper; auto.
Qed.

Lemma grow_loop_spec n : forall fuel t, n + t_actual t <= fuel + t_depth t ->
  let t' := grow_loop fuel n t in
  t_depth t <= t_depth t' /\ n + t_actual t < 2 ^ (t_depth t' + 1) /\
  (t_depth t' = t_depth t \/ 2 ^ t_depth t' <= n + t_actual t) /\
  t_actual t' = t_actual t /\ t_stash_size t' = t_stash_size t /\ t_node_size t' = t_node_size t /\
  stored (t_nodes t') = stored (t_nodes t) /\
  (forall v, elems (nodeAt (t_nodes t') v) = elems (nodeAt (t_nodes t) v)) /\
  (wf t -> (forall x : A, t_depth t' <= length (hash x)) -> wf t').
Proof.
  induction fuel as [|f IH]; intros t H; simpl.
  - assert (n + t_actual t < 2 ^ (t_depth t + 1)) by (pose proof (pow2_gt (t_depth t + 1)); lia).
    do 8 (split; [auto|]). auto.
  - destruct (Nat.leb_spec (2 ^ (t_depth t + 1)) (n + t_actual t)) as [Hle|Hgt].
    + destruct (IH (add_new_layer t)) as (I1 & I2 & I3 & I4 & I5 & I6 & I7 & I7b & I8).
      { simpl. lia. }
      simpl t_depth in I1, I3. simpl t_actual in *. simpl t_stash_size in *. simpl t_node_size in *.
      split; [lia|]. split; [auto|].
      split. { destruct I3 as [I3|I3]; auto. right. rewrite I3. auto. }
      split; [auto|]. split; [auto|]. split; [auto|].
      split. { rewrite I7. simpl. apply stored_app_new. }
      split. { intros v. rewrite I7b. simpl. apply nodeAt_app_new. }
      { intros W HL. apply I8; auto. apply wf_add_layer; auto. intros x. specialize (HL x). lia. }
    + do 8 (split; [auto|]). auto.
Qed.

Lemma grow_spec n t :
  let t' := grow n t in
  t_depth t <= t_depth t' /\ n + t_actual t < 2 ^ (t_depth t' + 1) /\
  (t_depth t' = t_depth t \/ 2 ^ t_depth t' <= n + t_actual t) /\
  t_actual t' = t_actual t /\ t_stash_size t' = t_stash_size t /\ t_node_size t' = t_node_size t /\
  stored (t_nodes t') = stored (t_nodes t) /\
  (forall v, elems (nodeAt (t_nodes t') v) = elems (nodeAt (t_nodes t) v)) /\
  (wf t -> (forall x : A, t_depth t' <= length (hash x)) -> wf t').
Proof. apply grow_loop_spec. lia. Qed.

(** ** loops over new elements *)
Lemma insert_loop_spec d es : forall leaves ns,
  length leaves = length es ->
  long_enough hash d -> length ns = 2 ^ (d + 1) ->
  (forall l, In l leaves -> 2 ^ d <= l < 2 ^ (d + 1)) ->
  let ns' := insert_loop hash d es leaves ns in
  length ns' = length ns /\
  (forall u, node_cap (nodeAt ns' u) = node_cap (nodeAt ns u)) /\
  (forall u, (forall l, In l leaves -> ~ In u (path_up l)) -> nodeAt ns' u = nodeAt ns u) /\
  Permutation (stored ns' ++ insert_lost hash d es leaves ns) (es ++ stored ns) /\
  (placed hash d ns -> placed hash d ns') /\
  (caps_ok ns -> caps_ok ns') /\
  (insert_loop_dbg hash d es leaves ns =
     if insert_lost hash d es leaves ns then Ok ns' else Abort).
Proof.
  induction es as [|e es IH]; intros [|l leaves] ns Hlen HL Hn HR; simpl in Hlen; try lia; simpl.
  - repeat split; auto. rewrite app_nil_r. auto.
  - destruct (insert_one hash d e l ns) as [ns1 [st lost]] eqn:E.
    destruct (insert_one_spec hash d e l ns ns1 st lost HL (HR l (or_introl eq_refl)) Hn E)
      as (I1 & I2 & I2b & I3 & I4 & I5 & I6).
    destruct (IH leaves ns1) as (J1 & J2 & J2b & J3 & J4 & J5 & J6); auto; try lia.
    { intros l' Hl'. apply HR. right; auto. }
    simpl fst. split; [congruence|]. split; [intros u; rewrite J2; auto|].
    split. { intros u Hu. rewrite J2b by (intros; apply Hu; auto). apply I2b, Hu. auto. }
    split.
    { rewrite (Permutation_app_comm lost), app_assoc, J3.
      rewrite <- app_assoc, I3. symmetry. apply Permutation_middle. }
    split; auto. split; auto.
    destruct (Nat.leb_spec st d) as [Hs|Hs].
    + apply I6 in Hs. destruct lost; [congruence|]. reflexivity.
    + destruct lost as [|y lost]. { simpl. exact J6. }
      exfalso. assert (st <= d) by (apply I6; discriminate). lia.
Qed.

(** elements that a release-mode insertion destroys *)
Definition lost_by (es : list A) (hsh : list (list bool)) (t : tree A) : list A :=
  let t1 := grow (length es) t in
  insert_lost hash (t_depth t1) es (path_leaves (t_depth t1) hsh) (t_nodes t1).

Lemma path_leaves_range d hsh : (forall h, In h hsh -> d <= length h) ->
  forall l, In l (path_leaves d hsh) -> 2 ^ d <= l < 2 ^ (d + 1).
Proof.
  intros H l Hl. unfold path_leaves in Hl. apply in_map_iff in Hl as (h & <- & Hh).
  apply compute_index_bounds; auto.
Qed.

Lemma insert_spec es hsh t t' out :
  wf t -> length hsh = length es ->
  let d := t_depth (grow (length es) t) in
  (forall x : A, d <= length (hash x)) -> (forall h, In h hsh -> d <= length h) ->
  insert hash es hsh t = (t', out) ->
  wf t' /\ t_depth t' = d /\ t_actual t' = t_actual t + length es /\
  t_stash_size t' = t_stash_size t /\ t_node_size t' = t_node_size t /\
  Permutation (contents t' ++ lost_by es hsh t) (es ++ contents t) /\
  out = map (fun i => node_copy (nodeAt (t_nodes t') i)) (path_indices d hsh) /\
  (forall u, ~ In u (path_indices d hsh) -> elems (nodeAt (t_nodes t') u) = elems (nodeAt (t_nodes t) u)) /\
  insert_dbg hash es hsh t = if lost_by es hsh t then Ok (t', out) else Abort.
Proof.
  intros W Hlen d HL HH E.
  destruct (grow_spec (length es) t) as (G1 & G2 & G3 & G4 & G5 & G6 & G7 & G7b & G8).
  fold d in G1, G2, G3, G8. specialize (G8 W HL). destruct G8 as [L C CO P]. fold d in L, P.
  set (t1 := grow (length es) t) in *.
  destruct (insert_loop_spec d es (path_leaves d hsh) (t_nodes t1)) as (I1 & I2 & I2b & I3 & I4 & I5 & I6); auto.
  { unfold path_leaves. rewrite map_length. auto. }
  { apply path_leaves_range; auto. }
  unfold insert, finish_insert in E. fold t1 in E. fold d in E. inversion E; subst t' out. clear E.
  split.
  { constructor; simpl.
    - rewrite I1. fold d. auto.
    - intros v Hv. rewrite I2. rewrite I1 in Hv. apply C; auto.
    - auto.
    - auto. }
  simpl. split; auto. split; auto. split; auto. split; auto. split.
  { unfold contents, lost_by. simpl. fold t1. fold d. fold (stored (t_nodes t)).
    change (flat_map elems ?x) with (stored x). rewrite <- G7. exact I3. }
  split; auto. split.
  { intros u Hu. rewrite I2b; auto. intros l Hl Hin. apply Hu. unfold path_indices.
    apply (extract_path_indices_spec d). { apply path_leaves_range; auto. }
    exists l. split; auto. apply (path_up_In d) in Hin; auto. eapply path_leaves_range; eauto. }
  unfold insert_dbg, lost_by. fold t1. fold d. rewrite I6.
  destruct (insert_lost hash d es (path_leaves d hsh) (t_nodes t1)); reflexivity.
Qed.

(** ** histories *)
Lemma depth_bound d n : d = 0 \/ 2 ^ d <= n -> int_range n -> d < 30.
Proof.
  unfold int_range. intros [->|H] R; [lia|].
  destruct (le_lt_dec 30 d) as [L|]; auto. exfalso.
  assert (H0 : 2 ^ 30 <= n). { eapply Nat.le_trans; [|exact H]. apply Nat.pow_le_mono_r; lia. }
  apply inj_le in H0. rewrite Nat2Z.inj_pow in H0. change (Z.of_nat 2) with 2%Z in H0.
  change (Z.of_nat 30) with 30%Z in H0. lia.
Qed.

(** the state invariant of a reachable tree; [n] elements inserted so far *)
Record reach (t : tree A) (n : nat) : Prop := {
  r_wf : wf t;
  r_actual : t_actual t = n;
  r_lt : n < 2 ^ (t_depth t + 1);
  r_min : t_depth t = 0 \/ 2 ^ t_depth t <= n
}.

Lemma reach_new s n : reach (tree_new s n) 0.
Proof. constructor; simpl; auto. apply wf_new. apply Nat.neq_0_lt_0, Nat.pow_nonzero. lia. Qed.

Lemma reach_step t n b t' out :
  (forall x : A, length (hash x) = 256) -> reach t n -> valid_batch b ->
  int_range (n + length (fst b)) -> insert hash (fst b) (snd b) t = (t', out) ->
  let d := t_depth (grow (length (fst b)) t) in
  d < 30 /\
  reach t' (n + length (fst b)) /\
  t_depth t' = d /\ t_stash_size t' = t_stash_size t /\ t_node_size t' = t_node_size t /\
  Permutation (contents t' ++ lost_by (fst b) (snd b) t) (fst b ++ contents t) /\
  out = map (fun i => node_copy (nodeAt (t_nodes t') i)) (path_indices d (snd b)) /\
  (forall u, ~ In u (path_indices d (snd b)) -> elems (nodeAt (t_nodes t') u) = elems (nodeAt (t_nodes t) u)) /\
  insert_dbg hash (fst b) (snd b) t = if lost_by (fst b) (snd b) t then Ok (t', out) else Abort.
Proof.
  intros HH [W RA RL RM] [V1 V2] IR E d.
  destruct (grow_spec (length (fst b)) t) as (G1 & G2 & G3 & G4 & _).
  fold d in G1, G2, G3. rewrite RA in *. rewrite Nat.add_comm in G2, G3.
  assert (DM : d = 0 \/ 2 ^ d <= n + length (fst b)).
  { destruct G3 as [G3|G3]; auto. rewrite G3. destruct RM; auto. right. lia. }
  pose proof (depth_bound _ _ DM IR) as DB.
  destruct (insert_spec (fst b) (snd b) t t' out) as (I1 & I2 & I3 & I4 & I5 & I6 & I7 & I8 & I9); auto.
  { intros x. rewrite HH. fold d. lia. }
  { intros h Hh. rewrite Forall_forall in V2. rewrite (V2 h Hh). fold d. lia. }
  fold d in I2, I7, I8. split; auto. split.
  { constructor; auto; rewrite ?I2; auto. rewrite I3, RA. auto. }
  do 6 (split; [auto|]). auto.
Qed.

Lemma run_debug_spec bs : forall t n t',
  (forall x : A, length (hash x) = 256) -> reach t n -> Forall valid_batch bs ->
  int_range (n + length (history_elems bs)) ->
  run_debug hash bs t = Ok t' ->
  reach t' (n + length (history_elems bs)) /\
  t_stash_size t' = t_stash_size t /\ t_node_size t' = t_node_size t /\
  run_release hash bs t = t' /\
  Permutation (contents t') (history_elems bs ++ contents t).
Proof.
  induction bs as [|b bs IH]; intros t n t' HH R V IR E; cbn [run_debug] in *.
  - inversion E; subst. cbn. rewrite Nat.add_0_r. auto.
  - change (history_elems (b :: bs)) with (fst b ++ history_elems bs) in *.
    inversion V; subst. apply obind_Ok in E as ([t1 out] & E1 & E2). simpl in E2.
    assert (IR1 : int_range (n + length (fst b))).
    { unfold int_range in *. rewrite app_length in IR. lia. }
    destruct (insert hash (fst b) (snd b) t) as [t1' out'] eqn:EI.
    destruct (reach_step t n b t1' out' HH R H1 IR1 EI) as (_ & R1 & D1 & S1 & N1 & P1 & _ & _ & DBG).
    rewrite DBG in E1. destruct (lost_by (fst b) (snd b) t) eqn:EL; [|discriminate].
    inversion E1; subst t1' out'. rewrite app_nil_r in P1.
    destruct (IH t1 _ t' HH R1 H2) as (R2 & S2 & N2 & RR & P2); auto.
    { unfold int_range in *. rewrite app_length in IR. lia. }
    rewrite app_length. rewrite Nat.add_assoc. split; auto. split; [congruence|]. split; [congruence|].
    split. { unfold run_release in *. cbn [fold_left]. rewrite EI. exact RR. }
    rewrite P2, P1, !app_assoc. apply Permutation_app_tail, Permutation_app_comm.
Qed.

Lemma run_release_reach bs : forall t n,
  (forall x : A, length (hash x) = 256) -> reach t n -> Forall valid_batch bs ->
  int_range (n + length (history_elems bs)) ->
  let t' := run_release hash bs t in
  reach t' (n + length (history_elems bs)) /\ t_stash_size t' = t_stash_size t /\ t_node_size t' = t_node_size t
  /\ t_depth t <= t_depth t'.
Proof.
  induction bs as [|b bs IH]; intros t n HH R V IR.
  - cbn. rewrite Nat.add_0_r. auto.
  - change (history_elems (b :: bs)) with (fst b ++ history_elems bs) in *.
    inversion V; subst. assert (IR1 : int_range (n + length (fst b))).
    { unfold int_range in *. rewrite app_length in IR. lia. }
    destruct (insert hash (fst b) (snd b) t) as [t1 out] eqn:EI.
    destruct (reach_step t n b t1 out HH R H1 IR1 EI) as (_ & R1 & D1 & S1 & N1 & _).
    unfold run_release. cbn [fold_left]. rewrite EI. cbn [fst]. fold (run_release hash bs t1).
    destruct (IH t1 _ HH R1 H2) as (R2 & S2 & N2 & D2).
    { unfold int_range in *. rewrite app_length in IR. lia. }
    rewrite app_length, Nat.add_assoc. split; auto. split; [congruence|]. split; [congruence|].
    destruct (grow_spec (length (fst b)) t) as (G1 & _). lia.
Qed.

(** ** lookups *)
Lemma placed_filter_path (p : A -> bool) (h : list bool) t :
  wf t -> (forall x : A, t_depth t <= length (hash x)) ->
  (forall x, p x = true -> hash x = h) ->
  Permutation (filter p (get_path h t)) (filter p (contents t)).
Proof.
  intros [L C CO P] HL HP.
  destruct (filter p (contents t)) as [|x0 rest] eqn:EF.
  - assert (filter p (get_path h t) = []); [|rewrite H; auto].
    destruct (filter p (get_path h t)) as [|y r] eqn:EG; auto. exfalso.
    assert (In y (filter p (get_path h t))) by (rewrite EG; left; auto).
    apply filter_In in H as [H Hp]. unfold get_path in H. apply in_flat_map in H as (u & _ & Hu).
    assert (In y (filter p (contents t))).
    { apply filter_In. split; auto. apply (stored_In y (t_nodes t)). eauto. }
    rewrite EF in H. inversion H.
  - assert (In x0 (filter p (contents t))) by (rewrite EF; left; auto).
    apply filter_In in H as [_ Hp0]. pose proof (HP _ Hp0) as Hh. rewrite <- EF. clear EF rest.
    subst h. set (leaf := compute_index (t_depth t) (hash x0)).
    assert (Hleaf : 2 ^ t_depth t <= leaf < 2 ^ (t_depth t + 1)) by (apply compute_index_bounds; auto).
    assert (ND := path_up_NoDup _ _ Hleaf).
    destruct (clear_path_spec (path_up leaf) (t_nodes t) ND) as [CN CP].
    { intros u Hu. rewrite L. apply (path_up_lt _ leaf); auto. }
    assert (EP : Permutation (filter p (stored (clear_path (path_up leaf) (t_nodes t)) ++ get_path (hash x0) t)) (filter p (contents t))).
    { apply filter_perm. exact CP. }
    rewrite filter_app in EP.
    replace (filter p (stored (clear_path (path_up leaf) (t_nodes t)))) with (@nil A) in EP; auto.
    symmetry. destruct (filter p (stored (clear_path (path_up leaf) (t_nodes t)))) as [|y r] eqn:EG; auto. exfalso.
    assert (In y (filter p (stored (clear_path (path_up leaf) (t_nodes t))))) by (rewrite EG; left; auto).
    apply filter_In in H as [H Hp]. apply stored_In in H as (v & Hv). rewrite CN in Hv.
    destruct (in_dec Nat.eq_dec v (path_up leaf)) as [|N]; [inversion Hv|].
    apply P in Hv. rewrite (HP y Hp) in Hv. apply N. apply (path_up_In (t_depth t)); auto.
Qed.
End H.
