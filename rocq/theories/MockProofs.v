(** * Proofs for C61. *)
Require Import List Arith Lia ZArith Permutation Bool.
Import ListNotations.
From Verif Require Import Prelude TreeModel TreeSpec TreeIndex TreeProofs TreeHistory TreeDelModel TreeDelProofs Coins Group ElGamalModel BytesModel BytesProofs CipherModel WireModel SyncModel SyncSpec SyncProofs KindProofs ShapeSpec ShapeProofs MockModel MockSpec.
From Verif Require DataProofs.

Section Receiver.
Context {Gr : group} {C : Type}.
Variable deser : welem Gr -> outcome C.
Variables s n N : nat.
Notation fill := (fill s n).
Definition full_node (hist : list (list (list bool))) (v : nat) : bool := (v <? 2 ^ (Nat.log2 N + 1)) || existsb (Nat.eqb v) (written N hist).
Definition mviewed (hist : list (list (list bool))) (tr : tree C) : Prop :=
  t_stash_size tr = s /\ t_node_size tr = n /\ t_actual tr = N + length (concat hist)
  /\ t_depth tr = Nat.log2 (N + length (concat hist))
  /\ length (t_nodes tr) = 2 ^ (t_depth tr + 1)
  /\ (forall v, In v (written N hist) -> v < length (t_nodes tr))
  /\ forall v, length (elems (nth v (t_nodes tr) (node_new 0))) = if full_node hist v then fill v else 0.

Lemma mviewed_step hist tr hs u tr' : mviewed hist tr -> hs = map byte2binary (u_hashes u) ->
  Forall (fun h => length h = 256) hs -> Nat.log2 (N + length (concat hist) + length hs) <= 256 ->
  recv_update deser u tr = Ok tr' ->
  map (@length _) (u_nodes u) = map fill (path_indices (t_depth (grow (length hs) tr)) hs) ->
  mviewed (hist ++ [hs]) tr'.
Proof.
  intros (V1 & V2 & V3 & V4 & V5 & V6 & V7) EH HL DB RU SH.
  unfold recv_update in RU. rewrite <- EH in RU. apply obind_Ok in RU as (new & RN & RU).
  unfold replace_nodes in RU.
  destruct (grow_spec (fun _ : C => []) (length hs) tr) as (G1 & G2 & G3 & G4 & G5 & G6 & _ & G7 & _).
  assert (LG : length (t_nodes (grow (length hs) tr)) = 2 ^ (t_depth (grow (length hs) tr) + 1)).
  { clear - V5. unfold grow. generalize (length hs + t_actual tr) as f. generalize (length hs) as k. intros k f. revert tr V5.
    induction f as [|f IH]; intros tr V5; cbn [grow_loop]; auto. destruct (_ <=? _); auto. apply IH.
    unfold add_new_layer. cbn [t_nodes t_depth]. rewrite app_length, repeat_length, V5.
    replace (2 ^ (t_depth tr + 1 + 1)) with (2 ^ (t_depth tr + 1) + 2 ^ (t_depth tr + 1)) by (rewrite (Nat.add_1_r (t_depth tr + 1)), Nat.pow_succ_r'; lia).
    lia. }
  set (t1 := grow (length hs) tr) in *. set (d := t_depth t1) in *.
  assert (ED : d = Nat.log2 (N + length (concat hist) + length hs)).
  { apply depth_log2; [rewrite V3 in G2; lia|]. rewrite V3 in G3.
    destruct G3 as [G3|G3]; [|right; lia]. rewrite G3, V4.
    destruct (Nat.eq_dec (N + length (concat hist)) 0) as [Z0|NZ]; [left; rewrite Z0; reflexivity|right].
    pose proof (Nat.log2_spec (N + length (concat hist))). lia. }
  destruct (negb _) eqn:FB in RU; [discriminate|]. clear FB.
  assert (HD : Forall (fun h => d <= length h) hs).
  { eapply Forall_impl; [|exact HL]. cbn. intros h ->. rewrite ED. exact DB. }
  assert (LEN : map (fun m => length (elems m)) new = map (@length _) (u_nodes u)).
  { apply omap_Ok_Forall2 in RN. clear - RN. induction RN as [|ws m wss ms X _ IH]; cbn [map]; auto. f_equal; auto.
    unfold deser_node in X. apply obind_Ok in X as (cs & X1 & X2). inversion X2; subst. cbn [elems].
    apply omap_Ok_Forall2, Forall2_length' in X1. auto. }
  rewrite SH in LEN. set (ind := path_indices d hs) in *.
  assert (LN : length new = length ind).
  { apply (f_equal (@length nat)) in LEN. rewrite !map_length in LEN. exact LEN. }
  destruct (_ <? _) eqn:LT in RU; [discriminate|]. clear LT. inversion RU as [RT]. clear RU.
  destruct (path_indices_facts d hs) as (ND & LTI). { rewrite Forall_forall in HD. auto. }
  fold ind in ND, LTI.
  assert (TOT : length (concat (hist ++ [hs])) = length (concat hist) + length hs).
  { rewrite concat_app, app_length. cbn [concat]. rewrite app_nil_r. auto. }
  assert (WA : written N (hist ++ [hs]) = written N hist ++ flat_map (path_nodes d) hs).
  { rewrite written_app. rewrite <- ED. reflexivity. }
  assert (NL : length (fold_left (fun ns p => set_nth (fst p) (snd p) ns) (combine ind new) (t_nodes t1)) = 2 ^ (d + 1)).
  { rewrite fold_set_length. exact LG. }
  unfold mviewed, full_node. cbn [t_stash_size t_node_size t_actual t_depth t_nodes]. rewrite TOT, WA.
  split; [congruence|]. split; [congruence|]. split; [lia|]. split; [rewrite Nat.add_assoc; exact ED|]. split; [exact NL|]. rewrite NL. split.
  - intros v Hv. apply in_app_or in Hv as [Hv|Hv].
    + apply V6 in Hv. rewrite V5 in Hv. eapply Nat.lt_le_trans; [exact Hv|]. apply Nat.pow_le_mono_r; lia.
    + apply in_flat_map in Hv as (h & Hh & Hv). rewrite Forall_forall in HD. eapply path_nodes_lt; eauto.
  - intros v. rewrite fold_set_nth; auto; [|rewrite LG; auto].
    destruct (find (fun p => fst p =? v) (combine ind new)) as [[i m]|] eqn:EF.
    + apply find_some in EF as (EF1 & EF2). cbn [fst snd] in *. apply Nat.eqb_eq in EF2. subst i.
      assert (FC : Forall2 (fun i m => length (elems m) = fill i) ind new).
      { clear - LEN. revert new LEN. induction ind as [|i l IH]; intros [|m new] LEN; cbn [map] in LEN; inversion LEN; constructor; auto. }
      apply (Forall2_in_combine _ _ _ _ FC) in EF1 as FV. cbn [fst snd] in FV. rewrite FV.
      assert (IN : In v (flat_map (path_nodes d) hs)).
      { apply path_indices_In; auto. apply in_combine_l in EF1. exact EF1. }
      rewrite existsb_app, (proj2 (existsb_In v (flat_map _ _)) IN), !orb_true_r. reflexivity.
    + assert (NI : ~ In v ind).
      { intros Hin. apply In_nth with (d := 0) in Hin as (k & Hk & Ek).
        assert (Hc : In (nth k (combine ind new) (0, node_new 0)) (combine ind new)) by (apply nth_In; rewrite combine_length; lia).
        rewrite combine_nth in Hc by auto. eapply find_none in EF; [|exact Hc]. cbn [fst] in EF. rewrite Ek, Nat.eqb_refl in EF. discriminate. }
      assert (NB : existsb (Nat.eqb v) (flat_map (path_nodes d) hs) = false).
      { apply not_true_is_false. rewrite existsb_In. intros X. apply NI. apply path_indices_In; auto. }
      rewrite existsb_app, NB, orb_false_r. specialize (G7 v). unfold nodeAt in G7. rewrite G7. apply V7.
Qed.
Lemma mviewed_lookup hist tr h : mviewed hist tr -> Nat.log2 (N + length (concat hist)) <= length h ->
  length (get_path h tr) = mock_lookup s n N hist h.
Proof.
  intros (V1 & V2 & V3 & V4 & V5 & V6 & V7) L. unfold get_path, mock_lookup. rewrite flat_map_sum, V4.
  rewrite (map_ext _ _ V7). apply list_sum_perm. apply Permutation_map, path_nodes_perm. auto.
Qed.
End Receiver.

(** ** the trees made by CreateMockTrees *)
Lemma int_range_log2 k : int_range k -> Nat.log2 k < 30.
Proof.
  intros IR. destruct (Nat.eq_dec k 0) as [->|NZ]; [cbn; lia|].
  apply Nat.log2_lt_pow2; [lia|]. unfold int_range in IR. apply Nat2Z.inj_lt. rewrite Nat2Z.inj_pow. exact IR.
Qed.
Section Start.
Context {A C : Type}.
Variable hash : A -> list bool.
Variable el : Z -> A.
Variable zero : M C.
Hypothesis hash_len : forall x, length (hash x) = 256.
Lemma mock_start size my other s n coins coins' : int_range size ->
  create_mock_trees hash el zero size (tree_new s n, tree_new s n) coins = ((my, other), Ok (tt, coins')) ->
  exists es hs z c c1, length es = size /\ Forall (fun e => exists x, e = el x /\ (0 <= x < 10 ^ 15)%Z) es /\ valid_batch (es, hs)
   /\ my = fst (insert hash es hs (tree_new s n)) /\ zero c = Ok (z, c1)
   /\ reach hash my size /\ t_stash_size my = s /\ t_node_size my = n /\ t_depth my = Nat.log2 size /\ pub_eq my other
   /\ Permutation (contents my ++ lost_by hash es hs (tree_new s n)) es
   /\ other = mock_other z my (tree_new s n)
   /\ forall v, v < length (t_nodes my) -> nth v (t_nodes other) (node_new 0) = mkNode (repeat z (fill s n v)) (fill s n v).
Proof.
  intros IR H. unfold create_mock_trees in H.
  destruct (repeatM size (mock_element el) coins) as [[es t1]| | |] eqn:E1; try discriminate.
  destruct (random_hashes size t1) as [[hs t2]| | |] eqn:E2; try discriminate.
  destruct (zero t2) as [[z t3]| | |] eqn:E3; try discriminate.
  destruct (insert hash es (map byte2binary hs) (tree_new s n)) as [t' out] eqn:EI. cbn [fst] in H. inversion H; subst t3. clear H.
  assert (FE : Forall (fun e => exists x, e = el x /\ (0 <= x < 10 ^ 15)%Z) es /\ length es = size).
  { clear - E1. revert coins es t1 E1. induction size as [|k IH]; intros coins es t1 E1; cbn [repeatM] in E1.
    - apply ret_Ok in E1 as (-> & _). auto.
    - apply bind_Ok in E1 as (a & c1 & Ha & E1). apply bind_Ok in E1 as (l & c2 & Hl & E1). apply ret_Ok in E1 as (-> & _).
      apply IH in Hl as (F & <-). split; [|reflexivity]. constructor; auto.
      unfold mock_element in Ha. apply bind_Ok in Ha as (b & c3 & Hb & Ha). apply ret_Ok in Ha as (-> & _).
      apply DataProofs.random_set_element_spec in Hb as (_ & Hb). eauto. }
  destruct FE as (FE & LE).
  assert (VB : valid_batch (es, map byte2binary hs)). { rewrite <- LE in E2. eapply hashes_valid; eauto. }
  assert (R0 : int_range (0 + length (fst (es, map byte2binary hs)))) by (cbn [fst]; rewrite LE; exact IR).
  destruct (reach_step hash (tree_new s n) 0 (es, map byte2binary hs) t' out hash_len (reach_new hash s n) VB R0 EI) as (DB & R' & ED & ES & EN & PM & _). cbn [fst snd] in *.
  subst my other. rewrite LE in *. cbn [Nat.add] in R'.
  assert (Q : t_depth t' = Nat.log2 size). { apply depth_log2; [apply (r_lt _ _ _ R')|apply (r_min _ _ _ R')]. }
  exists es, (map byte2binary hs), z, t2, coins'. rewrite EI. cbn [fst].
  repeat (split; [first [assumption|reflexivity]|]).
  split; [unfold pub_eq, mock_other; cbn [t_stash_size t_node_size t_depth t_actual t_nodes tree_new]; rewrite map_length; auto|].
  split. { cbn [contents tree_new t_nodes flat_map elems node_new app] in PM. rewrite app_nil_r in PM. exact PM. }
  split; [reflexivity|]. intros v Hv. cbn [mock_other t_nodes].
  rewrite (nth_indep _ _ (mock_node z (@node_new A 0))) by (rewrite map_length; auto). rewrite map_nth. unfold mock_node.
  pose proof (wf_cap _ _ (r_wf _ _ _ R') v Hv) as CP. unfold nodeAt in CP. rewrite CP. unfold cap_at, fill. rewrite ES, EN. cbn [tree_new t_stash_size t_node_size]. reflexivity.
Qed.
Lemma mock_mviewed size my other s n coins coins' : int_range size ->
  create_mock_trees hash el zero size (tree_new s n, tree_new s n) coins = ((my, other), Ok (tt, coins')) -> mviewed s n size [] other.
Proof.
  intros IR H. destruct (mock_start _ _ _ _ _ _ _ IR H) as (es & hs & z & c & c1 & _ & _ & _ & _ & _ & R & S1 & N1 & D1 & (P1 & P2 & P3 & P4 & P5) & _ & _ & NV).
  pose proof (wf_len _ _ (r_wf _ _ _ R)) as WL.
  unfold mviewed, full_node. cbn [concat length written existsb]. rewrite Nat.add_0_r. rewrite P1, P2, P3, P4, P5, WL, D1, (r_actual _ _ _ R).
  do 5 (split; auto). split; [intros v []|]. intros v. rewrite orb_false_r. destruct (Nat.ltb_spec v (2 ^ (Nat.log2 size + 1))).
  - rewrite NV by (rewrite WL, D1; auto). cbn [elems]. apply repeat_length.
  - rewrite nth_overflow by (rewrite P5, WL, D1; auto). reflexivity.
Qed.
End Start.

Section Exchange.
Context {Gr : group} {A C : Type}.
Variable hash : A -> list bool.
Variable ins : list A -> list (list bool) -> tree A -> tree A * list (node A).
Variable mk : Z -> A.
Variable enc : A -> M C.
Variable ser : C -> outcome (welem Gr).
Variable deser : welem Gr -> outcome C.
Variables s n N : nat.
Hypothesis like : ins_like hash ins.
Variables (ts0 : tree A) (tr0 : tree C).
Hypothesis start_reach : reach hash ts0 N.
Hypothesis start_s : t_stash_size ts0 = s.
Hypothesis start_n : t_node_size ts0 = n.
Hypothesis start_view : mviewed s n N [] tr0.
Hypothesis start_pub : pub_eq ts0 tr0.
Notation exchanged_from := (exchanged_from ins mk enc ser deser ts0 tr0).
Lemma from_viewed hist ts tr : exchanged_from hist ts tr -> int_range (N + length (concat hist)) ->
  reach hash ts (N + length (concat hist)) /\ t_stash_size ts = s /\ t_node_size ts = n
  /\ mviewed s n N (map (map byte2binary) hist) tr /\ pub_eq ts tr.
Proof.
  induction 1 as [|hist ts tr es coins ts' u coins' tr' X IH SU RU]; intros IR.
  - cbn [concat length map]. rewrite Nat.add_0_r. auto.
  - rewrite concat_app, app_length in *. cbn [concat] in *. rewrite app_nil_r, Nat.add_assoc in *.
    assert (IR0 : int_range (N + length (concat hist))) by (unfold int_range in *; lia).
    destruct (IH IR0) as (R & S1 & N1 & V & PE).
    pose proof SU as SU'.
    unfold send_update in SU. destruct (random_hashes_total (length es) coins) as (hs & c1 & EH). rewrite EH in SU.
    destruct (ins es (map byte2binary hs) ts) as [t1 out] eqn:EI.
    inversion SU as [[E1 E2]]. subst t1. apply bind_Ok in E2 as (ns & c2 & EN & E2). apply ret_Ok in E2 as (EU & _).
    pose proof (hashes_valid es _ _ _ EH) as VB. pose proof (random_hashes_spec _ _ _ _ EH) as (LH & _).
    assert (HU : u_hashes u = hs) by (rewrite EU; reflexivity). rewrite HU, LH in *.
    destruct (like ts _ (es, map byte2binary hs) ts' out R VB IR EI) as (DB & R' & ED & ES & EN' & EO & _). cbn [fst snd] in *.
    destruct (send_update_shape hash ins mk enc ser like es ts (N + length (concat hist)) coins ts' u coins' R IR SU') as (_ & _ & SH).
    rewrite HU in SH.
    assert (Q : t_depth ts' = Nat.log2 (N + length (concat hist) + length es)).
    { apply depth_log2; [apply (r_lt _ _ _ R')|]. apply (r_min _ _ _ R'). }
    assert (V' : mviewed s n N (map (map byte2binary) hist ++ [map byte2binary hs]) tr').
    { apply mviewed_step with (tr := tr) (u := u) (deser := deser); auto.
      * rewrite HU. auto.
      * apply VB.
      * rewrite concat_map_length, map_length, LH, <- Q, ED. lia.
      * rewrite SH, map_length, LH. pose proof (pub_eq_grow (length es) _ _ PE) as (_ & _ & -> & _).
        unfold fill. rewrite S1, N1. reflexivity. }
    split; [exact R'|]. split; [congruence|]. split; [congruence|]. split; [rewrite map_app; exact V'|].
    destruct V' as (Q1 & Q2 & Q3 & Q4 & Q5 & _).
    assert (TOT : N + length (concat (map (map byte2binary) hist ++ [map byte2binary hs])) = N + length (concat hist) + length es).
    { rewrite concat_app, app_length, concat_map_length. cbn [concat]. rewrite app_nil_r, map_length, LH. lia. }
    rewrite TOT in *. unfold pub_eq. rewrite Q1, Q2, Q3, Q5, Q4, <- Q, (r_actual _ _ _ R').
    split; [congruence|]. split; [congruence|]. split; auto. split; auto.
    symmetry. apply (wf_len hash). apply (r_wf _ _ _ R').
Qed.
End Exchange.

Section Next.
Context {Gr : group} {A C : Type}.
Variable hash : A -> list bool.
Variable ins : list A -> list (list bool) -> tree A -> tree A * list (node A).
Variable mk : Z -> A.
Variable enc : A -> M C.
Variable ser : C -> outcome (welem Gr).
Variable deser : welem Gr -> outcome C.
Hypothesis like : ins_like hash ins.
(** the next update is applied if its entries can be deserialized *)
Lemma next_applied ts tr k es coins ts' u coins' ns : reach hash ts k -> pub_eq ts tr -> int_range (k + length es) ->
  send_update ins mk enc ser es ts coins = (ts', Ok (u, coins')) -> omap (deser_node deser) (u_nodes u) = Ok ns ->
  exists tr', recv_update deser u tr = Ok tr'.
Proof.
  intros R PE IR SU DS.
  destruct (send_update_shape hash ins mk enc ser like es ts k coins ts' u coins' R IR SU) as (LH & HF & SH).
  unfold recv_update. rewrite DS. cbn [obind]. unfold replace_nodes. rewrite map_length, LH.
  pose proof (pub_eq_grow (length es) _ _ PE) as (_ & _ & GD & _). rewrite GD.
  assert (DB : t_depth (grow (length es) ts) < 30).
  { unfold send_update in SU. destruct (random_hashes_total (length es) coins) as (hs & c1 & EH). rewrite EH in SU.
    pose proof (hashes_valid es _ _ _ EH) as VB. destruct (ins es (map byte2binary hs) ts) as [t1 out] eqn:EI.
    destruct (like ts _ (es, map byte2binary hs) t1 out R VB IR EI) as (DB & _). exact DB. }
  assert (FB : forallb (fun h => t_depth (grow (length es) ts) <=? length h) (map byte2binary (u_hashes u)) = true).
  { apply forallb_forall. intros h Hh. apply in_map_iff in Hh as (b & <- & Hb). rewrite Forall_forall in HF. apply HF in Hb as (Hb & _).
    rewrite byte2binary_length, Hb. apply Nat.leb_le. lia. }
  rewrite FB. cbn [negb]. apply omap_length in DS. apply (f_equal (@length nat)) in SH. rewrite !map_length in SH. rewrite DS, SH.
  rewrite Nat.ltb_irrefl. eauto.
Qed.
(** ... and not if the replica is not as deep *)
Lemma next_crashes ts (tr : tree C) k e coins ts' u coins' ns : reach hash ts k -> int_range (k + 1) ->
  t_depth (grow 1 tr) < t_depth (grow 1 ts) ->
  send_update ins mk enc ser [e] ts coins = (ts', Ok (u, coins')) -> omap (deser_node deser) (u_nodes u) = Ok ns ->
  recv_update deser u tr = UB.
Proof.
  intros R IR LT SU DS.
  destruct (send_update_shape hash ins mk enc ser like [e] ts k coins ts' u coins' R IR SU) as (LH & HF & SH).
  unfold recv_update. rewrite DS. cbn [obind]. unfold replace_nodes. rewrite map_length, LH. cbn [length] in *.
  destruct (negb _) eqn:FB; [reflexivity|]. apply negb_false_iff in FB. rewrite forallb_forall in FB.
  assert (DB : t_depth (grow 1 ts) < 30).
  { unfold send_update in SU. destruct (random_hashes_total (length [e]) coins) as (hs & c1 & EH). rewrite EH in SU.
    pose proof (hashes_valid [e] _ _ _ EH) as VB. destruct (ins [e] (map byte2binary hs) ts) as [t1 out] eqn:EI.
    destruct (like ts _ ([e], map byte2binary hs) t1 out R VB IR EI) as (DB & _). exact DB. }
  destruct (u_hashes u) as [|b [|b' l]]; try discriminate LH. cbn [map] in *.
  assert (HB : length (byte2binary b) = 256). { inversion HF as [|? ? (Hb & _)]; subst. rewrite byte2binary_length, Hb. reflexivity. }
  assert (PL : forall d, d <= 256 -> length (path_indices d [byte2binary b]) = d + 2).
  { intros d Hd. rewrite <- (path_up_length d (compute_index d (byte2binary b))) by (apply compute_index_bounds; lia).
    apply Permutation_length, NoDup_Permutation.
    - apply path_indices_facts. intros h [<-|[]]. lia.
    - apply (path_up_NoDup d). apply compute_index_bounds. lia.
    - intros v. rewrite path_indices_In by (constructor; [lia|constructor]). cbn [flat_map]. rewrite app_nil_r.
      split; apply Permutation_in; [apply Permutation_sym|]; apply path_nodes_perm; lia. }
  apply omap_length in DS. apply (f_equal (@length nat)) in SH. rewrite !map_length in SH. rewrite !PL in * by lia.
  rewrite DS, SH. replace (t_depth (grow 1 tr) + 2 <? t_depth (grow 1 ts) + 2) with true by (symmetry; apply Nat.ltb_lt; lia). reflexivity.
Qed.
End Next.
