(** * Proofs for C58: the size of a lookup in a replica. *)
Require Import List Arith Lia ZArith Permutation Bool.
Import ListNotations.
From Verif Require Import Prelude TreeModel TreeSpec TreeIndex TreeProofs TreeHistory TreeDelModel TreeDelProofs Coins Group ElGamalModel BytesModel BytesProofs CipherModel WireModel SyncModel SyncSpec SyncProofs KindProofs ShapeSpec.

(** ** paths *)
Lemma node_of_idx l : node_of l = idx l.
Proof.
  induction l as [|b l IH] using rev_ind; [reflexivity|]. rewrite idx_snoc, <- IH. unfold node_of. rewrite fold_left_app. reflexivity.
Qed.
Lemma path_nodes_perm d h : d <= length h -> Permutation (path_up (compute_index d h)) (path_nodes d h).
Proof.
  intros L. rewrite (path_up_spec d) by (apply compute_index_bounds; auto).
  replace (d + 2) with (S (S d)) by lia. rewrite (seq_S (S d) 0), map_app. cbn [map Nat.add].
  assert (E0 : compute_index d h / 2 ^ S d = 0).
  { apply Nat.div_small. destruct (compute_index_bounds d h L). rewrite Nat.add_1_r in *. auto. }
  rewrite E0. rewrite Permutation_app_comm. cbn [app path_nodes]. unfold path_nodes. apply perm_skip.
  assert (E1 : map (fun k => compute_index d h / 2 ^ k) (seq 0 (S d)) = map (fun k => node_of (firstn (d - k) h)) (seq 0 (S d))).
  { apply map_ext_in. intros k Hk. apply in_seq in Hk. rewrite node_of_idx, <- compute_index_idx.
    replace d with ((d - k) + k) at 1 by lia. apply compute_index_shift. lia. }
  rewrite E1. clear. rewrite <- (map_map (fun k => d - k) (fun l => node_of (firstn l h))). apply Permutation_map.
  replace (map (fun k => d - k) (seq 0 (S d))) with (rev (seq 0 (S d))); [apply Permutation_sym, Permutation_rev|].
  apply nth_ext with (d := 0) (d' := d - 0); [rewrite rev_length, map_length; auto|]. intros k Hk. rewrite rev_length, seq_length in Hk.
  rewrite rev_nth by (rewrite seq_length; auto). rewrite seq_length. rewrite (map_nth (fun k => d - k)).
  rewrite (@seq_nth (S d) 0 (S d - S k) 0), (@seq_nth (S d) 0 k 0) by lia. lia.
Qed.
Lemma list_sum_perm l l' : Permutation l l' -> list_sum l = list_sum l'.
Proof. unfold list_sum. induction 1; cbn [fold_right]; lia. Qed.
Lemma flat_map_sum {X Y} (f : X -> list Y) l : length (flat_map f l) = list_sum (map (fun x => length (f x)) l).
Proof. unfold list_sum. induction l; cbn [flat_map map fold_right]; auto. rewrite app_length, IHl. auto. Qed.
Lemma path_indices_In d hs v : Forall (fun h => d <= length h) hs ->
  (In v (path_indices d hs) <-> In v (flat_map (path_nodes d) hs)).
Proof.
  intros F. unfold path_indices. rewrite Forall_forall in F.
  assert (B : forall h, In h hs -> 2 ^ d <= compute_index d h < 2 ^ (d + 1)).
  { intros h Hh. apply compute_index_bounds. auto. }
  destruct (extract_path_indices_spec d (path_leaves d hs)) as (_ & I0).
  { intros l Hl. unfold path_leaves in Hl. apply in_map_iff in Hl as (h & <- & Hh). auto. }
  rewrite I0, in_flat_map. split.
  - intros (l & Hl & A). unfold path_leaves in Hl. apply in_map_iff in Hl as (h & <- & Hh). exists h. split; auto.
    eapply Permutation_in; [apply path_nodes_perm; auto|]. apply (path_up_In d); auto.
  - intros (h & Hh & A). exists (compute_index d h). split; [apply in_map; auto|].
    apply (path_up_In d); auto. eapply Permutation_in; [apply Permutation_sym, path_nodes_perm; auto|]. auto.
Qed.
Lemma path_nodes_lt d h v : d <= length h -> In v (path_nodes d h) -> v < 2 ^ (d + 1).
Proof.
  intros L Hv. apply (path_up_lt d (compute_index d h)); [apply compute_index_bounds; auto|].
  eapply Permutation_in; [apply Permutation_sym, path_nodes_perm; auto|]. auto.
Qed.

Lemma written_app hs hist : forall c, written c (hist ++ [hs]) =
  written c hist ++ flat_map (path_nodes (Nat.log2 (c + length (concat hist) + length hs))) hs.
Proof.
  induction hist as [|h hist IH]; intros c; cbn [app written concat].
  - rewrite app_nil_r. cbn [length]. rewrite Nat.add_0_r. reflexivity.
  - rewrite IH, <- app_assoc, app_length. rewrite !Nat.add_assoc. reflexivity.
Qed.
Lemma depth_log2 d n : n < 2 ^ (d + 1) -> (d = 0 \/ 2 ^ d <= n) -> d = Nat.log2 n.
Proof.
  intros L [->|G].
  - change (2 ^ (0 + 1)) with 2 in L. destruct n as [|[|n]]; [reflexivity|reflexivity|lia].
  - symmetry. apply Nat.log2_unique; [lia|]. replace (S d) with (d + 1) by lia. split; auto.
Qed.

(** ** the receiver *)
Section Receiver.
Context {Gr : group} {C : Type}.
Variable deser : welem Gr -> outcome C.
Variables s n : nat.
Definition fill (v : nat) : nat := if v =? 0 then s else n.

(** [tr] is a replica that received [hist] *)
Definition viewed (hist : list (list (list bool))) (tr : tree C) : Prop :=
  t_stash_size tr = s /\ t_node_size tr = n /\ t_actual tr = length (concat hist)
  /\ t_depth tr = Nat.log2 (length (concat hist))
  /\ length (t_nodes tr) = 2 ^ (t_depth tr + 1)
  /\ (forall v, In v (written 0 hist) -> v < length (t_nodes tr))
  /\ forall v, length (elems (nth v (t_nodes tr) (node_new 0))) = if existsb (Nat.eqb v) (written 0 hist) then fill v else 0.

Lemma existsb_In v l : existsb (Nat.eqb v) l = true <-> In v l.
Proof.
  rewrite existsb_exists. split.
  - intros (x & Hx & E). apply Nat.eqb_eq in E. subst. auto.
  - intros H. exists v. split; auto. apply Nat.eqb_refl.
Qed.
Lemma viewed_new : viewed [] (tree_new s n).
Proof.
  unfold viewed, tree_new. cbn [t_stash_size t_node_size t_actual t_depth t_nodes concat length written].
  do 4 (split; [reflexivity|]). split; [reflexivity|]. split; [intros v []|].
  intros [|[|[|v]]]; reflexivity.
Qed.

Lemma viewed_step hist tr hs u tr' : viewed hist tr -> hs = map byte2binary (u_hashes u) ->
  Forall (fun h => length h = 256) hs -> Nat.log2 (length (concat hist) + length hs) <= 256 ->
  recv_update deser u tr = Ok tr' ->
  map (@length _) (u_nodes u) = map fill (path_indices (t_depth (grow (length hs) tr)) hs) ->
  viewed (hist ++ [hs]) tr'.
Proof.
  intros (V1 & V2 & V3 & V4 & V5 & V6 & V7) EH HL DB RU SH.
  unfold recv_update in RU. rewrite <- EH in RU. apply obind_Ok in RU as (new & RN & RU).
  unfold replace_nodes in RU.
  destruct (grow_spec (fun _ : C => []) (length hs) tr) as (G1 & G2 & G3 & G4 & G5 & G6 & _ & G7 & _).
  assert (LG : length (t_nodes (grow (length hs) tr)) = 2 ^ (t_depth (grow (length hs) tr) + 1)).
  { destruct (grow_spec (fun _ : C => repeat false (t_depth (grow (length hs) tr))) (length hs) tr) as (_ & _ & _ & _ & _ & _ & _ & _ & _).
    clear - V5. unfold grow. generalize (length hs + t_actual tr) as f. generalize (length hs) as k. intros k f. revert tr V5.
    induction f as [|f IH]; intros tr V5; cbn [grow_loop]; auto. destruct (_ <=? _); auto. apply IH.
    unfold add_new_layer. cbn [t_nodes t_depth]. rewrite app_length, repeat_length, V5.
    replace (2 ^ (t_depth tr + 1 + 1)) with (2 ^ (t_depth tr + 1) + 2 ^ (t_depth tr + 1)) by (rewrite (Nat.add_1_r (t_depth tr + 1)), Nat.pow_succ_r'; lia).
    lia. }
  set (t1 := grow (length hs) tr) in *. set (d := t_depth t1) in *.
  assert (ED : d = Nat.log2 (length (concat hist) + length hs)).
  { apply depth_log2; [rewrite V3 in G2; lia|]. rewrite V3 in G3.
    destruct G3 as [G3|G3]; [|right; lia]. rewrite G3, V4.
    destruct (Nat.eq_dec (length (concat hist)) 0) as [Z0|NZ]; [left; rewrite Z0; reflexivity|right].
    pose proof (Nat.log2_spec (length (concat hist))). lia. }
  destruct (negb _) eqn:FB in RU; [discriminate|]. clear FB.
  assert (HD : Forall (fun h => d <= length h) hs).
  { eapply Forall_impl; [|exact HL]. cbn. intros h ->. rewrite ED. exact DB. }
  assert (LEN : map (fun m => length (elems m)) new = map (@length _) (u_nodes u)).
  { apply omap_Ok_Forall2 in RN. clear - RN. induction RN as [|ws m wss ms X _ IH]; cbn [map]; auto. f_equal; auto.
    unfold deser_node in X. apply obind_Ok in X as (cs & X1 & X2). inversion X2; subst. cbn [elems].
    apply omap_Ok_Forall2, Forall2_length' in X1. auto. }
  rewrite SH in LEN. set (ind := path_indices d hs) in *.
  assert (LN : length new = length ind).
  { apply (f_equal (@length nat)) in LEN. rewrite !map_length in LEN. exact LEN. }
  destruct (_ <? _) eqn:LT in RU; [discriminate|]. clear LT. inversion RU as [RT]. clear RU.
  destruct (path_indices_facts d hs) as (ND & LTI). { rewrite Forall_forall in HD. auto. }
  fold ind in ND, LTI.
  assert (TOT : length (concat (hist ++ [hs])) = length (concat hist) + length hs).
  { rewrite concat_app, app_length. cbn [concat]. rewrite app_nil_r. auto. }
  assert (WA : written 0 (hist ++ [hs]) = written 0 hist ++ flat_map (path_nodes d) hs).
  { rewrite written_app. cbn [Nat.add]. rewrite <- ED. reflexivity. }
  assert (NL : length (fold_left (fun ns p => set_nth (fst p) (snd p) ns) (combine ind new) (t_nodes t1)) = 2 ^ (d + 1)).
  { rewrite fold_set_length. exact LG. }
  unfold viewed. cbn [t_stash_size t_node_size t_actual t_depth t_nodes]. rewrite TOT, WA.
  split; [congruence|]. split; [congruence|]. split; [lia|]. split; [exact ED|]. split; [exact NL|]. rewrite NL. split.
  - intros v Hv. apply in_app_or in Hv as [Hv|Hv].
    + apply V6 in Hv. rewrite V5 in Hv. eapply Nat.lt_le_trans; [exact Hv|]. apply Nat.pow_le_mono_r; lia.
    + apply in_flat_map in Hv as (h & Hh & Hv). rewrite Forall_forall in HD. eapply path_nodes_lt; eauto.
  - intros v. rewrite fold_set_nth; auto; [|rewrite LG; auto].
    destruct (find (fun p => fst p =? v) (combine ind new)) as [[i m]|] eqn:EF.
    + apply find_some in EF as (EF1 & EF2). cbn [fst snd] in *. apply Nat.eqb_eq in EF2. subst i.
      assert (FC : Forall2 (fun i m => length (elems m) = fill i) ind new).
      { clear - LEN. revert new LEN. induction ind as [|i l IH]; intros [|m new] LEN; cbn [map] in LEN; inversion LEN; constructor; auto. }
      apply (Forall2_in_combine _ _ _ _ FC) in EF1 as FV. cbn [fst snd] in FV. rewrite FV.
      assert (IN : In v (flat_map (path_nodes d) hs)).
      { apply path_indices_In; auto. apply in_combine_l in EF1. exact EF1. }
      rewrite existsb_app, (proj2 (existsb_In v (flat_map _ _)) IN), orb_true_r. reflexivity.
    + assert (NI : ~ In v ind).
      { intros Hin. apply In_nth with (d := 0) in Hin as (k & Hk & Ek).
        assert (Hc : In (nth k (combine ind new) (0, node_new 0)) (combine ind new)) by (apply nth_In; rewrite combine_length; lia).
        rewrite combine_nth in Hc by auto. eapply find_none in EF; [|exact Hc]. cbn [fst] in EF. rewrite Ek, Nat.eqb_refl in EF. discriminate. }
      assert (NB : existsb (Nat.eqb v) (flat_map (path_nodes d) hs) = false).
      { apply not_true_is_false. rewrite existsb_In. intros X. apply NI. apply path_indices_In; auto. }
      rewrite existsb_app, NB, orb_false_r. specialize (G7 v). unfold nodeAt in G7. rewrite G7. apply V7.
Qed.

Lemma viewed_lookup hist tr h : viewed hist tr -> Nat.log2 (length (concat hist)) <= length h ->
  length (get_path h tr) = lookup_size s n hist h.
Proof.
  intros (V1 & V2 & V3 & V4 & V5 & V6 & V7) L. unfold get_path, lookup_size. rewrite flat_map_sum, V4.
  rewrite (map_ext _ _ V7). apply list_sum_perm. apply Permutation_map, path_nodes_perm. auto.
Qed.
End Receiver.

(** ** a sender and its replica *)
Section Exchange.
Context {Gr : group} {A C : Type}.
Variable hash : A -> list bool.
Variable ins : list A -> list (list bool) -> tree A -> tree A * list (node A).
Variable mk : Z -> A.
Variable enc : A -> M C.
Variable ser : C -> outcome (welem Gr).
Variable deser : welem Gr -> outcome C.
Variables s n : nat.

Hypothesis like : ins_like hash ins.

Lemma concat_map_length {X Y} (f : X -> Y) (l : list (list X)) : length (concat (map (map f) l)) = length (concat l).
Proof. induction l; cbn; auto. rewrite !app_length, map_length, IHl. auto. Qed.
Lemma exchanged_viewed hist ts tr : exchanged ins mk enc ser deser s n hist ts tr -> int_range (length (concat hist)) ->
  reach hash ts (length (concat hist)) /\ t_stash_size ts = s /\ t_node_size ts = n
  /\ viewed s n (map (map byte2binary) hist) tr /\ pub_eq ts tr.
Proof.
  induction 1 as [|hist ts tr es coins ts' u coins' tr' X IH SU RU]; intros IR.
  - split; [apply reach_new|]. split; auto. split; auto. split; [apply viewed_new|]. unfold pub_eq. auto.
  - rewrite concat_app, app_length in *. cbn [concat] in *. rewrite app_nil_r in *.
    assert (IR0 : int_range (length (concat hist))) by (unfold int_range in *; lia).
    destruct (IH IR0) as (R & S1 & N1 & V & PE).
    unfold send_update in SU. destruct (random_hashes_total (length es) coins) as (hs & c1 & EH). rewrite EH in SU.
    destruct (ins es (map byte2binary hs) ts) as [t1 out] eqn:EI.
    inversion SU as [[E1 E2]]. subst t1. apply bind_Ok in E2 as (ns & c2 & EN & E2). apply ret_Ok in E2 as (EU & _).
    pose proof (hashes_valid es _ _ _ EH) as VB. pose proof (random_hashes_spec _ _ _ _ EH) as (LH & _).
    assert (HU : u_hashes u = hs) by (rewrite EU; reflexivity). rewrite HU, LH in *.
    destruct (like ts _ (es, map byte2binary hs) ts' out R VB IR EI) as (DB & R' & ED & ES & EN' & EO & _). cbn [fst snd] in *.
    assert (SU' : send_update ins mk enc ser es ts coins = (ts', Ok (u, coins'))).
    { unfold send_update. rewrite EH, EI. rewrite SU. auto. }
    destruct (send_update_shape hash ins mk enc ser like es ts (length (concat hist)) coins ts' u coins' R IR SU') as (_ & _ & SH).
    rewrite HU in SH.
    split; [exact R'|]. split; [congruence|]. split; [congruence|].
    assert (DB' : Nat.log2 (length (concat hist) + length hs) <= 256).
    { assert (Q : t_depth ts' = Nat.log2 (length (concat hist) + length es)).
      { apply depth_log2; [apply (r_lt _ _ _ R')|]. apply (r_min _ _ _ R'). }
      rewrite LH, <- Q, ED. lia. }
    split.
    + rewrite map_app. cbn [map]. apply viewed_step with (tr := tr) (u := u) (deser := deser); auto.
      * rewrite HU. auto.
      * apply VB.
      * rewrite concat_map_length, map_length. exact DB'.
      * rewrite SH, map_length, LH. pose proof (pub_eq_grow (length es) _ _ PE) as (_ & _ & -> & _).
        unfold fill. rewrite S1, N1. reflexivity.
    + destruct PE as (P1 & P2 & P3 & P4 & P5).
      assert (V' : viewed s n (map (map byte2binary) hist ++ [map byte2binary hs]) tr').
      { apply viewed_step with (tr := tr) (u := u) (deser := deser); auto.
        * rewrite HU. auto.
        * apply VB.
        * rewrite concat_map_length, map_length. exact DB'.
        * rewrite SH, map_length, LH. assert (PE : pub_eq ts tr) by (unfold pub_eq; auto). pose proof (pub_eq_grow (length es) _ _ PE) as (_ & _ & -> & _).
          unfold fill. rewrite S1, N1. reflexivity. }
      destruct V' as (Q1 & Q2 & Q3 & Q4 & Q5 & _).
      assert (TOT : length (concat (map (map byte2binary) hist ++ [map byte2binary hs])) = length (concat hist) + length es).
      { rewrite concat_app, app_length, concat_map_length. cbn [concat]. rewrite app_nil_r, map_length, LH. auto. }
      rewrite TOT in *.
      assert (Q : t_depth ts' = Nat.log2 (length (concat hist) + length es)).
      { apply depth_log2; [apply (r_lt _ _ _ R')|]. apply (r_min _ _ _ R'). }
      unfold pub_eq. rewrite Q1, Q2, Q3, Q5, Q4, <- Q, (r_actual _ _ _ R'). 
      split; [congruence|]. split; [congruence|]. split; auto. split; auto.
      symmetry. apply (wf_len hash). apply (r_wf _ _ _ R').
Qed.
Lemma exchanged_lookup hist ts tr h : exchanged ins mk enc ser deser s n hist ts tr -> int_range (length (concat hist)) -> length h = 256 ->
  length (get_path h tr) = lookup_size s n (map (map byte2binary) hist) h.
Proof.
  intros X IR HL. destruct (exchanged_viewed hist ts tr X IR) as (R & S1 & N1 & V & PE).
  apply viewed_lookup; auto. rewrite concat_map_length, HL.
  assert (B : Nat.log2 (length (concat hist)) < 30); [|lia].
  destruct (Nat.eq_dec (length (concat hist)) 0) as [->|NZ]; [cbn; lia|].
  apply Nat.log2_lt_pow2; [lia|]. unfold int_range in IR. apply Nat2Z.inj_lt. rewrite Nat2Z.inj_pow. exact IR.
Qed.
End Exchange.
