(** * C61: benchmark runs that start with mock trees. *)
Require Import List Arith Lia ZArith Permutation Bool Znumtheory.
Import ListNotations.
From Verif Require Import Prelude TreeModel TreeSpec TreeIndex TreeProofs TreeHistory TreeDelModel Coins Group ElGamalModel ElGamalProofs BytesModel CipherModel PaillierModel PaillierProofs PaillierS PropsPaillier WireModel WireProofs SyncModel SyncProofs KindProofs ShapeSpec ShapeProofs MockModel MockSpec MockProofs AddModel PropsSync PropsAdd.
Local Open Scope nat_scope.

(** ** Specification *)
(** what CreateMockTrees makes: [size] random set elements in the own tree (the
    stash may have overflowed), and a replica of the same shape with every node
    full of copies of one entry *)
Definition mock_pair {A C} (hash : A -> list bool) (el : Z -> A) (z : C) (s n size : nat) (my : tree A) (other : tree C) : Prop :=
  (exists es hs, length es = size /\ Forall (fun e => exists x, e = el x /\ (0 <= x < 10 ^ 15)%Z) es /\ valid_batch (es, hs)
     /\ my = run_release hash [(es, hs)] (tree_new s n)
     /\ (forall e, In e (contents my) -> In e es)
     /\ (forall t, run_debug hash [(es, hs)] (tree_new s n) = Ok t -> Permutation (contents my) es))
  /\ t_stash_size my = s /\ t_node_size my = n /\ t_actual my = size /\ t_depth my = Nat.log2 size /\ length (t_nodes my) = 2 ^ (Nat.log2 size + 1)
  /\ same_shape my other
  /\ forall v, v < 2 ^ (Nat.log2 size + 1) -> elems (nth v (t_nodes other) (node_new 0)) = repeat z (if v =? 0 then s else n).
(** After any updates of the sender, its replica has the same depth, element
    count and number of nodes, finds [mock_lookup] entries, and applies the next
    update unless an entry of it cannot be deserialized. *)
Section Step.
Context {Gr : group} {A C : Type}.
Variable ins : list A -> list (list bool) -> tree A -> tree A * list (node A).
Variable mk : Z -> A.
Variable enc : A -> M C.
Variable ser : C -> outcome (welem Gr).
Variable deser : welem Gr -> outcome C.
Definition in_step (s n size : nat) (my : tree A) (other : tree C) : Prop :=
  forall hist ts tr, exchanged_from ins mk enc ser deser my other hist ts tr -> int_range (size + length (concat hist)) ->
    same_shape ts tr /\ t_depth tr = Nat.log2 (size + length (concat hist))
    /\ (forall h, length h = 256 -> length (get_path h tr) = mock_lookup s n size (bits hist) h)
    /\ (forall es coins ts' u coins' ns, int_range (size + length (concat hist) + length es) ->
          send_update ins mk enc ser es ts coins = (ts', Ok (u, coins')) -> omap (deser_node deser) (u_nodes u) = Ok ns ->
          exists tr', recv_update deser u tr = Ok tr').
End Step.

(** ** the trees *)
Lemma mock_pair_of {A C} hash (el : Z -> A) (zero : M C) size s n coins my other coins' : (forall x, length (hash x) = 256) -> int_range size ->
  create_mock_trees hash el zero size (tree_new s n, tree_new s n) coins = ((my, other), Ok (tt, coins')) ->
  exists z c c', zero c = Ok (z, c') /\ mock_pair hash el z s n size my other.
Proof.
  intros HL IR H. destruct (mock_start hash el zero HL _ _ _ _ _ _ _ IR H) as (es & hs & z & c & c1 & LE & FE & VB & EM & EZ & R & S1 & N1 & D1 & PE & PM & _ & NV).
  exists z, c, c1. split; auto. pose proof (wf_len _ _ (r_wf _ _ _ R)) as WL. rewrite D1 in WL. split; [|repeat (split; [first [assumption|apply (r_actual _ _ _ R)]|])].
  - exists es, hs. split; auto. split; auto. split; auto. split; [exact EM|]. split.
    + intros e He. eapply Permutation_in; [exact PM|]. apply in_or_app. auto.
    + intros t RD. cbn [run_debug fst snd] in RD. apply obind_Ok in RD as ([t1 o1] & RD & _).
      destruct (insert hash es hs (tree_new s n)) as [t' out] eqn:EI.
      assert (R0 : int_range (0 + length (fst (es, hs)))) by (cbn [fst]; rewrite LE; exact IR).
      destruct (reach_step hash (tree_new s n) 0 (es, hs) t' out HL (reach_new hash s n) VB R0 EI) as (_ & _ & _ & _ & _ & _ & _ & _ & DBG). cbn [fst snd] in DBG.
      rewrite DBG in RD. destruct (lost_by hash es hs (tree_new s n)); [|discriminate]. rewrite app_nil_r in PM. exact PM.
  - intros v Hv. rewrite NV by (rewrite WL; auto). reflexivity.
Qed.
Lemma mock_total {A C} hash (el : Z -> A) (zero : M C) size st coins : (forall t, exists z t', zero t = Ok (z, t')) ->
  exists my other coins', create_mock_trees hash el zero size st coins = ((my, other), Ok (tt, coins')).
Proof.
  intros ZT. destruct st as [m o]. unfold create_mock_trees.
  destruct (repeatM_total (mock_element el) size) with (t := coins) as (es & t1 & ->).
  { intros t. unfold mock_element, bind. destruct (DataProofs.random_set_element_total t) as (x & t' & ->). unfold ret. eauto. }
  destruct (random_hashes_total size t1) as (hs & t2 & ->). destruct (ZT t2) as (z & t3 & ->). eauto.
Qed.
(** Deletion and deletion-psi: always succeeds; every entry of the replica is a
    pair of encryptions of zero under the peer's key. *)
Theorem C61_deletion_trees :
  forall (hash : Z -> list bool) p q P V size s n coins, (forall x, length (hash x) = 256) -> int_range size ->
    paillier_objects 1 p q P V ->
    exists my other coins' z, del_mock hash (pub_encrypt P) size (tree_new s n, tree_new s n) coins = ((my, other), Ok (tt, coins'))
      /\ priv_decrypt V z = Ok 0%Z
      /\ mock_pair (hash_entry hash) (fun x => (x, 1%Z)) (z, z) s n size my other.
Proof.
  intros hash p q P V size s n coins HL IR PO.
  assert (N1 : (1 < (p * q) ^ Z.of_nat 1)%Z).
  { destruct PO as (_ & (fl & HV)). apply priv_new_s in HV as (Pp & Pq & _). destruct Pp, Pq. change (Z.of_nat 1) with 1%Z. rewrite Z.pow_1_r. nia. }
  destruct (mock_total (hash_entry hash) (fun x => (x, 1%Z)) (z <- pub_encrypt P 0%Z ;; ret (z, z)) size (tree_new s n, tree_new s n) coins) as (my & other & coins' & H).
  { intros t. destruct (C32_paillier_ranges 1 p q P V PO) as (X & _). destruct (proj2 (X 0%Z t) ltac:(lia)) as (c & t' & E). unfold bind. rewrite E. unfold ret. eauto. }
  destruct (mock_pair_of _ _ _ _ _ _ _ _ _ _ (fun e : Z * Z => HL (fst e)) IR H) as (z & c & c' & EZ & MP).
  apply bind_Ok in EZ as (z0 & c1 & EE & EZ). apply ret_Ok in EZ as (-> & _).
  exists my, other, coins', z0. split; [exact H|]. split; auto.
  rewrite (C32_paillier_decrypts 1 p q P V PO 0%Z z0); [|eapply made_public; eauto]. reflexivity.
Qed.
(** Secret sharing, party zero: an ElGamal encryption of zero under the joint key *)
Theorem C61_shares_zero_trees :
  forall (Gr : group) (hash : Z -> list bool) sk size s n coins, (forall x, length (hash x) = 256) -> int_range size ->
    exists my other coins' z, ss_mock_zero hash (key_of sk) size (tree_new s n, tree_new s n) coins = ((my, other), Ok (tt, coins'))
      /\ decrypt sk z = gpow (@gen Gr) 0
      /\ mock_pair (hash_entry hash) (fun x => (x, 1%Z)) z s n size my other.
Proof.
  intros Gr hash sk size s n coins HL IR.
  destruct (mock_total (hash_entry hash) (fun x => (x, 1%Z)) (c <- encrypt (key_of (Gr := Gr) sk) 0%Z ;; ret (ct_clone c)) size (tree_new s n, tree_new s n) coins) as (my & other & coins' & H).
  { intros t. destruct (encrypt_total (key_of (Gr := Gr) sk) 0 t) as (c & t' & E). unfold bind. rewrite E. unfold ret. eauto. }
  destruct (mock_pair_of _ _ _ _ _ _ _ _ _ _ (fun e : Z * Z => HL (fst e)) IR H) as (z & c & c' & EZ & MP).
  apply bind_Ok in EZ as (z0 & c1 & EE & EZ). apply ret_Ok in EZ as (-> & _).
  exists my, other, coins', (ct_clone z0). split; [exact H|]. split; auto. rewrite decrypt_clone. eapply encrypt_Ok; eauto.
Qed.
(** ... party one: with a threshold Paillier encryption of zero beside it *)
Theorem C61_shares_one_trees :
  forall (Gr : group) (hash : Z -> list bool) sk p q bits t0 N psk1 psk2 t0' P size s n coins, (forall x, length (hash x) = 256) -> int_range size ->
    prime p -> prime q -> p <> q -> threshold_keygen p q bits t0 = Ok ((N, psk1, psk2), t0') -> thr_object N P ->
    exists my other coins' z b, ss_mock_one hash (key_of sk) (pub_encrypt P) size (tree_new s n, tree_new s n) coins = ((my, other), Ok (tt, coins'))
      /\ decrypt sk z = gpow (@gen Gr) 0
      /\ (exists a, thr_partial N psk1 b = Ok a /\ thr_decrypt N psk2 b a = Ok 0%Z)
      /\ mock_pair hash (fun x => x) (z, b) s n size my other.
Proof.
  intros Gr hash sk p q bits t0 N psk1 psk2 t0' P size s n coins HL IR Pp Pq NE K TO.
  destruct (C33_threshold_decrypts p q bits t0 N psk1 psk2 t0' Pp Pq NE K) as (EN & TD).
  assert (N1 : (1 < N)%Z) by (destruct Pp, Pq; nia).
  assert (ET : forall t, exists c t', pub_encrypt P 0 t = Ok (c, t')).
  { intros t. destruct (thr_object_facts _ _ N1 TO) as (En & Es & Ep & Em & Ec & Ef).
    destruct (pub_encrypt_spec _ N N1 En Es Ep Em Ec Ef 0 t) as (_ & B2). destruct B2 as (c & t' & E1 & _); [lia|]. eauto. }
  destruct (mock_total hash (fun x => x) (c <- encrypt (key_of (Gr := Gr) sk) 0%Z ;; b <- pub_encrypt P 0%Z ;; ret (ct_clone c, b)) size (tree_new s n, tree_new s n) coins) as (my & other & coins' & H).
  { intros t. destruct (encrypt_total (key_of (Gr := Gr) sk) 0 t) as (c & t' & E). destruct (ET t') as (b & t2 & E2). unfold bind. rewrite E, E2. unfold ret. eauto. }
  destruct (mock_pair_of _ _ _ _ _ _ _ _ _ _ HL IR H) as (z & c & c' & EZ & MP).
  apply bind_Ok in EZ as (z0 & c1 & EE & EZ). apply bind_Ok in EZ as (b & c2 & EB & EZ). apply ret_Ok in EZ as (-> & _).
  exists my, other, coins', (ct_clone z0), b. split; [exact H|]. split; [rewrite decrypt_clone; eapply encrypt_Ok; eauto|]. split; auto.
  destruct (TD P P 0%Z b TO TO (thr_enc N P P true 0%Z _ _ _ EB)) as ((a & A1 & A2) & _). exists a. rewrite Z.mod_0_l in A2 by lia. auto.
Qed.

(** ** keeping in step *)
Lemma in_step_of {Gr : group} {A B C D} (hash : A -> list bool) (hash' : B -> list bool) ins (mk : Z -> A) (enc : A -> M C) (ser : C -> outcome (welem Gr)) deser
    (el : Z -> A) (el' : Z -> B) (zero : M D) (zero' : M C) size s n coins1 coins2 my1 other1 my2 other2 c1' c2' :
  (forall x, length (hash x) = 256) -> (forall x, length (hash' x) = 256) -> ins_like hash ins -> int_range size ->
  create_mock_trees hash el zero size (tree_new s n, tree_new s n) coins1 = ((my1, other1), Ok (tt, c1')) ->
  create_mock_trees hash' el' zero' size (tree_new s n, tree_new s n) coins2 = ((my2, other2), Ok (tt, c2')) ->
  in_step ins mk enc ser deser s n size my1 other2.
Proof.
  intros HL HL' LK IR H1 H2 hist ts tr X IR2.
  destruct (mock_start hash el zero HL _ _ _ _ _ _ _ IR H1) as (_ & _ & _ & _ & _ & _ & _ & _ & _ & _ & R1 & S1 & N1 & D1 & _).
  destruct (mock_start hash' el' zero' HL' _ _ _ _ _ _ _ IR H2) as (_ & _ & _ & _ & _ & _ & _ & _ & _ & _ & R2 & S2 & N2 & D2 & (P1 & P2 & P3 & P4 & P5) & _).
  pose proof (mock_mviewed hash' el' zero' HL' _ _ _ _ _ _ _ IR H2) as MV.
  assert (PE : pub_eq my1 other2).
  { unfold pub_eq. rewrite P1, P2, P3, P4, P5, S1, N1, D1, S2, N2, D2, (r_actual _ _ _ R1), (r_actual _ _ _ R2), (wf_len _ _ (r_wf _ _ _ R1)), (wf_len _ _ (r_wf _ _ _ R2)), D1, D2. auto. }
  destruct (from_viewed hash ins mk enc ser deser s n size LK my1 other2 R1 S1 N1 MV PE hist ts tr X IR2) as (R & _ & _ & V & PE').
  split; [exact PE'|]. pose proof V as (_ & _ & _ & Q4 & _). rewrite concat_map_length in Q4. split; [exact Q4|]. split.
  - intros h Hh. unfold bits. apply mviewed_lookup; [exact V|]. unfold bits; try rewrite concat_map_length; rewrite Hh. pose proof (int_range_log2 _ IR2). lia.
  - intros es coins ts' u coins' ns IR3 SU DS. eapply next_applied; eauto.
Qed.
(** Both parties start with the same --start_size: whatever they send
    afterwards is applied to a tree of the shape it was made for. *)
Theorem C61_in_step :
  forall (Gr : group) (A B C D : Type) (hash : A -> list bool) (hash' : B -> list bool) mk (enc : A -> M C) (ser : C -> outcome (welem Gr)) deser
    el el' (zero : M D) (zero' : M C) size s n coins1 coins2 my1 other1 my2 other2 coins1' coins2',
    (forall x, length (hash x) = 256) -> (forall x, length (hash' x) = 256) -> int_range size ->
    create_mock_trees hash el zero size (tree_new s n, tree_new s n) coins1 = ((my1, other1), Ok (tt, coins1')) ->
    create_mock_trees hash' el' zero' size (tree_new s n, tree_new s n) coins2 = ((my2, other2), Ok (tt, coins2')) ->
    in_step (insert hash) mk enc ser deser s n size my1 other2.
Proof. intros. eapply (in_step_of hash hash'); eauto. apply ins_like_insert; auto. Qed.
Theorem C61_in_step_deletion :
  forall (Gr : group) (hash : Z -> list bool) mk (enc : Z * Z -> M (Z * Z)) (ser : Z * Z -> outcome (welem Gr)) deser
    penc1 penc2 size s n coins1 coins2 my1 other1 my2 other2 coins1' coins2',
    (forall x, length (hash x) = 256) -> int_range size ->
    del_mock hash penc1 size (tree_new s n, tree_new s n) coins1 = ((my1, other1), Ok (tt, coins1')) ->
    del_mock hash penc2 size (tree_new s n, tree_new s n) coins2 = ((my2, other2), Ok (tt, coins2')) ->
    in_step (insert_del hash) mk enc ser deser s n size my1 other2.
Proof.
  intros Gr hash mk enc ser deser penc1 penc2 size s n c1 c2 m1 o1 m2 o2 c1' c2' HL IR H1 H2.
  eapply (in_step_of (hash_entry hash) (hash_entry hash)); eauto; try (intros x; apply HL). apply ins_like_insert_del; auto.
Qed.
(** With different sizes the first update of the party with the deeper tree is
    undefined behaviour in the peer. *)
Theorem C61_sizes_differ :
  forall (Gr : group) (A B C D : Type) (hash : A -> list bool) (hash' : B -> list bool) mk (enc : A -> M C) (ser : C -> outcome (welem Gr)) deser
    el el' (zero : M D) (zero' : M C) size1 size2 s n coins1 coins2 my1 other1 my2 other2 coins1' coins2',
    (forall x, length (hash x) = 256) -> (forall x, length (hash' x) = 256) -> int_range (size1 + 1) -> int_range size2 ->
    create_mock_trees hash el zero size1 (tree_new s n, tree_new s n) coins1 = ((my1, other1), Ok (tt, coins1')) ->
    create_mock_trees hash' el' zero' size2 (tree_new s n, tree_new s n) coins2 = ((my2, other2), Ok (tt, coins2')) ->
    Nat.log2 (size2 + 1) < Nat.log2 (size1 + 1) ->
    forall e coins ts' u coins' ns, send_update (insert hash) mk enc ser [e] my1 coins = (ts', Ok (u, coins')) -> omap (deser_node deser) (u_nodes u) = Ok ns ->
      recv_update deser u other2 = UB.
Proof.
  intros Gr A B C D hash hash' mk enc ser deser el el' zero zero' size1 size2 s n c1 c2 my1 other1 my2 other2 c1' c2' HL HL' IR1 IR2 H1 H2 LT e coins ts' u coins' ns SU DS.
  assert (IR0 : int_range size1) by (unfold int_range in *; lia).
  destruct (mock_start hash el zero HL _ _ _ _ _ _ _ IR0 H1) as (_ & _ & _ & _ & _ & _ & _ & _ & _ & _ & R1 & S1 & N1 & D1 & _).
  destruct (mock_start hash' el' zero' HL' _ _ _ _ _ _ _ IR2 H2) as (_ & _ & _ & _ & _ & _ & _ & _ & _ & _ & R2 & S2 & N2 & D2 & (P1 & P2 & P3 & P4 & P5) & _).
  assert (GD : forall X (t : tree X) k, t_actual t = k -> t_depth t = Nat.log2 k -> t_depth (grow 1 t) = Nat.log2 (k + 1)).
  { intros X t k EA ED. destruct (grow_spec (fun _ : X => []) 1 t) as (G1 & G2 & G3 & _). cbv zeta in G1, G2, G3. rewrite EA in G2, G3. apply depth_log2; [lia|].
    destruct G3 as [G3|G3]; [|right; lia]. destruct (Nat.eq_dec k 0) as [->|NZ]; [left; rewrite G3, ED; reflexivity|right].
    rewrite G3, ED. pose proof (Nat.log2_spec k). lia. }
  eapply (next_crashes hash (insert hash) mk enc ser deser (ins_like_insert hash HL) my1 other2 size1); eauto.
  rewrite (GD _ my1 size1 (r_actual _ _ _ R1) D1). rewrite (GD _ other2 size2); [exact LT| |congruence].
  rewrite P4. apply (r_actual _ _ _ R2).
Qed.

(** ** what a benchmark measures *)
Lemma node_of_lt l h : node_of (firstn l h) < 2 ^ (l + 1).
Proof.
  rewrite node_of_idx. pose proof (idx_bounds (firstn l h)) as (_ & B). eapply Nat.lt_le_trans; [exact B|]. apply Nat.pow_le_mono_r; [lia|].
  rewrite firstn_length. lia.
Qed.
Lemma node_of_pos l : node_of l <> 0.
Proof. rewrite node_of_idx. pose proof (idx_bounds l). pose proof (Nat.pow_nonzero 2 (length l)). lia. Qed.
Lemma path_nodes_small d h v : In v (path_nodes d h) -> v < 2 ^ (d + 1).
Proof.
  intros [<-|Hv]; [apply Nat.neq_0_lt_0, Nat.pow_nonzero; lia|]. apply in_map_iff in Hv as (l & <- & Hl). apply in_seq in Hl.
  eapply Nat.lt_le_trans; [apply node_of_lt|]. apply Nat.pow_le_mono_r; lia.
Qed.
(** As long as the tree does not grow, every lookup finds the same number of
    entries: the stash and one full node per level. *)
Theorem C61_constant :
  forall s n size hist h, Nat.log2 (size + length (concat hist)) = Nat.log2 size ->
    mock_lookup s n size hist h = s + (Nat.log2 size + 1) * n.
Proof.
  intros s n size hist h EQ. unfold mock_lookup. rewrite EQ. set (d := Nat.log2 size).
  rewrite (map_ext_in _ (fun v => if v =? 0 then s else n)).
  2:{ intros v Hv. apply path_nodes_small in Hv. apply Nat.ltb_lt in Hv. rewrite Hv. reflexivity. }
  unfold path_nodes. cbn [map]. rewrite map_map. rewrite (map_ext _ (fun _ => n)).
  2:{ intros l. pose proof (node_of_pos (firstn l h)) as NZ. apply Nat.eqb_neq in NZ. rewrite NZ. reflexivity. }
  cbn [Nat.eqb]. unfold list_sum. cbn [fold_right]. f_equal. rewrite Nat.add_1_r. rewrite <- (seq_length (S d) 0) at 2.
  induction (seq 0 (S d)) as [|a l IH]; cbn [map fold_right length Nat.mul]; auto.
Qed.
(** Never less than a run whose trees really hold [size] elements, inserted in
    any batches: the traffic of a benchmark is an upper bound for that of such a
    run with the same later updates. *)
Theorem C61_upper_bound :
  forall s n size hist0 hist h, length (concat hist0) = size -> lookup_size s n (hist0 ++ hist) h <= mock_lookup s n size hist h.
Proof.
  intros s n size hist0 hist h LS. unfold lookup_size, mock_lookup. rewrite concat_app, app_length, LS.
  assert (WA : forall c, written c (hist0 ++ hist) = written c hist0 ++ written (c + length (concat hist0)) hist).
  { clear. induction hist0 as [|hs l IH]; intros c; cbn [app written concat length]; [rewrite Nat.add_0_r; auto|].
    rewrite IH, app_length, Nat.add_assoc, app_assoc. reflexivity. }
  assert (WL : forall c v, In v (written c hist0) -> v < 2 ^ (Nat.log2 (c + length (concat hist0)) + 1)).
  { clear. induction hist0 as [|hs l IH]; intros c v Hv; cbn [written] in Hv; [contradiction|]. cbn [concat]. rewrite app_length, Nat.add_assoc.
    apply in_app_or in Hv as [Hv|Hv]; [|apply IH; exact Hv]. apply in_flat_map in Hv as (g & _ & Hv). apply path_nodes_small in Hv.
    eapply Nat.lt_le_trans; [exact Hv|]. apply Nat.pow_le_mono_r; [lia|]. apply Nat.add_le_mono_r, Nat.log2_le_mono. lia. }
  rewrite WA, LS. cbn [Nat.add]. specialize (WL 0). rewrite LS in WL. cbn [Nat.add] in WL.
  induction (path_nodes _ h) as [|v l IH]; unfold list_sum in *; cbn [map fold_right]; [lia|]. apply Nat.add_le_mono; [|exact IH].
  rewrite existsb_app. destruct (existsb (Nat.eqb v) (written size hist)).
  - rewrite !orb_true_r. lia.
  - rewrite !orb_false_r. destruct (existsb (Nat.eqb v) (written 0 hist0)) eqn:EX; [|lia].
    apply existsb_In, WL, Nat.ltb_lt in EX. rewrite EX. lia.
Qed.

(** ** Examples: secret sharing, two mock elements; party one's first update and
    a second one reach the replica at party zero; with sizes 3 and 0 they do not *)
Section Examples.
Local Open Scope Z_scope.
Notation send := (send_update (insert ex_bits) (fun x => x) (enc_plain ex_pk) (@ser_plain exG)).
Notation recv := (recv_update (@deser_plain exG)).
(** the number of ciphertexts found in the replica *)
Notation mock_zero size c := (ss_mock_zero ex_bits ex_pk size (tree_new 1 1, tree_new 1 1) c).
Notation mock_one size c := (create_mock_trees ex_bits (fun x => x) (ret tt) size (tree_new 1 1, tree_new 1 1) c).
Definition ex_mock size1 size2 (sends : tree Z -> tape -> tree Z * outcome (update exG * tape)) : option (outcome nat) :=
  match mock_one size1 ex_tape, mock_zero size2 ex_tape with
  | ((my1, _), Ok (_, c)), ((_, other0), Ok _) =>
      match sends my1 c with
      | (_, Ok (u, _)) => Some (let! tr := recv u other0 in Ok (length (get_path (ex_bits 5) tr)))
      | _ => None end
  | _, _ => None end.
Example ex_C61_in_step : ex_mock 2 2 (send [5]) = Some (Ok (mock_lookup 1 1 2 [[ex_bits 5]] (ex_bits 5))).
Proof. vm_cast_no_check (eq_refl (Some (Ok 3%nat))). Qed.
Example ex_C61_sizes_differ : ex_mock 3 0 (send [5]) = Some UB.
Proof. vm_cast_no_check (@eq_refl (option (outcome nat)) (Some UB)). Qed.
Example ex_C61_deletion : exists P V my other coins' z, paillier_objects 1 7 11 P V
  /\ del_mock ex_bits (pub_encrypt P) 5 (tree_new 2 2, tree_new 2 2) ex_tape = ((my, other), Ok (tt, coins'))
  /\ priv_decrypt V z = Ok 0 /\ elems (nth 7 (t_nodes other) (node_new 0)) = [(z, z); (z, z)].
Proof.
  destruct C32_case as (P & V & _ & _ & _ & _ & _ & _ & HP & _). apply objects_pair in HP.
  destruct (C61_deletion_trees ex_bits 7 11 P V 5 2 2 ex_tape ex_bits_len ltac:(unfold int_range; cbn; lia) HP) as (my & other & c & z & H & D & MP).
  exists P, V, my, other, c, z. split; auto. split; auto. split; auto. destruct MP as (_ & _ & _ & _ & _ & _ & _ & F). apply (F 7%nat). apply Nat.ltb_lt. reflexivity.
Qed.
End Examples.
Print Assumptions C61_deletion_trees.
Print Assumptions C61_shares_zero_trees.
Print Assumptions C61_shares_one_trees.
Print Assumptions C61_in_step.
Print Assumptions C61_in_step_deletion.
Print Assumptions C61_sizes_differ.
Print Assumptions C61_constant.
Print Assumptions C61_upper_bound.
