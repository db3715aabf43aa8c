(** * Properties C06 and C07: updates of the encrypted replica.

    Program: SyncModel.v, TreeModel.v; vocabulary: SyncSpec.v, TreeSpec.v. *)
Require Import List Arith Lia ZArith Permutation Bool Znumtheory.
Import ListNotations.
From Verif Require Import Prelude TreeModel TreeSpec TreeHistory TreeDelModel TreeDelSpec TreeDelProofs Coins Group ElGamalModel ElGamalProofs BytesModel CipherModel PaillierModel PaillierProofs PropsPaillier WireModel WireProofs SyncModel SyncSpec SyncProofs KindProofs.
Local Open Scope nat_scope.

(** [days] are the batches of one party, in order.  The statement for one kind
    of tree: either some encryption or serialization returns an error status,
    or every message is applied and the trees mirror each other; the sender
    tree is the one obtained by inserting the batches (the vocabulary of
    C01-C05, C10-C12). *)
Definition updates_mirror {Gr : group} {A C : Type}
    (ins : list A -> list (list bool) -> tree A -> tree A * list (node A)) (mk : Z -> A) (enc : A -> M C)
    (ser : C -> outcome (welem Gr)) (deser : welem Gr -> outcome C)
    (Rep : A -> C -> Prop) (is_pad : A -> Prop) : Prop :=
  forall (stash_size node_size : nat) (days : list (list A)) (coins : tape),
    int_range (length (concat days)) ->
    match sync_days ins mk enc ser deser days (tree_new stash_size node_size) (tree_new stash_size node_size) coins with
    | Ok ((ts, tr), _) =>
        mirrors Rep is_pad ts tr
        /\ exists hs, length hs = length days /\ Forall valid_batch (combine days hs)
             /\ ts = fold_left (fun t b => fst (ins (fst b) (snd b) t)) (combine days hs) (tree_new stash_size node_size)
    | Err _ => True
    | _ => False
    end.

Lemma mirrors_impl {A C} (R R' : A -> C -> Prop) (P P' : A -> Prop) ts tr :
  (forall a c, R a c -> R' a c) -> (forall a, P a -> P' a) -> mirrors R P ts tr -> mirrors R' P' ts tr.
Proof.
  intros H1 H2 (M1 & M2 & M3 & M4 & M5 & M6). unfold mirrors. do 5 (split; [auto|]). intros v Hv.
  destruct (M6 v Hv) as [?|(pads & F & L & F2)]; auto. right. exists pads. split; [eapply Forall_impl; eauto|]. split; auto.
  clear - H1 F2. induction F2; constructor; auto.
Qed.
Lemma updates_gen {Gr : group} {A C} (hash : A -> list bool) ins mk (enc : A -> M C) (ser : C -> outcome (welem Gr)) deser (Rep Rep' : A -> C -> Prop) (is_pad : A -> Prop) :
  (forall x, length (hash x) = 256) -> ins_like hash ins -> (forall x, pad_range x -> is_pad (mk x)) ->
  (forall a tp, match enc a tp with Ok (c, _) => Rep a c | Err _ => True | _ => False end) ->
  (forall a c, Rep a c -> match ser c with Ok w => deser w = Ok c | Err _ => True | _ => False end) ->
  (forall a c, Rep a c -> Rep' a c) ->
  updates_mirror ins mk enc ser deser Rep' is_pad.
Proof.
  intros H1 H2 H3 H4 H5 H6 s n days tp IR.
  pose proof (sync_days_spec hash ins mk enc ser deser Rep is_pad H1 H2 H3 H4 H5 days (tree_new s n) (tree_new s n) 0 tp) as X.
  specialize (X (reach_new hash s n) (mirrors_new Rep is_pad s n) IR).
  destruct (sync_days ins mk enc ser deser days (tree_new s n) (tree_new s n) tp) as [[[ts tr] tp']| | |]; auto.
  destruct X as (_ & X & Y). split; auto. eapply mirrors_impl; [exact H6| |exact X]. auto.
Qed.

(** C06, plain trees ([sk] = the joint secret key). *)
Theorem C06_plain :
  forall (Gr : group) (sk : Z) (hash : Z -> list bool), (forall x, length (hash x) = 256) ->
  updates_mirror (insert hash) (fun x => x) (enc_plain (mkPk gen (gpow gen sk))) ser_plain (@deser_plain Gr)
    (fun x c => decrypt sk c = gpow gen x) pad_elem.
Proof.
  intros Gr sk hash HH. apply (updates_gen hash _ _ _ _ _ (fun x c => decrypt sk c = gpow gen x)); auto.
  - apply ins_like_insert; auto.
  - intros a tp. apply (enc_plain_ok sk a tp).
  - intros a c _. apply ser_plain_ok.
Qed.
(** C06, trees with ElGamal payloads. *)
Theorem C06_elgamal_payload :
  forall (Gr : group) (sk : Z) (hash : Z -> list bool), (forall x, length (hash x) = 256) ->
  updates_mirror (insert (fun x => hash (fst x))) pad_payload (enc_elgamal (mkPk gen (gpow gen sk))) ser_elgamal (@deser_elgamal Gr)
    (fun x c => decrypt sk (fst c) = gpow gen (fst x) /\ decrypt sk (snd c) = gpow gen (snd x)) pad_entry.
Proof.
  intros Gr sk hash HH. apply (updates_gen (fun x => hash (fst x)) _ _ _ _ _ (fun x c => decrypt sk (fst c) = gpow gen (fst x) /\ decrypt sk (snd c) = gpow gen (snd x))); auto.
  - apply ins_like_insert; auto.
  - intros x Hx. split; auto.
  - intros a tp. apply (enc_elgamal_ok sk a tp).
  - intros a c _. apply ser_elgamal_ok.
Qed.
(** C06, trees with threshold-Paillier payloads: [n], [sk1], [sk2] come from the
    key generator, [P] is the sender's object. *)
Theorem C06_paillier_payload :
  forall (Gr : group) (sk : Z) (hash : Z -> list bool) p q bits t n sk1 sk2 t' P,
  (forall x, length (hash x) = 256) ->
  prime p -> prime q -> p <> q -> threshold_keygen p q bits t = Ok ((n, sk1, sk2), t') -> thr_object n P ->
  updates_mirror (insert (fun x => hash (fst x))) pad_payload (enc_paillier (mkPk gen (gpow gen sk)) (pub_encrypt P)) ser_paillier (@deser_paillier Gr)
    (fun x c => decrypt sk (fst c) = gpow gen (fst x)
                /\ exists a, thr_partial n sk1 (snd c) = Ok a /\ thr_decrypt n sk2 (snd c) a = Ok (snd x)) pad_entry.
Proof.
  intros Gr sk hash p q bits t n sk1 sk2 t' P HH Pp Pq NE K O.
  assert (1 < p)%Z by (destruct Pp; auto). assert (1 < q)%Z by (destruct Pq; auto).
  assert (K' := K). apply keygen_spec in K' as (En & S1 & S2 & D1 & D2); auto.
  assert (Hn : (1 < n)%Z) by (rewrite En; nia).
  apply (updates_gen (fun x => hash (fst x)) _ _ _ _ _ (fun x c => decrypt sk (fst c) = gpow gen (fst x) /\ (0 <= snd x < n)%Z /\ ct_of n (snd x) (snd c))); auto.
  - apply ins_like_insert; auto.
  - intros x Hx. split; auto.
  - intros a tp. apply (enc_paillier_ok sk n P a tp); auto.
  - intros a c (_ & _ & (B & _)). apply ser_paillier_ok. lia.
  - intros a c (E & B & C). split; auto.
    edestruct (thr_decrypt_spec p q n sk1 sk2) as (x & E1 & E2); [..|exact C|]; auto; try lia.
    exists x. split; auto. rewrite E2, Z.mod_small; auto.
Qed.
(** C06, trees with deletions: [V] is the sender's PrivatePaillier object. *)
Theorem C06_deletion :
  forall (Gr : group) (hash : Z -> list bool) flag p q V,
  (forall x, length (hash x) = 256) -> priv_new flag p q 1 = Ok V ->
  updates_mirror (insert_del hash) pad_payload (enc_deletion (p * q) (priv_encrypt V)) ser_deletion (@deser_deletion Gr)
    (fun x c => priv_decrypt V (fst c) = Ok (fst x) /\ priv_decrypt V (snd c) = Ok (snd x mod (p * q))%Z) pad_entry.
Proof.
  intros Gr hash fl p q V HH HV.
  apply (updates_gen (hash_entry hash) _ _ _ _ _ (del_rep (p * q))).
  - intros x. apply HH.
  - apply ins_like_insert_del; auto.
  - intros x Hx. split; auto.
  - intros a tp. pose proof (enc_deletion_ok V p q fl a tp HV) as X. destruct (enc_deletion (p * q) (priv_encrypt V) a tp) as [[c ?]| | |]; auto.
  - intros a c (_ & (B & _) & (B' & _)). destruct (@ser_deletion_ok Gr c) as (w & E & E'); try lia. rewrite E. auto.
  - intros a c (B & C1 & C2). split.
    + rewrite (priv_dec_ok V p q fl (fst a) (fst c) HV C1), Z.mod_small; auto.
    + rewrite (priv_dec_ok V p q fl _ (snd c) HV C2), Z.mod_mod; auto. pose proof (priv_new_pos _ _ _ _ HV). lia.
Qed.

(** ** C07 *)
(** [sender_tree hash t]: a tree some party can hold: the result of any valid
    history of insertions, or of insertions with deletions. *)
Definition sender_tree (hash : Z -> list bool) (s n total : nat) (t : tree (Z * Z)) (ins : list (Z * Z) -> list (list bool) -> tree (Z * Z) -> tree (Z * Z) * list (node (Z * Z))) : Prop :=
  exists days, Forall valid_batch days /\ total = length (history_elems days)
    /\ ((ins = insert (fun x => hash (fst x)) /\ t = run_release (fun x => hash (fst x)) days (tree_new s n))
        \/ (ins = insert_del hash /\ t = run_del_release hash days (tree_new s n))).
(** The number of nodes, their order and the number of entries per node follow
    from the sizes, the old depth and counter, and the hashes in the message. *)
Definition message_shape {Gr : group} (u : update Gr) : list nat := map (@length _) (u_nodes u).

(** trees without payload *)
Theorem C07_shape_plain :
  forall (Gr : group) (A C : Type) (hash : A -> list bool) mk (enc : A -> M C) (ser : C -> outcome (welem Gr)) s n days es coins t' u coins',
    (forall x, length (hash x) = 256) -> Forall valid_batch days ->
    int_range (length (history_elems days) + length es) ->
    let t := run_release hash days (tree_new s n) in
    send_update (insert hash) mk enc ser es t coins = (t', Ok (u, coins')) ->
    length (u_hashes u) = length es
    /\ message_shape u = map (fun v => if v =? 0 then s else n)
                             (path_indices (t_depth (grow (length es) t)) (map byte2binary (u_hashes u))).
Proof.
  intros Gr A C hash mk enc ser s n days es tp t' u tp' HH V IR t E.
  destruct (run_release_reach hash days (tree_new s n) 0 HH (reach_new hash s n) V) as (R & S & N & _).
  { unfold int_range in *. lia. }
  fold t in R, S, N. cbn [tree_new t_stash_size t_node_size] in S, N.
  destruct (send_update_shape hash (insert hash) mk enc ser (ins_like_insert hash HH) es t _ tp t' u tp' R IR E) as (L & _ & X).
  split; auto. unfold message_shape. rewrite X, S, N. reflexivity.
Qed.
(** trees with payloads, with and without deletions *)
Theorem C07_shape_payload :
  forall (Gr : group) (C : Type) (hash : Z -> list bool) ins mk (enc : Z * Z -> M C) (ser : C -> outcome (welem Gr)) s n total t es coins t' u coins',
    (forall x, length (hash x) = 256) -> sender_tree hash s n total t ins ->
    int_range (total + length es) ->
    send_update ins mk enc ser es t coins = (t', Ok (u, coins')) ->
    length (u_hashes u) = length es
    /\ message_shape u = map (fun v => if v =? 0 then s else n)
                             (path_indices (t_depth (grow (length es) t)) (map byte2binary (u_hashes u))).
Proof.
  intros Gr C hash ins mk enc ser s n total t es tp t' u tp' HH (days & V & -> & [(-> & ->)|(-> & ->)]) IR E.
  - eapply (C07_shape_plain Gr _ _ (fun x : Z * Z => hash (fst x))) in E; eauto.
  - destruct (run_del_release_reach hash days (tree_new s n) 0) as (R & S & N); auto.
    { apply reach_new. } { unfold int_range in *. eapply Z.le_lt_trans; [|exact IR]. apply inj_le. apply Nat.le_add_r. }
    cbn [tree_new t_stash_size t_node_size] in S, N.
    edestruct (send_update_shape (hash_entry hash) (insert_del hash) mk enc ser (ins_like_insert_del hash HH)) as (L & _ & X); [exact R| |exact E|].
    { exact IR. }
    split; auto. unfold message_shape. rewrite X, S, N. reflexivity.
Qed.
(** Two senders with different elements, histories, hash functions and even
    encryption, but the same public state, batch size and random hashes, send
    messages of the same shape; and the public state stays the same. *)
Theorem C07_indistinguishable_shape :
  forall (Gr : group) (C : Type) s n total
    (hash1 hash2 : Z -> list bool) ins1 ins2 mk1 mk2 (enc1 enc2 : Z * Z -> M C) (ser1 ser2 : C -> outcome (welem Gr))
    t1 t2 es1 es2 coins1 coins2 t1' t2' u1 u2 coins1' coins2',
    (forall x, length (hash1 x) = 256) -> (forall x, length (hash2 x) = 256) ->
    sender_tree hash1 s n total t1 ins1 -> sender_tree hash2 s n total t2 ins2 ->
    t_depth t1 = t_depth t2 -> length es1 = length es2 -> int_range (total + length es1) ->
    send_update ins1 mk1 enc1 ser1 es1 t1 coins1 = (t1', Ok (u1, coins1')) ->
    send_update ins2 mk2 enc2 ser2 es2 t2 coins2 = (t2', Ok (u2, coins2')) ->
    u_hashes u1 = u_hashes u2 ->
    message_shape u1 = message_shape u2 /\ t_depth t1' = t_depth t2' /\ t_actual t1' = t_actual t2'.
Proof.
  intros Gr C s n total hash1 hash2 ins1 ins2 mk1 mk2 enc1 enc2 ser1 ser2 t1 t2 es1 es2 c1 c2 t1' t2' u1 u2 c1' c2' H1 H2 S1 S2 D L IR E1 E2 EH.
  assert (G : forall (hash : Z -> list bool) ins t, (forall x, length (hash x) = 256) -> sender_tree hash s n total t ins ->
     reach (fun x => hash (fst x)) t total /\ ins_like (fun x => hash (fst x)) ins).
  { intros hash ins t HH (days & V & -> & [(-> & ->)|(-> & ->)]).
    - split; [|apply ins_like_insert; auto]. apply (run_release_reach (fun x : Z * Z => hash (fst x)) days (tree_new s n) 0); auto.
      { apply reach_new. } unfold int_range in *; lia.
    - split; [|apply ins_like_insert_del; auto]. apply (run_del_release_reach hash days (tree_new s n) 0); auto.
      { apply reach_new. } unfold int_range in *. eapply Z.le_lt_trans; [|exact IR]. apply inj_le. apply Nat.le_add_r. }
  destruct (G _ _ _ H1 S1) as (R1 & I1). destruct (G _ _ _ H2 S2) as (R2 & I2).
  assert (ED : t_depth (grow (length es1) t1) = t_depth (grow (length es2) t2)).
  { rewrite <- L. unfold grow. rewrite (r_actual _ _ _ R1), (r_actual _ _ _ R2).
    generalize (length es1 + total). intros f. assert (EA : t_actual t1 = t_actual t2) by (rewrite (r_actual _ _ _ R1), (r_actual _ _ _ R2); auto).
    clear - D EA. revert t1 t2 D EA. induction f as [|f IH]; intros t1 t2 D EA; cbn [grow_loop]; auto. rewrite D, EA.
    destruct (_ <=? _); auto. apply IH; cbn; auto. }
  split.
  - assert (IR2 : int_range (total + length es2)) by (rewrite <- L; auto).
    pose proof (C07_shape_payload _ _ _ _ _ _ _ _ _ _ _ _ _ _ _ _ H1 S1 IR E1) as (_ & X1).
    pose proof (C07_shape_payload _ _ _ _ _ _ _ _ _ _ _ _ _ _ _ _ H2 S2 IR2 E2) as (_ & X2).
    rewrite X1, X2, EH, ED. auto.
  - assert (IR2 : int_range (total + length es2)) by (rewrite <- L; auto).
    assert (Q : forall hash ins mk (enc : Z * Z -> M C) (ser : C -> outcome (welem Gr)) es t tp t' o, reach hash t total -> ins_like hash ins -> int_range (total + length es) ->
       send_update ins mk enc ser es t tp = (t', o) -> t_depth t' = t_depth (grow (length es) t) /\ t_actual t' = total + length es).
    { intros hash ins mk enc ser es t tp t' o R I IRR E. unfold send_update in E.
      destruct (random_hashes_total (length es) tp) as (hs & tp1 & EE). rewrite EE in E.
      destruct (ins es (map byte2binary hs) t) as [t3 out] eqn:EI. injection E as <- _.
      destruct (I t total (es, map byte2binary hs) t3 out R (hashes_valid _ _ _ _ EE) IRR EI) as (_ & R' & DD & _).
      split; auto. apply R'. }
    destruct (Q _ _ _ _ _ _ _ _ _ _ R1 I1 IR E1) as (-> & ->). destruct (Q _ _ _ _ _ _ _ _ _ _ R2 I2 IR2 E2) as (-> & ->).
    split; auto.
Qed.

(** ** Non-vacuity *)
Section Examples.
Definition ex11 : group := zmod_group 11 prime_11'.
Definition ex_bits (x : Z) : list bool := map (fun i => Z.testbit x (Z.of_nat i)) (seq 0 256).
Definition ex_coins : tape := fun i => (Z.of_nat i * 2 + Z.of_nat (i * i) + 2)%Z.
Definition is_ok {T} (o : outcome T) : bool := match o with Ok _ => true | _ => false end.
Example ex_bits_len x : length (ex_bits x) = 256.
Proof. unfold ex_bits. rewrite map_length, seq_length. auto. Qed.
(** two days, three elements, padding needed *)
Example ex_sync_plain :
  is_ok (sync_days (insert ex_bits) (fun x => x) (enc_plain (mkPk (@gen ex11) (gpow gen 4%Z))) ser_plain deser_plain
           [[5; 6]%Z; [9]%Z] (tree_new 1 1) (tree_new 1 1) ex_coins) = true.
Proof. vm_compute. reflexivity. Qed.
Example ex_sync_elgamal :
  is_ok (sync_days (insert (fun x => ex_bits (fst x))) pad_payload (enc_elgamal (mkPk (@gen ex11) (gpow gen 4%Z))) ser_elgamal deser_elgamal
           [[(5, 2); (6, 3)]%Z] (tree_new 1 1) (tree_new 1 1) ex_coins) = true.
Proof. vm_compute. reflexivity. Qed.
(** Paillier kinds: node size 1, no stash, so that no padding above n = 77 is
    needed *)
Example ex_sync_deletion :
  match priv_new false 7 11 1 with
  | Ok V => is_ok (sync_days (Gr := ex11) (insert_del ex_bits) pad_payload (enc_deletion 77 (priv_encrypt V)) ser_deletion deser_deletion
                    [[(5, -1)]%Z] (tree_new 0 1) (tree_new 0 1) ex_coins)
  | _ => false
  end = true.
Proof. vm_compute. reflexivity. Qed.
Example ex_sync_paillier :
  match pub_new false 5 77 1 (const_tape 6), threshold_keygen 7 11 4 (const_tape 6) with
  | Some (Ok (P, _)), Ok ((n, _, _), _) => (n =? 77)%Z &&
      is_ok (sync_days (Gr := ex11) (insert (fun x => ex_bits (fst x))) pad_payload (enc_paillier (mkPk gen (gpow gen 4%Z)) (pub_encrypt P)) ser_paillier deser_paillier
           [[(5, 60)]%Z] (tree_new 0 1) (tree_new 0 1) ex_coins)
  | _, _ => false
  end = true.
Proof. vm_compute. reflexivity. Qed.
(** the shape of the first message above: one leaf, root, stash, all full *)
Example ex_shape :
  match send_update (insert ex_bits) (fun x => x) (enc_plain (mkPk (@gen ex11) (gpow gen 4%Z))) ser_plain
           [5; 6]%Z (tree_new 1 1) ex_coins with
  | (_, Ok (u, _)) => message_shape u
  | _ => []
  end = [1; 1; 1].
Proof. vm_compute. reflexivity. Qed.
End Examples.

Print Assumptions C06_plain.
Print Assumptions C06_elgamal_payload.
Print Assumptions C06_paillier_payload.
Print Assumptions C06_deletion.
Print Assumptions C07_shape_plain.
Print Assumptions C07_shape_payload.
Print Assumptions C07_indistinguishable_shape.
