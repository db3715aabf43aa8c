(** * Property C58: what the sizes of the protocol messages reveal.

    Programs: SyncModel.v, AddModel.v, DelModel.v, PsiModel.v; specification:
    ShapeSpec.v. *)
Require Import List Arith Lia ZArith Permutation Bool.
Import ListNotations.
From Verif Require Import Prelude TreeModel TreeSpec TreeIndex TreeHistory TreeDelModel TreeDelProofs Coins Group ElGamalModel BytesModel CipherModel PaillierModel WireModel SyncModel SyncSpec SyncProofs KindProofs AddModel DelModel PsiModel PropsSync BigPrime ShapeSpec ShapeProofs.
Local Open Scope nat_scope.

(** ** one lookup
    The number of ciphertexts found for an element is given by the hashes the
    peer has sent and by the hash of the element. *)
Theorem C58_lookup :
  forall (Gr : group) (A C : Type) (hash : A -> list bool) mk (enc : A -> M C) (ser : C -> outcome (welem Gr)) deser s n hist ts tr h,
    (forall x, length (hash x) = 256) -> int_range (length (concat hist)) -> length h = 256 ->
    exchanged (insert hash) mk enc ser deser s n hist ts tr ->
    length (get_path h tr) = lookup_size s n (bits hist) h.
Proof.
  intros Gr A C hash mk enc ser deser s n hist ts tr h HL IR L X.
  exact (exchanged_lookup hash (insert hash) mk enc ser deser s n (ins_like_insert hash HL) hist ts tr h X IR L).
Qed.
Theorem C58_lookup_deletion :
  forall (Gr : group) (C : Type) (hash : Z -> list bool) mk (enc : Z * Z -> M C) (ser : C -> outcome (welem Gr)) deser s n hist ts tr h,
    (forall x, length (hash x) = 256) -> int_range (length (concat hist)) -> length h = 256 ->
    exchanged (insert_del hash) mk enc ser deser s n hist ts tr ->
    length (get_path h tr) = lookup_size s n (bits hist) h.
Proof.
  intros Gr C hash mk enc ser deser s n hist ts tr h HL IR L X.
  refine (exchanged_lookup (hash_entry hash) (insert_del hash) mk enc ser deser s n (ins_like_insert_del hash HL) hist ts tr h X IR L).
Qed.

(** only the first log2(number of elements) bits of the hash matter *)
Theorem C58_prefix :
  forall s n hist h h', let d := Nat.log2 (length (concat hist)) in
    firstn d h = firstn d h' -> lookup_size s n hist h = lookup_size s n hist h'.
Proof.
  intros s n hist h h' d EQ. unfold lookup_size. f_equal. fold d. unfold path_nodes. cbn [map]. f_equal. rewrite !map_map.
  apply map_ext_in. intros l Hl. apply in_seq in Hl.
  assert (Q : firstn l h = firstn l h').
  { replace l with (Nat.min l d) by lia. rewrite <- !firstn_firstn, EQ. auto. }
  rewrite Q. reflexivity.
Qed.
(** never more than the stash and one full node per level *)
Theorem C58_bound :
  forall s n hist h, lookup_size s n hist h <= s + (Nat.log2 (length (concat hist)) + 1) * n.
Proof.
  intros s n hist h. unfold lookup_size. generalize (Nat.log2 (length (concat hist))) as d. intros d.
  unfold path_nodes. cbn [map list_sum fold_right]. apply Nat.add_le_mono.
  - cbn [Nat.eqb]. destruct (existsb _ _); lia.
  - rewrite map_map. rewrite Nat.add_1_r. rewrite <- (seq_length (S d) 0) at 2. generalize (seq 0 (S d)) as l.
    induction l as [|v l IH]; cbn [map fold_right length]; [lia|].
    assert (V : node_of (firstn v h) <> 0). { rewrite node_of_idx. pose proof (idx_bounds (firstn v h)). pose proof (Nat.pow_nonzero 2 (length (firstn v h))). lia. }
    apply Nat.eqb_neq in V. rewrite V. destruct (existsb _ _); cbn [Nat.mul]; lia.
Qed.

(** ** messages without deletions *)
Lemma concat_sum {X} (l : list (list X)) : length (concat l) = list_sum (map (@length _) l).
Proof. unfold list_sum. induction l; cbn [concat map fold_right]; auto. rewrite app_length, IHl. auto. Qed.
Lemma omap_length {X Y} (f : X -> outcome Y) l l' : omap f l = Ok l' -> length l' = length l.
Proof. intros H. apply omap_Ok_Forall2, Forall2_length' in H. auto. Qed.
Lemma Forall2_sum {X Y} (f : X -> nat) (l : list X) (ys : list (list Y)) : Forall2 (fun x y => length y = f x) l ys ->
  length (concat ys) = list_sum (map f l).
Proof. unfold list_sum. induction 1; cbn [concat map fold_right]; auto. rewrite app_length. lia. Qed.

Section Addition.
Context {Gr : group} {A E P : Type}.
Variable hash : Z -> list bool.
Hypothesis hash_len : forall x, length (hash x) = 256.
Variable pk : pubkey Gr.
Variable key : A -> Z.
Variable first : A -> M (ct Gr * P).
Variable ser_cand : ct Gr * P -> outcome (welem Gr).
Variable mk : Z -> A.
Variable enc : A -> M E.
Variable ser : E -> outcome (welem Gr).
Variable deser : welem Gr -> outcome E.
Variable deser_cand : welem Gr -> outcome (ct Gr * P).
Variable split : E -> ct Gr * P.
Variable mask : ct Gr * P -> M (ct Gr * P).
Variable seal : ct Gr * P -> M (welem Gr).
Local Notation gen1 := (generate_message_i hash pk key first ser_cand mk enc ser).
Local Notation gen2 := (generate_message_ii hash pk deser deser_cand split mask seal).

Lemma gen1_cands es my other tp my' m tp' : gen1 es my other tp = Ok ((my', m), tp') ->
  length (m_cands m) = list_sum (map (fun a => length (get_path (hash (key a)) other)) es)
  /\ exists c c', send_update (insert (fun a => hash (key a))) mk enc ser es my c = (my', Ok (m_updates m, c')).
Proof.
  unfold generate_message_i. destruct (send_update _ mk enc ser es my tp) as [t' o] eqn:SU. intros H.
  apply bind_Ok in H as (u & c1 & H1 & H). apply bind_Ok in H as (cs & c2 & H2 & H). apply ret_Ok in H as (H & _).
  inversion H; subst t' m. cbn [m_cands m_updates mkMsg]. split.
  - apply Forall2_sum. apply mapM_Ok in H2. clear - H2. induction H2 as [|a ws es cs (s & s' & X) _ IH]; constructor; auto.
    unfold candidates_i in X. apply bind_Ok in X as (xp & c & _ & X). apply mapM_length in X. exact X.
  - exists tp, c1. rewrite SU, H1. reflexivity.
Qed.

(** The first message of a day: one lookup per element, in the view given by the
    hashes [hist] party one has sent so far. *)
Theorem C58_message_i :
  forall s n mk' (enc' : Z -> M (ct Gr)) (ser' : ct Gr -> outcome (welem Gr)) deser' hist peer other es my coins my' m coins',
    exchanged (insert hash) mk' enc' ser' deser' s n hist peer other -> int_range (length (concat hist)) ->
    gen1 es my other coins = Ok ((my', m), coins') ->
    length (m_cands m) = lookups s n hist (map (fun a => hash (key a)) es).
Proof.
  intros s n mk' enc' ser' deser' hist peer other es my tp my' m tp' X IR H.
  apply gen1_cands in H as (-> & _). unfold lookups. rewrite map_map. f_equal. apply map_ext. intros a.
  eapply (C58_lookup Gr Z (ct Gr)); eauto.
Qed.

(** The answer: the candidates received and one lookup per own element, in the
    view that includes the update just received. *)
Theorem C58_message_ii :
  forall s n hist ts other es0 other0 coins0 ts' m coins0' es my coins my' other' r coins',
    exchanged (insert (fun a => hash (key a))) mk enc ser deser s n hist ts other ->
    gen1 es0 ts other0 coins0 = Ok ((ts', m), coins0') ->
    gen2 m es (my, other) coins = ((my', other'), Ok (r, coins')) ->
    let hist' := hist ++ [u_hashes (m_updates m)] in
    exchanged (insert (fun a => hash (key a))) mk enc ser deser s n hist' ts' other'
    /\ (int_range (length (concat hist')) ->
        length (m_cands r) = length (m_cands m) + lookups s n hist' (map hash es)).
Proof.
  intros s n hist ts other es0 other0 c0 ts' m c0' es my tp my' other' r tp' X G1 G2 hist'.
  apply gen1_cands in G1 as (_ & c & c' & SU). unfold generate_message_ii in G2.
  destruct (recv_update deser (m_updates m) other) as [o1| | |] eqn:RU; try discriminate.
  destruct (answer_candidates _ _ _ _ _ _ _ _ _ _) as [[ws tp1]| | |] eqn:AC; try discriminate.
  destruct (send_update (insert hash) _ _ _ es my tp1) as [t1 o] eqn:SU1.
  inversion G2 as [[E1 E2 E3]]. subst t1 o1. apply bind_Ok in E3 as (u & c2 & _ & E3). apply ret_Ok in E3 as (E3 & _). subst r.
  assert (X' : exchanged (insert (fun a => hash (key a))) mk enc ser deser s n hist' ts' other').
  { unfold hist'. eapply one_update; eauto. }
  split; auto. intros IR. cbn [m_cands mkMsg]. unfold answer_candidates in AC.
  apply bind_Ok in AC as (theirs & d1 & A1 & AC). apply bind_Ok in AC as (mine & d2 & A2 & AC).
  apply bind_Ok in AC as (sh & d3 & A3 & AC). apply bind_Ok in AC as (ma & d4 & A4 & AC).
  apply mapM_length in AC. apply mapM_length in A4. apply shuffle_perm, Permutation_length in A3. rewrite app_length in A3.
  apply lift_Ok in A1 as (A1 & _). apply omap_length in A1.
  assert (Q : length (concat mine) = lookups s n hist' (map hash es)).
  { unfold lookups. rewrite map_map. apply Forall2_sum. apply mapM_Ok in A2. clear - A2 X' IR hash_len.
    induction A2 as [|a ws es cs (s1 & s2 & Y) _ IH]; constructor; auto.
    unfold candidates_ii in Y. apply bind_Ok in Y as (xp & c & _ & Y). apply ret_Ok in Y as (Y & _).
    rewrite Y, map_length. eapply (C58_lookup Gr A E (fun a => hash (key a))); eauto. }
  lia.
Qed.
End Addition.

(** ** messages with deletions *)
Section Deletion.
Context {Gr : group}.
Variable hash : Z -> list bool.
Hypothesis hash_len : forall x, length (hash x) = 256.
(** the peer's key is arbitrary *)
Definition del_exchanged (V : priv) := exchanged (Gr := Gr) (insert_del hash) pad_payload (enc_deletion (pv_n V) (priv_encrypt V)) ser_deletion deser_deletion.

Lemma initiate_length P es other tp items tp' : initiate hash P es other tp = Ok (items, tp') ->
  length items = list_sum (map (fun e => length (get_path (hash (fst e)) other)) es).
Proof.
  unfold initiate. intros H. apply bind_Ok in H as (l & c & H & H0). apply ret_Ok in H0 as (-> & _).
  apply Forall2_sum. apply mapM_Ok in H. clear - H. induction H as [|a ws es cs (s & s' & X) _ IH]; constructor; auto.
  unfold combine_initiator in X. apply mapM_length in X. exact X.
Qed.
Lemma pinitiate_length P es other tp items tp' : pinitiate hash P es other tp = Ok (items, tp') ->
  map (@length _) items = map (fun e => length (get_path (hash (fst e)) other)) es.
Proof.
  unfold pinitiate. intros H. apply mapM_Ok in H. induction H as [|a ws es cs (s & s' & X) _ IH]; cbn [map]; auto. f_equal; auto.
  unfold combine_initiator in X. apply mapM_length in X. exact X.
Qed.
Lemma del_view V s n hist peer other es : del_exchanged V s n hist peer other -> int_range (length (concat hist)) ->
  map (fun e => length (get_path (hash (fst e)) other)) es = map (lookup_size s n (bits hist)) (map (fun e : Z * Z => hash (fst e)) es).
Proof.
  intros X IR. rewrite map_map. apply map_ext. intros e. eapply (C58_lookup_deletion Gr (Z * Z) hash); eauto.
Qed.

(** deletion (CA, SUM): all lookups in one list *)
Theorem C58_deletion_i :
  forall s n V hist peer P V0 es p coins p' (m : msg12 Gr) coins',
    del_exchanged V s n hist peer (pt_other p) -> int_range (length (concat hist)) ->
    del_gen1 hash P V0 es p coins = Ok ((p', m), coins') ->
    length (m_cands m) = lookups s n hist (map (fun e => hash (fst e)) es).
Proof.
  intros s n V hist peer P V0 es p tp p' m tp' X IR H. unfold del_gen1 in H.
  destruct (del_update hash V0 es (pt_my p) tp) as [t' o]. apply bind_Ok in H as (u & c1 & H1 & H).
  apply bind_Ok in H as (items & c2 & H2 & H). apply bind_Ok in H as (ws & c3 & H3 & H). apply ret_Ok in H as (H & _).
  inversion H; subst m. cbn [m_cands mkMsg]. apply lift_Ok in H3 as (H3 & _). apply omap_length in H3. rewrite map_length in H3.
  apply initiate_length in H2. rewrite H3, H2. unfold lookups. f_equal. eapply del_view; eauto.
Qed.
(** party one answers with its own lookups only, after applying the update *)
Theorem C58_deletion_ii :
  forall s n V hist ts p P (m : msg12 Gr) es coins p' r coins' P0 es0 p0 p0' coins0 coins0' V1,
    del_exchanged V s n hist ts (pt_other p) -> pt_my p0 = ts ->
    del_gen1 hash P0 V es0 p0 coins0 = Ok ((p0', m), coins0') ->
    del_gen2 hash P V1 m es p coins = (p', Ok (r, coins')) ->
    let hist' := hist ++ [u_hashes (m_updates m)] in
    del_exchanged V s n hist' (pt_my p0') (pt_other p')
    /\ (int_range (length (concat hist')) -> length (m_cands r) = lookups s n hist' (map (fun e => hash (fst e)) es)).
Proof.
  intros s n V hist ts p P m es tp p' r tp' P0 es0 p0 p0' tp0 tp0' V1 X TS G1 G2 hist'. unfold del_gen1 in G1.
  destruct (del_update hash V es0 (pt_my p0) tp0) as [t' o] eqn:SU. apply bind_Ok in G1 as (u & c1 & H1 & G1).
  apply bind_Ok in G1 as (i0 & c2 & _ & G1). apply bind_Ok in G1 as (w0 & c3 & _ & G1). apply ret_Ok in G1 as (G1 & _).
  inversion G1; subst m p0'. cbn [pt_my m_updates mkMsg] in *. subst o.
  unfold del_gen2, del_receive in G2. cbn [reset_gc pt_other pt_my pt_x pt_y pt_z m_updates m_cands mkMsg] in G2.
  destruct (recv_update deser_deletion u (pt_other p)) as [o1| | |] eqn:RU; try discriminate.
  destruct (let! cs := omap deser_cand_only_paillier w0 in combine_responder V1 cs) as [ys| | |]; try discriminate.
  cbn [pt_other pt_my pt_x pt_y pt_z] in G2. destruct (del_update hash V1 es (pt_my p) tp) as [t1 o] eqn:SU1.
  destruct ((u0 <- (fun _ => o);; items <- initiate hash P es o1;; ws <- lift (omap only_paillier (map g_c items));; ret (u0, items, ws)) tp)
    as [[[[u1 items] ws] tp1]| | |] eqn:G; try discriminate.
  inversion G2; subst p' r. cbn [pt_other m_cands mkMsg].
  assert (X' : del_exchanged V s n hist' t' o1).
  { unfold hist', del_exchanged. eapply one_update; [exact X| |exact RU]. rewrite <- TS. exact SU. }
  split; auto. intros IR. apply bind_Ok in G as (u2 & d1 & _ & G). apply bind_Ok in G as (i2 & d2 & G3 & G).
  apply bind_Ok in G as (w2 & d3 & G4 & G). apply ret_Ok in G as (G & _). inversion G; subst u1 items ws.
  apply lift_Ok in G4 as (G4 & _). apply omap_length in G4. rewrite map_length in G4. rewrite G4.
  apply initiate_length in G3. rewrite G3. unfold lookups. f_equal. eapply del_view; eauto.
Qed.
(** deletion-psi: one list per element, so each lookup is visible by itself *)
Theorem C58_deletion_psi_i :
  forall s n V hist peer P V0 es p coins p' (m : msg12 Gr) coins',
    del_exchanged V s n hist peer (pg_other p) -> int_range (length (concat hist)) ->
    PsiModel.psi_gen1 hash P V0 es p coins = Ok ((p', m), coins') ->
    map (@length _) (m_vct m) = map (lookup_size s n (bits hist)) (map (fun e => hash (fst e)) es).
Proof.
  intros s n V hist peer P V0 es p tp p' m tp' X IR H. unfold PsiModel.psi_gen1 in H.
  destruct (del_update hash V0 es (pg_my p) tp) as [t' o]. apply bind_Ok in H as (u & c1 & H1 & H).
  apply bind_Ok in H as (items & c2 & H2 & H). apply bind_Ok in H as (ws & c3 & H3 & H). apply ret_Ok in H as (H & _).
  inversion H; subst m. cbn [m_vct]. apply lift_Ok in H3 as (H3 & _).
  assert (Q : map (@length _) ws = map (@length _) items).
  { apply omap_Ok_Forall2 in H3. clear - H3. induction H3 as [|a b l l' Y _ IH]; cbn [map]; auto. f_equal; auto.
    apply omap_length in Y. rewrite map_length in Y. exact Y. }
  rewrite Q. apply pinitiate_length in H2. rewrite H2. eapply del_view; eauto.
Qed.
Theorem C58_deletion_psi_ii :
  forall s n V hist ts p P (m : msg12 Gr) es coins p' r coins' P0 es0 p0 p0' coins0 coins0' V1,
    del_exchanged V s n hist ts (pg_other p) -> pg_my p0 = ts ->
    PsiModel.psi_gen1 hash P0 V es0 p0 coins0 = Ok ((p0', m), coins0') ->
    PsiModel.psi_gen2 hash P V1 m es p coins = (p', Ok (r, coins')) ->
    let hist' := hist ++ [u_hashes (m_updates m)] in
    del_exchanged V s n hist' (pg_my p0') (pg_other p')
    /\ (int_range (length (concat hist')) ->
        map (@length _) (m_vct r) = map (lookup_size s n (bits hist')) (map (fun e => hash (fst e)) es)).
Proof.
  intros s n V hist ts p P m es tp p' r tp' P0 es0 p0 p0' tp0 tp0' V1 X TS G1 G2 hist'. unfold PsiModel.psi_gen1 in G1.
  destruct (del_update hash V es0 (pg_my p0) tp0) as [t' o] eqn:SU. apply bind_Ok in G1 as (u & c1 & H1 & G1).
  apply bind_Ok in G1 as (i0 & c2 & _ & G1). apply bind_Ok in G1 as (w0 & c3 & _ & G1). apply ret_Ok in G1 as (G1 & _).
  inversion G1; subst m p0'. cbn [pg_my m_updates mkMsg] in *. subst o.
  unfold PsiModel.psi_gen2, psi_receive in G2. cbn [pg_other pg_my pg_x pg_y pg_z m_updates m_vct] in G2.
  destruct (recv_update deser_deletion u (pg_other p)) as [o1| | |] eqn:RU; try discriminate.
  destruct (let! cs := omap (omap deser_cand_only_paillier) w0 in omap (combine_responder V1) cs) as [ys| | |]; try discriminate.
  cbn [pg_other pg_my pg_x pg_y pg_z] in G2. destruct (del_update hash V1 es (pg_my p) tp) as [t1 o] eqn:SU1.
  destruct ((u0 <- (fun _ => o);; items <- pinitiate hash P es o1;; ws <- lift (omap (fun l => omap only_paillier (map g_c l)) items);; ret (u0, items, ws)) tp)
    as [[[[u1 items] ws] tp1]| | |] eqn:G; try discriminate.
  inversion G2; subst p' r. cbn [pg_other m_vct].
  assert (X' : del_exchanged V s n hist' t' o1).
  { unfold hist', del_exchanged. eapply one_update; [exact X| |exact RU]. rewrite <- TS. exact SU. }
  split; auto. intros IR. apply bind_Ok in G as (u2 & d1 & _ & G). apply bind_Ok in G as (i2 & d2 & G3 & G).
  apply bind_Ok in G as (w2 & d3 & G4 & G). apply ret_Ok in G as (G & _). inversion G; subst u1 items ws.
  apply lift_Ok in G4 as (G4 & _).
  assert (Q : map (@length _) w2 = map (@length _) i2).
  { apply omap_Ok_Forall2 in G4. clear - G4. induction G4 as [|a b l l' Y _ IH]; cbn [map]; auto. f_equal; auto.
    apply omap_length in Y. rewrite map_length in Y. exact Y. }
  rewrite Q. apply pinitiate_length in G3. rewrite G3. eapply del_view; eauto.
Qed.
End Deletion.

(** ** consequences
    Two runs with the same received hashes: nothing else matters but the leading
    bits of the hashes of the elements looked up (not the elements, the payloads,
    the own tree, the peer's elements, keys or coins). *)
Theorem C58_same :
  forall s n hist ks1 ks2, let d := Nat.log2 (length (concat hist)) in
    map (firstn d) ks1 = map (firstn d) ks2 -> lookups s n hist ks1 = lookups s n hist ks2.
Proof.
  intros s n hist ks1 ks2 d EQ. unfold lookups. f_equal. revert ks2 EQ.
  induction ks1 as [|k ks1 IH]; intros [|k2 ks2] EQ; try discriminate; cbn [map] in *; auto.
  inversion EQ. f_equal; auto. apply C58_prefix. unfold bits. rewrite concat_map_length. auto.
Qed.
(** But these bits do matter: if the two hashes of the peer's first update start
    with the same bit, the size of the first message tells the first bit of the
    hash of the element looked up. *)
Theorem C58_leak :
  forall (Gr : group) (A E P : Type) (hash : Z -> list bool) pk (key : A -> Z) (first : A -> M (ct Gr * P)) ser_cand mk (enc : A -> M E) ser
    mk' enc' (ser' : ct Gr -> outcome (welem Gr)) deser' s n b h1 h2 t1 t2 peer other a t my coins my' m coins',
    (forall x, length (hash x) = 256) ->
    byte2binary h1 = b :: t1 -> byte2binary h2 = b :: t2 ->
    exchanged (insert hash) mk' enc' ser' deser' s n [[h1; h2]] peer other ->
    generate_message_i hash pk key first ser_cand mk enc ser [a] my other coins = Ok ((my', m), coins') ->
    (hash (key a) = b :: t -> length (m_cands m) = s + 2 * n)
    /\ (hash (key a) = negb b :: t -> length (m_cands m) = s + n).
Proof.
  intros Gr A E P hash pk key first ser_cand mk enc ser mk' enc' ser' deser' s n b h1 h2 t1 t2 peer other a t my tp my' m tp' HL B1 B2 X G.
  assert (IR : int_range (length (concat [[h1; h2]]))) by (unfold int_range; cbn; lia).
  rewrite (C58_message_i hash HL pk key first ser_cand mk enc ser s n mk' enc' ser' deser' _ _ _ _ _ _ _ _ _ X IR G).
  unfold lookups, bits. cbn [map]. rewrite B1, B2.
  assert (W : written 0 [[b :: t1; b :: t2]] = [0; 1; if b then 3 else 2; 0; 1; if b then 3 else 2]).
  { unfold written. cbn [length Nat.add]. change (Nat.log2 2) with 1. unfold path_nodes, flat_map. cbn [seq map firstn app node_of fold_left].
    destruct b; reflexivity. }
  split; intros ->; unfold lookup_size; rewrite W; cbn [concat app length]; change (Nat.log2 2) with 1;
    unfold path_nodes; cbn [seq map firstn node_of fold_left]; destruct b; cbn; lia.
Qed.

(** ** a concrete case *)
Section Examples.
Let tp : tape := fun i => if i <? 64 then 0%Z else (Z.of_nat i + 2)%Z.
Let exG : group := zmod_group big_prime big_prime_prime.
Let ex_pk : pubkey exG := mkPk gen (gpow gen 4%Z).
(** both random hashes of the peer are zero; lookups of an even and an odd hash *)
Let peer_update := send_update (insert ex_bits) (fun x => x) (enc_plain ex_pk) ser_plain [5; 6]%Z (tree_new 2 3) tp.
Let sizes (x : Z) : option (list nat) :=
  match peer_update with
  | (_, Ok (u, _)) =>
      match recv_update deser_plain u (tree_new 2 3) with
      | Ok tr =>
          match ca_gen1 ex_bits ex_pk [x] (tree_new 2 3) tr ex_coins with
          | Ok ((_, m), _) => Some [length (m_cands m); lookups 2 3 [u_hashes u] [ex_bits x]]
          | _ => None
          end
      | _ => None
      end
  | _ => None
  end.
Example ex_leak : sizes 4%Z = Some [8; 8] /\ sizes 7%Z = Some [5; 5].
Proof. vm_compute. split; reflexivity. Qed.
(** the hypotheses of the theorems above are met by this run *)
Let zero_hashes : list bytes := [repeat 0%Z 32; repeat 0%Z 32].
Let accepted (o : tree Z * outcome (update exG * tape)) : bool :=
  match o with
  | (_, Ok (u, _)) =>
      match recv_update deser_plain u (tree_new 2 3) with
      | Ok _ => if list_eq_dec (list_eq_dec Z.eq_dec) (u_hashes u) zero_hashes then true else false
      | _ => false
      end
  | _ => false
  end.
Lemma accepted_inv o : accepted o = true ->
  exists ts u c tr, o = (ts, Ok (u, c)) /\ recv_update deser_plain u (tree_new 2 3) = Ok tr /\ u_hashes u = zero_hashes.
Proof.
  unfold accepted. destruct o as [ts [[u c]| | |]]; try discriminate.
  destruct (recv_update deser_plain u (tree_new 2 3)) as [tr| | |] eqn:RU; try discriminate.
  destruct (list_eq_dec _ _ _) as [H|]; [|discriminate]. intros _. exists ts, u, c, tr. auto.
Qed.
Example ex_accepted : accepted peer_update = true.
Proof. vm_cast_no_check (eq_refl true). Qed.
Example ex_exchanged :
  exists ts tr, exchanged (insert ex_bits) (fun x => x) (enc_plain ex_pk) ser_plain (@deser_plain exG) 2 3 [zero_hashes] ts tr.
Proof.
  destruct (accepted_inv _ ex_accepted) as (ts & u & c & tr & PU & RU & <-). exists ts, tr. change [u_hashes u] with ([] ++ [u_hashes u]).
  exact (one_update (insert ex_bits) (fun x => x) (enc_plain ex_pk) ser_plain deser_plain 2 3 [] _ _ _ _ _ _ _ _
           (no_update _ _ _ _ _ _ _) PU RU).
Qed.
End Examples.

Print Assumptions C58_lookup.
Print Assumptions C58_lookup_deletion.
Print Assumptions C58_prefix.
Print Assumptions C58_bound.
Print Assumptions C58_message_i.
Print Assumptions C58_message_ii.
Print Assumptions C58_deletion_i.
Print Assumptions C58_deletion_ii.
Print Assumptions C58_deletion_psi_i.
Print Assumptions C58_deletion_psi_ii.
Print Assumptions C58_same.
Print Assumptions C58_leak.
