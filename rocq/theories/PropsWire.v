(** * Properties C13-C15: tree files, reading messages, padding.

    Program: WireModel.v.  The small specification is the first section. *)
Require Import List Arith Lia ZArith Bool.
Import ListNotations.
From Verif Require Import Prelude TreeModel TreeSpec Coins Group ElGamalModel BytesModel BytesProofs CipherModel CipherProofs WireModel WireProofs.
Local Open Scope Z_scope.

(** ** Specification *)
Section Spec.
Context {Gr : group}.
(** what the wire form of a ciphertext with finite points is *)
Definition point_enc (w : wpoint Gr) (p : Gr) : Prop := w = WPt p /\ p <> gid.
Definition ct_encodes (w : wct Gr) (c : ct Gr) : Prop :=
  point_enc (fst w) (ct_u c) /\ point_enc (snd w) (ct_e c).
(** [K_encodes w x]: the message element [w] is of kind K and carries [x] *)
Definition plain_encodes (w : welem Gr) (c : ct Gr) : Prop :=
  exists wc, w = WNoPayload wc /\ ct_encodes wc c.
Definition any_elgamal_encodes (w : welem Gr) (c : ct Gr) : Prop :=
  exists wc, ct_encodes wc c /\ (w = WNoPayload wc \/ (exists p, w = WPaillier wc p) \/ (exists p, w = WElGamal wc p)).
Definition paillier_encodes (w : welem Gr) (x : ct Gr * Z) : Prop :=
  exists wc b, w = WPaillier wc b /\ ct_encodes wc (fst x) /\ of_bytes b = snd x.
Definition elgamal_encodes (w : welem Gr) (x : ct Gr * ct Gr) : Prop :=
  exists wc wp, w = WElGamal wc wp /\ ct_encodes wc (fst x) /\ ct_encodes wp (snd x).
Definition deletion_encodes (w : welem Gr) (x : Z * Z) : Prop :=
  exists b p, w = WDeletion b p /\ of_bytes b = fst x /\ of_bytes p = snd x.
Definition only_paillier_encodes (w : welem Gr) (x : Z) : Prop :=
  exists b, w = WOnlyPaillier b /\ of_bytes b = x.

(** reading [ws] with [deser] succeeds exactly when every element is a valid
    encoding, returning the encoded values in order, and otherwise returns
    InvalidArgument *)
Definition reads_exactly {C} (deser : welem Gr -> outcome C) (encodes : welem Gr -> C -> Prop) : Prop :=
  forall ws,
    (forall cs, deser_list deser ws = Ok cs <-> Forall2 encodes ws cs)
    /\ ((~ exists cs, Forall2 encodes ws cs) -> deser_list deser ws = Err InvalidArgument).
Definition reads_nodes_exactly {C} (deser : welem Gr -> outcome C) (encodes : welem Gr -> C -> Prop) : Prop :=
  forall ws,
    (forall n, deser_node deser ws = Ok n <-> Forall2 encodes ws (elems n) /\ node_cap n = length ws)
    /\ ((~ exists cs, Forall2 encodes ws cs) -> deser_node deser ws = Err InvalidArgument).

(** finite points, non-negative numbers *)
Definition finite_ct (c : ct Gr) : Prop := ct_u c <> gid /\ ct_e c <> gid.

(** same parameters, depth and counter, same elements in the same nodes in
    the same order *)
Definition same_tree {A} (t t' : tree A) : Prop :=
  t_stash_size t' = t_stash_size t /\ t_node_size t' = t_node_size t
  /\ t_depth t' = t_depth t /\ t_actual t' = t_actual t
  /\ map elems (t_nodes t') = map elems (t_nodes t).
Definition fits_int32 {A} (t : tree A) : Prop :=
  Forall (fun n => Z.of_nat n < 2 ^ 31) [t_stash_size t; t_node_size t; t_depth t; t_actual t].

(** the round-trip claim for one kind of encrypted tree *)
Definition file_roundtrip {C} (ser : C -> outcome (welem Gr)) (deser : welem Gr -> outcome C)
    (good : C -> Prop) : Prop :=
  forall t : tree C, fits_int32 t ->
    ((forall x, In x (contents t) -> good x) ->
     exists f t', tree_serialize (ser_node ser) t = Ok f
       /\ tree_deserialize (deser_node deser) f = Ok t'
       /\ same_tree t t')
    /\ ((exists f, tree_serialize (ser_node ser) t = Ok f) -> forall x, In x (contents t) -> good x).
End Spec.

(** ** Proofs *)
Lemma Forall2_iff {A B} (R S : A -> B -> Prop) l l' : (forall a b, R a b <-> S a b) -> (Forall2 R l l' <-> Forall2 S l l').
Proof. intros H. split; induction 1; constructor; auto; apply H; auto. Qed.

Section Proofs.
Context {Gr : group}.
Lemma ct_encodes_iff (w : wct Gr) c : ct_encodes w c <-> deser_ct w = Ok c.
Proof.
  rewrite deser_ct_iff. unfold ct_encodes, point_enc, finite, enc_ct. destruct w; cbn. split.
  - intros ((-> & ?) & (-> & ?)). auto.
  - intros (? & E). inversion E. tauto.
Qed.
Lemma reads_gen {C} (deser : welem Gr -> outcome C) encodes :
  (forall w c, deser w = Ok c <-> encodes w c) ->
  (forall w, (exists c, deser w = Ok c) \/ deser w = Err InvalidArgument) ->
  reads_exactly deser encodes /\ reads_nodes_exactly deser encodes.
Proof.
  intros H T. assert (R : reads_exactly deser encodes).
  { intros ws. unfold deser_list.
    assert (E : forall cs, omap deser ws = Ok cs <-> Forall2 encodes ws cs).
    { intros cs. rewrite omap_Ok_Forall2. apply Forall2_iff. auto. }
    split; auto. intros N. destruct (omap_total deser InvalidArgument ws T) as [(r & Er)|]; auto.
    exfalso. apply N. exists r. apply E; auto. }
  split; auto. intros ws. destruct (R ws) as (R1 & R2). unfold deser_node, deser_list in *. split.
  - intros n. split.
    + intros E. apply obind_Ok in E as (cs & E & E'). inversion E'; subst. cbn. split; auto. apply R1; auto.
    + intros (F & L). apply R1 in F. rewrite F. cbn [obind]. rewrite <- L. destruct n; auto.
  - intros N. rewrite R2; auto.
Qed.
Ltac tot := intros w; destruct w; cbn; auto;
  repeat match goal with |- context [deser_ct ?w] =>
    let c := fresh "c" in let E := fresh "E" in
    destruct (deser_ct_total w) as [(c & E)|E]; rewrite E; cbn [obind]; auto end; eauto.
Lemma deser_plain_iff w c : @deser_plain Gr w = Ok c <-> any_elgamal_encodes w c.
Proof.
  unfold any_elgamal_encodes. split.
  - destruct w; cbn; intros E; try discriminate; rewrite <- ct_encodes_iff in E; eauto 8.
  - intros (wc & E & [->|[(p & ->)|(p & ->)]]); apply ct_encodes_iff; auto.
Qed.
Lemma deser_cand_plain_iff w c : @deser_cand_plain Gr w = Ok c <-> plain_encodes w c.
Proof.
  unfold plain_encodes. split.
  - destruct w; cbn; intros E; try discriminate; rewrite <- ct_encodes_iff in E; eauto 8.
  - intros (wc & -> & E). apply ct_encodes_iff; auto.
Qed.
Lemma deser_paillier_iff w c : @deser_paillier Gr w = Ok c <-> paillier_encodes w c.
Proof.
  unfold paillier_encodes. split.
  - destruct w; cbn; intros E; try discriminate. apply obind_Ok in E as (x & E & E'). inversion E'; subst; cbn.
    rewrite <- ct_encodes_iff in E. eauto 8.
  - intros (wc & b & -> & E & E'). apply ct_encodes_iff in E. cbn. rewrite E. cbn. rewrite E'. destruct c; auto.
Qed.
Lemma deser_elgamal_iff w c : @deser_elgamal Gr w = Ok c <-> elgamal_encodes w c.
Proof.
  unfold elgamal_encodes. split.
  - destruct w; cbn; intros E; try discriminate. apply obind_Ok in E as (x & E & E').
    apply obind_Ok in E' as (y & E2 & E'). inversion E'; subst; cbn.
    rewrite <- ct_encodes_iff in E, E2. eauto 8.
  - intros (wc & b & -> & E & E'). apply ct_encodes_iff in E, E'. cbn. rewrite E. cbn. rewrite E'. destruct c; auto.
Qed.
Lemma deser_deletion_iff w c : @deser_deletion Gr w = Ok c <-> deletion_encodes w c.
Proof.
  unfold deletion_encodes. split.
  - destruct w; cbn; intros E; inversion E; subst; cbn. eauto.
  - intros (b & p & -> & E & E'). cbn. rewrite E, E'. destruct c; auto.
Qed.
Lemma deser_only_iff w c : @deser_cand_only_paillier Gr w = Ok c <-> only_paillier_encodes w c.
Proof.
  unfold only_paillier_encodes. split.
  - destruct w; cbn; intros E; inversion E; subst; cbn. eauto.
  - intros (b & -> & E). cbn. rewrite E. auto.
Qed.

(** tree files *)
Lemma omap_sern {A N} (sern : node A -> outcome N) ns r : omap sern ns = Ok r -> Forall2 (fun n w => sern n = Ok w) ns r.
Proof. apply omap_Ok_Forall2. Qed.
Lemma file_gen {C} (ser : C -> outcome (welem Gr)) deser (good : C -> Prop) :
  (forall x, good x -> exists w, ser x = Ok w /\ deser w = Ok x) ->
  (forall x w, ser x = Ok w -> good x) ->
  file_roundtrip ser deser good.
Proof.
  intros H1 H2 t F. unfold fits_int32 in F.
  inversion_clear F as [|? ? F1 F']. inversion_clear F' as [|? ? F2 F'']. inversion_clear F'' as [|? ? F3 F'].
  inversion_clear F' as [|? ? F4 _]. split.
  - intros G.
    assert (X : forall n, In n (t_nodes t) -> exists w, ser_node ser n = Ok w
               /\ exists n', deser_node deser w = Ok n' /\ elems n' = elems n).
    { intros n Hn. destruct (omap_some ser (elems n)) as (w & E).
      { intros x Hx. destruct (H1 x) as (w & E & _); eauto. apply G. apply in_flat_map. eauto. }
      exists w. split; auto. unfold deser_node. rewrite (omap_roundtrip ser deser (elems n) w); auto.
      - eexists; split; reflexivity.
      - intros x y Hxy. destruct (H1 x) as (w' & E1 & E2); eauto. congruence. }
    assert (Y : exists ws, omap (ser_node ser) (t_nodes t) = Ok ws /\
       exists ns', omap (deser_node deser) ws = Ok ns' /\ map elems ns' = map elems (t_nodes t)).
    { clear - X. induction (t_nodes t) as [|n ns IH].
      - exists []. split; auto. exists []. auto.
      - destruct IH as (ws & E & ns' & E2 & E3). { intros; apply X; right; auto. }
        destruct (X n) as (w & E4 & n' & E5 & E6); [left; auto|].
        exists (w :: ws). cbn [omap]. rewrite E4. cbn [obind]. rewrite E. cbn [obind]. split; auto.
        exists (n' :: ns'). rewrite E5. cbn [obind]. rewrite E2. cbn [obind map]. rewrite E6, E3. auto. }
    destruct Y as (ws & E & ns' & E2 & E3).
    eexists _, _. unfold tree_serialize. rewrite E. cbn [obind]. split; [reflexivity|].
    unfold tree_deserialize. cbn [f_nodes f_stash f_node f_depth f_actual]. rewrite E2. cbn [obind]. split; [reflexivity|].
    unfold same_tree; cbn. rewrite !to_int32_small, !Nat2Z.id by auto. auto.
  - intros (f & E) x Hx. unfold tree_serialize in E. apply obind_Ok in E as (ws & E & _).
    apply in_flat_map in Hx as (n & Hn & Hx). destruct (omap_inv _ _ _ E n Hn) as (w & E').
    destruct (omap_inv _ _ _ E' x Hx) as (y & E''). eauto.
Qed.
Lemma ser_deser_ct (c : ct Gr) : finite_ct c -> exists w, ser_ct c = Ok w /\ deser_ct w = Ok c.
Proof. intros F. exists (enc_ct c). split; [apply ser_ct_ok; auto|]. apply deser_ct_iff. auto. Qed.
Lemma ser_ct_finite (c : ct Gr) w : ser_ct c = Ok w -> finite_ct c.
Proof. intros E. apply ser_ct_inv in E. apply E. Qed.
Lemma to_bytes_of x : 0 <= x -> exists b, to_bytes x = Ok b /\ of_bytes b = x.
Proof. intros H. destruct (bytes_roundtrip x H) as (b & E & E1 & _). eauto. Qed.
Lemma to_bytes_nonneg x b : to_bytes x = Ok b -> 0 <= x.
Proof. unfold to_bytes. destruct (Z.ltb_spec x 0); [discriminate|auto]. Qed.
End Proofs.

(** ** C13 *)
Theorem C13_encrypted_files :
  forall (Gr : group),
    file_roundtrip ser_plain (@deser_plain Gr) finite_ct
    /\ file_roundtrip ser_paillier (@deser_paillier Gr) (fun x => finite_ct (fst x) /\ 0 <= snd x)
    /\ file_roundtrip ser_elgamal (@deser_elgamal Gr) (fun x => finite_ct (fst x) /\ finite_ct (snd x))
    /\ file_roundtrip ser_deletion (@deser_deletion Gr) (fun x => 0 <= fst x /\ 0 <= snd x).
Proof.
  intros Gr. split; [|split; [|split]]; apply file_gen.
  - intros x F. destruct (ser_deser_ct x F) as (w & E & E'). exists (WNoPayload w). unfold ser_plain. rewrite E. auto.
  - intros x w E. unfold ser_plain in E. apply obind_Ok in E as (w' & E & _). eapply ser_ct_finite; eauto.
  - intros x (F & P). destruct (ser_deser_ct _ F) as (w & E & E'). destruct (to_bytes_of _ P) as (b & E1 & E2).
    exists (WPaillier w b). unfold ser_paillier. rewrite E. cbn [obind]. rewrite E1. split; auto. cbn. rewrite E'. cbn.
    rewrite E2. destruct x; auto.
  - intros x w E. unfold ser_paillier in E. apply obind_Ok in E as (w' & E & E'). apply obind_Ok in E' as (b & E' & _).
    split; [eapply ser_ct_finite; eauto|eapply to_bytes_nonneg; eauto].
  - intros x (F & P). destruct (ser_deser_ct _ F) as (w & E & E'). destruct (ser_deser_ct _ P) as (b & E1 & E2).
    exists (WElGamal w b). unfold ser_elgamal. rewrite E. cbn [obind]. rewrite E1. split; auto. cbn. rewrite E'. cbn.
    rewrite E2. destruct x; auto.
  - intros x w E. unfold ser_elgamal in E. apply obind_Ok in E as (w' & E & E'). apply obind_Ok in E' as (b & E' & _).
    split; eapply ser_ct_finite; eauto.
  - intros x (F & P). destruct (to_bytes_of _ F) as (w & E & E'). destruct (to_bytes_of _ P) as (b & E1 & E2).
    exists (WDeletion w b). unfold ser_deletion. rewrite E. cbn [obind]. rewrite E1. split; auto. cbn. rewrite E', E2. destruct x; auto.
  - intros x w E. unfold ser_deletion in E. apply obind_Ok in E as (w' & E & E'). apply obind_Ok in E' as (b & E' & _).
    split; eapply to_bytes_nonneg; eauto.
Qed.

(** trees that agree in this sense answer every lookup alike and keep agreeing
    under every later update message (also in whether it is refused) *)
Lemma nodeAt_elems {A} (ns ns' : list (node A)) u : map elems ns' = map elems ns -> elems (nodeAt ns' u) = elems (nodeAt ns u).
Proof.
  intros E. unfold nodeAt. change (@nil A) with (elems (@node_new A 0)) in *.
  rewrite <- !(map_nth elems). rewrite E. reflexivity.
Qed.
Lemma same_tree_length {A} (t t' : tree A) : same_tree t t' -> length (t_nodes t') = length (t_nodes t).
Proof. intros (_ & _ & _ & _ & E). apply (f_equal (@length _)) in E. rewrite !map_length in E. auto. Qed.
Lemma same_tree_add {A} (t t' : tree A) : same_tree t t' -> same_tree (add_new_layer t) (add_new_layer t').
Proof.
  intros S. pose proof (same_tree_length _ _ S) as L. destruct S as (E1 & E2 & E3 & E4 & E5).
  unfold same_tree, add_new_layer; cbn. rewrite E1, E2, E3, E4, L, !map_app, E5. auto.
Qed.
Lemma same_tree_grow_loop {A} f k : forall (t t' : tree A), same_tree t t' -> same_tree (grow_loop f k t) (grow_loop f k t').
Proof.
  induction f as [|f IH]; intros t t' S; cbn [grow_loop]; auto. pose proof S as (_ & _ & E3 & E4 & _). rewrite E3, E4.
  destruct (_ <=? _)%nat; auto. apply IH, same_tree_add, S.
Qed.
Lemma same_tree_grow {A} k (t t' : tree A) : same_tree t t' -> same_tree (grow k t) (grow k t').
Proof. intros S. unfold grow. pose proof S as (_ & _ & _ & E4 & _). rewrite E4. apply same_tree_grow_loop, S. Qed.
Lemma map_set_nth {A B} (f : A -> B) i x l : map f (set_nth i x l) = set_nth i (f x) (map f l).
Proof. revert i; induction l; intros [|i]; simpl; f_equal; auto. Qed.

Theorem C13_lookups_agree :
  forall (A : Type) (t t' : tree A), same_tree t t' ->
    (forall h, get_path h t' = get_path h t)
    /\ (forall new_nodes hsh,
          match replace_nodes new_nodes hsh t, replace_nodes new_nodes hsh t' with
          | Ok t1, Ok t1' => same_tree t1 t1'
          | UB, UB => True
          | _, _ => False
          end).
Proof.
  intros A t t' S. split.
  - intros h. destruct S as (_ & _ & E3 & _ & E5). unfold get_path. rewrite E3.
    apply flat_map_ext. intros u. apply nodeAt_elems; auto.
  - intros new hsh. unfold replace_nodes. pose proof (same_tree_grow (length hsh) t t' S) as G.
    destruct G as (E1 & E2 & E3 & E4 & E5). rewrite E3.
    destruct (negb _); auto. destruct (_ <? _)%nat; auto. unfold same_tree; cbn [t_stash_size t_node_size t_depth t_actual t_nodes]. rewrite E1, E2, E4.
    split; auto. split; auto. split; auto. split; auto.
    revert E5. generalize (t_nodes (grow (length hsh) t)) (t_nodes (grow (length hsh) t')).
    generalize (combine (path_indices (t_depth (grow (length hsh) t)) hsh) new). intros ps.
    induction ps as [|p ps IH]; intros ns ns' E5; cbn [fold_left]; auto.
    apply IH. rewrite !map_set_nth, E5. auto.
Qed.

(** plaintext trees come back exactly, capacities included *)
Definition within_capacity {A} (n : node A) : Prop :=
  (length (elems n) <= node_cap n)%nat /\ Z.of_nat (node_cap n) < 2 ^ 31.
Lemma pfile_gen {A} (sern : node A -> outcome pnode) desern (good : A -> Prop) :
  (forall n, within_capacity n -> (forall x, In x (elems n) -> good x) -> exists w, sern n = Ok w /\ desern w = Ok n) ->
  (forall n, (exists x, In x (elems n) /\ ~ good x) -> sern n = Abort) ->
  (forall n, (exists w, sern n = Ok w) \/ sern n = Abort) ->
  forall t : tree A, fits_int32 t -> Forall within_capacity (t_nodes t) ->
   ((forall x, In x (contents t) -> good x) ->
      exists f, tree_serialize sern t = Ok f /\ tree_deserialize desern f = Ok t)
   /\ ((exists x, In x (contents t) /\ ~ good x) -> tree_serialize sern t = Abort).
Proof.
  intros H1 H2 H3 t F W. unfold fits_int32 in F.
  inversion_clear F as [|? ? F1 F']. inversion_clear F' as [|? ? F2 F'']. inversion_clear F'' as [|? ? F3 F'].
  inversion_clear F' as [|? ? F4 _]. split.
  - intros G.
    assert (Y : exists ws, omap sern (t_nodes t) = Ok ws /\ omap desern ws = Ok (t_nodes t)).
    { unfold contents in G. revert W G. clear - H1. induction (t_nodes t) as [|n ns IH]; intros W G.
      - exists []. auto.
      - inversion_clear W. destruct IH as (ws & E & E2); auto. { intros; apply G. cbn. apply in_or_app; auto. }
        destruct (H1 n) as (w & E4 & E5); auto. { intros; apply G. cbn. apply in_or_app; auto. }
        exists (w :: ws). cbn [omap]. rewrite E4. cbn [obind]. rewrite E. cbn [obind]. split; auto.
        rewrite E5. cbn [obind]. rewrite E2. auto. }
    destruct Y as (ws & E & E2). eexists. unfold tree_serialize. rewrite E. cbn [obind]. split; [reflexivity|].
    unfold tree_deserialize. cbn [f_nodes f_stash f_node f_depth f_actual]. rewrite E2. cbn [obind].
    rewrite !to_int32_small, !Nat2Z.id by auto. destruct t; auto.
  - intros (x & Hx & N). unfold tree_serialize. replace (omap sern (t_nodes t)) with (@Abort (list pnode)); auto.
    symmetry. apply in_flat_map in Hx as (n & Hn & Hx). revert Hn. clear - H2 H3 Hx N. induction (t_nodes t) as [|m ns IH]; intros Hn; [destruct Hn|].
    cbn [omap]. destruct Hn as [->|Hn].
    + rewrite H2; eauto.
    + destruct (H3 m) as [(w & ->)|E]; [|rewrite E; auto]. cbn [obind]. rewrite IH; auto.
Qed.
Lemma omap_abort_total {A B} (f : A -> outcome B) l : (forall x, (exists y, f x = Ok y) \/ f x = Abort) -> (exists r, omap f l = Ok r) \/ omap f l = Abort.
Proof.
  intros H. induction l as [|x l IH]; simpl; eauto.
  destruct (H x) as [(y & ->)| ->]; auto. cbn [obind]. destruct IH as [(r & ->)| ->]; auto. left. cbn. eauto.
Qed.
Lemma to_bytes_total x : (exists b, to_bytes x = Ok b) \/ to_bytes x = Abort.
Proof. unfold to_bytes. destruct (x <? 0); eauto. Qed.

Theorem C13_plaintext_files :
  (forall t : tree Z, fits_int32 t -> Forall within_capacity (t_nodes t) ->
     ((forall x, In x (contents t) -> 0 <= x) ->
       exists f, tree_serialize ser_pnode t = Ok f /\ tree_deserialize deser_pnode f = Ok t)
     /\ ((exists x, In x (contents t) /\ ~ 0 <= x) -> tree_serialize ser_pnode t = Abort))
  /\ (forall t : tree (Z * Z), fits_int32 t -> Forall within_capacity (t_nodes t) ->
     ((forall x, In x (contents t) -> 0 <= fst x /\ 0 <= snd x) ->
       exists f, tree_serialize ser_pnode_payload t = Ok f /\ tree_deserialize deser_pnode_payload f = Ok t)
     /\ ((exists x, In x (contents t) /\ ~ (0 <= fst x /\ 0 <= snd x)) -> tree_serialize ser_pnode_payload t = Abort)).
Proof.
  split; apply pfile_gen.
  - intros n (W1 & W2) G. unfold ser_pnode.
    assert (X : exists es, omap (fun x => let! b := to_bytes x in Ok (b, @nil Z)) (elems n) = Ok es /\ map (fun e : bytes * bytes => of_bytes (fst e)) es = elems n).
    { revert G. clear. induction (elems n) as [|x l IH]; intros G; cbn [omap]. { exists []; auto. }
      destruct (to_bytes_of x) as (b & E & E'); [apply G; left; auto|]. destruct IH as (es & E2 & E3); [intros; apply G; right; auto|].
      exists ((b, []) :: es). rewrite E. cbn [obind]. rewrite E2. cbn [obind map fst]. rewrite E', E3. auto. }
    destruct X as (es & E & E'). rewrite E. cbn [obind]. eexists; split; [reflexivity|]. unfold deser_pnode, add_all. cbn [fst snd].
    rewrite E', to_int32_small, Nat2Z.id, firstn_all2 by auto. destruct n; auto.
  - intros n (x & Hx & N). unfold ser_pnode.
    replace (omap (fun x => let! b := to_bytes x in Ok (b, @nil Z)) (elems n)) with (@Abort (list (bytes * bytes))); auto.
    symmetry. revert Hx. induction (elems n) as [|y l IH]; intros Hx; [destruct Hx|]. cbn [omap]. destruct Hx as [->|Hx].
    + unfold to_bytes. destruct (Z.ltb_spec x 0); auto. lia.
    + unfold to_bytes at 1. destruct (y <? 0); auto. cbn [obind]. rewrite IH; auto.
  - intros n. unfold ser_pnode. destruct (omap_abort_total (fun x => let! b := to_bytes x in Ok (b, @nil Z)) (elems n)) as [(r & ->)| ->]; cbn; eauto.
    intros x. destruct (to_bytes_total x) as [(b & ->)| ->]; cbn; eauto.
  - intros n (W1 & W2) G. unfold ser_pnode_payload.
    assert (X : exists es, omap (fun x : Z * Z => let! b := to_bytes (fst x) in let! p := to_bytes (snd x) in Ok (b, p)) (elems n) = Ok es
       /\ map (fun e => (of_bytes (fst e), of_bytes (snd e))) es = elems n).
    { revert G. clear. induction (elems n) as [|x l IH]; intros G; cbn [omap]. { exists []; auto. }
      destruct (G x) as (G1 & G2); [left; auto|].
      destruct (to_bytes_of _ G1) as (b & E & E'). destruct (to_bytes_of _ G2) as (p & E1 & E1').
      destruct IH as (es & E2 & E3); [intros; apply G; right; auto|].
      exists ((b, p) :: es). rewrite E. cbn [obind]. rewrite E1. cbn [obind]. rewrite E2. cbn [obind map fst snd]. rewrite E', E1', E3. destruct x; auto. }
    destruct X as (es & E & E'). rewrite E. cbn [obind]. eexists; split; [reflexivity|]. unfold deser_pnode_payload, add_all. cbn [fst snd].
    rewrite E', to_int32_small, Nat2Z.id, firstn_all2 by auto. destruct n; auto.
  - intros n (x & Hx & N). unfold ser_pnode_payload.
    replace (omap (fun x : Z * Z => let! b := to_bytes (fst x) in let! p := to_bytes (snd x) in Ok (b, p)) (elems n)) with (@Abort (list (bytes * bytes))); auto.
    symmetry. revert Hx. induction (elems n) as [|y l IH]; intros Hx; [destruct Hx|]. cbn [omap]. destruct Hx as [->|Hx].
    + unfold to_bytes. destruct (Z.ltb_spec (fst x) 0); auto. cbn [obind]. destruct (Z.ltb_spec (snd x) 0); auto. lia.
    + unfold to_bytes at 1 2. destruct (fst y <? 0); auto. cbn [obind]. destruct (snd y <? 0); auto. cbn [obind]. rewrite IH; auto.
  - intros n. unfold ser_pnode_payload. destruct (omap_abort_total (fun x : Z * Z => let! b := to_bytes (fst x) in let! p := to_bytes (snd x) in Ok (b, p)) (elems n)) as [(r & ->)| ->]; cbn; eauto.
    intros x. destruct (to_bytes_total (fst x)) as [(b & ->)| ->]; cbn; eauto. destruct (to_bytes_total (snd x)) as [(b' & ->)| ->]; cbn; eauto.
Qed.

(** ** C14 *)
Theorem C14_node_kinds :
  forall (Gr : group),
    reads_nodes_exactly (@deser_plain Gr) any_elgamal_encodes
    /\ reads_nodes_exactly (@deser_paillier Gr) paillier_encodes
    /\ reads_nodes_exactly (@deser_elgamal Gr) elgamal_encodes
    /\ reads_nodes_exactly (@deser_deletion Gr) deletion_encodes.
Proof.
  intros Gr. split; [|split; [|split]]; apply reads_gen.
  - apply deser_plain_iff.
  - intros [c|c p|c p|e p|e|]; cbn; auto using deser_ct_total.
  - apply deser_paillier_iff.
  - intros [c|c p|c p|e p|e|]; cbn; auto. destruct (deser_ct_total c) as [(x & ->)| ->]; cbn; eauto.
  - apply deser_elgamal_iff.
  - intros [c|c p|c p|e p|e|]; cbn; auto. destruct (deser_ct_total c) as [(x & ->)| ->]; cbn; eauto.
    destruct (deser_ct_total p) as [(y & ->)| ->]; cbn; eauto.
  - apply deser_deletion_iff.
  - intros [c|c p|c p|e p|e|]; cbn; eauto.
Qed.
Theorem C14_candidate_kinds :
  forall (Gr : group),
    reads_exactly (@deser_cand_plain Gr) plain_encodes
    /\ reads_exactly (@deser_cand_paillier Gr) paillier_encodes
    /\ reads_exactly (@deser_cand_elgamal Gr) elgamal_encodes
    /\ reads_exactly (@deser_cand_only_paillier Gr) only_paillier_encodes.
Proof.
  intros Gr. split; [|split; [|split]]; apply reads_gen.
  - apply deser_cand_plain_iff.
  - intros [c|c p|c p|e p|e|]; cbn; auto using deser_ct_total.
  - apply deser_paillier_iff.
  - intros [c|c p|c p|e p|e|]; cbn; auto. destruct (deser_ct_total c) as [(x & ->)| ->]; cbn; eauto.
  - apply deser_elgamal_iff.
  - intros [c|c p|c p|e p|e|]; cbn; auto. destruct (deser_ct_total c) as [(x & ->)| ->]; cbn; eauto.
    destruct (deser_ct_total p) as [(y & ->)| ->]; cbn; eauto.
  - apply deser_only_iff.
  - intros [c|c p|c p|e p|e|]; cbn; eauto.
Qed.

(** ** C15 *)
Theorem C15_padding :
  forall (coins : tape) (n : node Z) (m : node (Z * Z)),
    (exists n' rest ps, pad_node (fun x => x) n coins = Ok (n', rest)
       /\ elems n' = elems n ++ ps
       /\ node_cap n' = node_cap n
       /\ ((length (elems n) <= node_cap n)%nat -> length (elems n') = node_cap n)
       /\ (forall p, In p ps -> 10 ^ 15 <= p < 2 * 10 ^ 15))
    /\ (exists m' rest ps, pad_node pad_payload m coins = Ok (m', rest)
       /\ elems m' = elems m ++ ps
       /\ node_cap m' = node_cap m
       /\ ((length (elems m) <= node_cap m)%nat -> length (elems m') = node_cap m)
       /\ (forall p, In p ps -> 10 ^ 15 <= fst p < 2 * 10 ^ 15 /\ snd p = 0)).
Proof.
  intros coins n m. split.
  - destruct (pad_node_total (fun x : Z => x) n coins) as (n' & r & E). exists n', r.
    destruct (pad_node_spec _ _ _ _ _ E) as (C & ps & E1 & F & L). exists ps. rewrite map_id in E1.
    split; auto. split; auto. split; auto. split.
    + intros H. rewrite E1, app_length, L. lia.
    + intros p Hp. rewrite Forall_forall in F. apply F; auto.
  - destruct (pad_node_total pad_payload m coins) as (n' & r & E). exists n', r.
    destruct (pad_node_spec _ _ _ _ _ E) as (C & ps & E1 & F & L). exists (map pad_payload ps).
    split; auto. split; auto. split; auto. split.
    + intros H. rewrite E1, app_length, map_length, L. lia.
    + intros p Hp. apply in_map_iff in Hp as (x & <- & Hx). rewrite Forall_forall in F. cbn. split; auto. apply F; auto.
Qed.
(** generated set elements always exist, are 16 decimal digits, and lie below
    every pad *)
Theorem C15_no_collision :
  forall coins, exists s rest, random_set_element coins = Ok (s, rest)
    /\ length s = 16%nat
    /\ 0 <= numeric_string2uint s < 10 ^ 15
    /\ forall coins' p rest', random_pad_element coins' = Ok (p, rest') -> p <> numeric_string2uint s.
Proof.
  intros coins. unfold random_set_element. destruct (random_numeric_string_total false 16 coins) as (s & r & E).
  exists s, r. destruct (random_numeric_string_spec _ _ _ _ E) as (L & B). split; auto. split; auto. split; auto.
  intros c' p r' Hp. apply random_pad_range in Hp. unfold pad_range in Hp. lia.
Qed.

(** ** Non-vacuity *)
Section Examples.
Definition ex_tree : tree Z := mkTree 3 1 1 2 [mkNode [7; 0] 3; mkNode [300] 1; node_new 1; node_new 1].
Example ex_fits : fits_int32 ex_tree.
Proof. repeat constructor; vm_compute; reflexivity. Qed.
Example ex_cap : Forall within_capacity (t_nodes ex_tree).
Proof. repeat constructor; vm_compute; reflexivity. Qed.
Example ex_file : tree_serialize ser_pnode ex_tree =
  Ok (mkFile 3 1 2 1 [([([7], []); ([], [])], 3); ([([1; 44], [])], 1); ([], 1); ([], 1)]).
Proof. vm_compute. reflexivity. Qed.
Example ex_file_neg : tree_serialize ser_pnode (mkTree 1 1 0 1 [mkNode [-5] 1; node_new 1]) = Abort.
Proof. vm_compute. reflexivity. Qed.
Example ex_pad : exists n rest, pad_node (fun x => x) (mkNode [5] 3) (fun i => Z.of_nat i) = Ok (n, rest)
  /\ elems n = [5; 1012345678901234; 1567890123456789].
Proof. eexists _, _. split; vm_compute; reflexivity. Qed.
Example ex_read_ok (Gr : group) : deser_list (@deser_cand_plain Gr) [WNoPayload (WPt gen, WPt gen)] = Ok [mkCt gen gen].
Proof.
  apply (proj1 (C14_candidate_kinds Gr)). repeat constructor. eexists; split; [reflexivity|].
  repeat split; apply gen_nontrivial.
Qed.
Example ex_read_bad (Gr : group) : deser_list (@deser_cand_plain Gr) [WNoPayload (WPt gen, WPt gen); WUnset] = Err InvalidArgument.
Proof.
  apply (proj1 (C14_candidate_kinds Gr)). intros (cs & F). inversion_clear F as [|? ? ? ? _ F']. inversion_clear F' as [|? ? ? ? X _].
  destruct X as (? & E & _). discriminate.
Qed.
Example ex_enc_tree (Gr : group) : exists f t',
  tree_serialize (ser_node ser_plain) (mkTree 1 1 0 1 [mkNode [mkCt (@gen Gr) gen] 1; node_new 1]) = Ok f
  /\ tree_deserialize (deser_node deser_plain) f = Ok t'
  /\ same_tree (mkTree 1 1 0 1 [mkNode [mkCt (@gen Gr) gen] 1; node_new 1]) t'.
Proof.
  apply (proj1 (C13_encrypted_files Gr)).
  - repeat constructor; vm_compute; reflexivity.
  - intros x [<-|[]]. split; apply gen_nontrivial.
Qed.
End Examples.

Print Assumptions C13_encrypted_files.
Print Assumptions C13_lookups_agree.
Print Assumptions C13_plaintext_files.
Print Assumptions C14_node_kinds.
Print Assumptions C14_candidate_kinds.
Print Assumptions C15_padding.
Print Assumptions C15_no_collision.
