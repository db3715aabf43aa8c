(** Trees written by the setup program and read back (SetupModel). *)
Require Import List Arith Lia ZArith Permutation Bool Znumtheory.
Import ListNotations.
From Verif Require Import Prelude TreeModel TreeSpec TreeIndex TreeProofs TreeHistory Coins Group ElGamalModel ElGamalProofs BytesModel BytesProofs CipherModel CipherProofs PaillierModel PaillierProofs PropsPaillier WireModel WireProofs PropsWire SyncModel SyncSpec SyncProofs KindProofs PropsSync FlagModel AddModel AddSpec AddProofs SetupModel.
Local Open Scope Z_scope.

Lemma omap_good {A B} (f : A -> outcome B) l : (forall x, In x l -> match f x with Ok _ | Err _ => True | _ => False end) ->
  match omap f l with Ok _ | Err _ => True | _ => False end.
Proof.
  induction l as [|x l IH]; intros H; cbn [omap]; auto. pose proof (H x (or_introl eq_refl)) as Hx.
  destruct (f x); cbn [obind]; auto. specialize (IH (fun y Hy => H y (or_intror Hy))). destruct (omap f l); cbn [obind]; auto.
Qed.
Lemma nodeAt_in {A} (ns : list (node A)) n : In n ns -> exists v, (v < length ns)%nat /\ nodeAt ns v = n.
Proof. intros H. apply (In_nth _ _ (node_new 0)) in H as (v & L & Hv). exists v. auto. Qed.

Section Mirror.
Context {A C : Type}.
Variable Rep : A -> C -> Prop.
Variable is_pad : A -> Prop.
Lemma mirrors_entry ts tr c : mirrors Rep is_pad ts tr -> In c (contents tr) -> exists a, Rep a c.
Proof.
  intros (_ & _ & _ & _ & L & M) H. apply in_flat_map in H as (n & Hn & Hc). apply nodeAt_in in Hn as (v & Lv & <-).
  destruct (M v) as [(_ & Q)|(pads & _ & _ & F)]; [lia| |].
  - unfold entries_at in Q. unfold nodeAt in Hc. rewrite Q in Hc. inversion Hc.
  - unfold entries_at in F. unfold nodeAt in Hc. revert F Hc. generalize (elems (nth v (t_nodes ts) (node_new 0)) ++ pads), (elems (nth v (t_nodes tr) (node_new 0))).
    intros l l' F. induction F; intros [].
    + subst. eauto.
    + auto.
Qed.
Lemma entries_same {B} (t t' : tree B) v : same_tree t t' -> entries_at t' v = entries_at t v.
Proof. intros (_ & _ & _ & _ & X). unfold entries_at. apply (nodeAt_elems (t_nodes t) (t_nodes t') v X). Qed.
Lemma mirrors_same ts tr tr' : mirrors Rep is_pad ts tr -> same_tree tr tr' -> mirrors Rep is_pad ts tr'.
Proof.
  intros (M1 & M2 & M3 & M4 & M5 & M6) S. pose proof (same_tree_length _ _ S) as L. pose proof S as (S1 & S2 & S3 & S4 & _).
  unfold mirrors. rewrite S1, S2, S3, S4, L. do 5 (split; [auto|]). intros v Hv. rewrite (entries_same _ _ v S). auto.
Qed.
End Mirror.

(** replacing every entry by its image *)
Definition nmap {A B} (f : A -> B) (n : node A) : node B := mkNode (map f (elems n)) (node_cap n).
Definition tmap {A B} (f : A -> B) (t : tree A) : tree B :=
  mkTree (t_stash_size t) (t_node_size t) (t_depth t) (t_actual t) (map (nmap f) (t_nodes t)).
Lemma nodeAt_nmap {A B} (f : A -> B) ns v : nodeAt (map (nmap f) ns) v = nmap f (nodeAt ns v).
Proof. unfold nodeAt. change (@node_new B 0) with (nmap f (@node_new A 0)). apply map_nth. Qed.
Lemma contents_tmap {A B} (f : A -> B) t : contents (tmap f t) = map f (contents t).
Proof.
  unfold contents, tmap; cbn [t_nodes]. induction (t_nodes t) as [|n ns IH]; auto. cbn [map flat_map]. rewrite map_app, IH. reflexivity.
Qed.
Lemma side_tmap {A B} (f : A -> B) (hash : B -> list bool) t H : side (fun a => hash (f a)) t H -> side hash (tmap f t) (map f H).
Proof.
  intros (R & lost & P). split.
  - destruct R as [[W1 W2 W3 W4] R2 R3 R4]. rewrite map_length. constructor; auto. constructor.
    + cbn [t_nodes tmap t_depth]. rewrite map_length. auto.
    + cbn [t_nodes tmap]. intros v. rewrite map_length, nodeAt_nmap. apply W2.
    + cbn [t_nodes tmap]. intros v. rewrite nodeAt_nmap. cbn [nmap elems node_cap]. rewrite map_length. apply W3.
    + cbn [t_nodes tmap t_depth]. intros v x. rewrite nodeAt_nmap. cbn [nmap elems]. intros Hx. apply in_map_iff in Hx as (y & <- & Hy). apply (W4 v y Hy).
  - exists (map f lost). rewrite contents_tmap, <- map_app. apply Permutation_map. auto.
Qed.
Lemma no_overflow_tmap {A B} (f : A -> B) t : no_overflow (tmap f t) <-> no_overflow t.
Proof. unfold no_overflow. rewrite contents_tmap, map_length. reflexivity. Qed.
Lemma mirrors_tmap {A B C D} (f : A -> B) (g : C -> D) (Rep : A -> C -> Prop) (Rep' : B -> D -> Prop) (pad : A -> Prop) (pad' : B -> Prop) ts tr :
  (forall a c, Rep a c -> Rep' (f a) (g c)) -> (forall a, pad a -> pad' (f a)) -> mirrors Rep pad ts tr -> mirrors Rep' pad' (tmap f ts) (tmap g tr).
Proof.
  intros HR HP (M1 & M2 & M3 & M4 & M5 & M6). unfold mirrors. cbn [tmap t_stash_size t_node_size t_depth t_actual t_nodes]. rewrite !map_length.
  do 5 (split; [auto|]). intros v Hv.
  assert (EA : forall X Y (h : X -> Y) (t : tree X), entries_at (tmap h t) v = map h (entries_at t v)).
  { intros X Y h t. unfold entries_at, tmap; cbn [t_nodes]. fold (nodeAt (map (nmap h) (t_nodes t)) v). rewrite nodeAt_nmap. reflexivity. }
  rewrite !EA. destruct (M6 v Hv) as [(Q1 & Q2)|(pads & F & L & F2)].
  - left. rewrite Q1, Q2. auto.
  - right. exists (map f pads). split; [|split].
    + apply Forall_map. eapply Forall_impl; [|exact F]. auto.
    + rewrite <- map_app, map_length. unfold capacity in *. cbn [tmap t_stash_size t_node_size]. auto.
    + rewrite <- map_app. clear - F2 HR. induction F2; cbn [map]; auto.
Qed.

(** ** reading a file with a reader that forgets the payload *)
Lemma omap_map {X A B} (f : X -> outcome A) (f' : X -> outcome B) (g : A -> B) l r :
  (forall x y, f x = Ok y -> f' x = Ok (g y)) -> omap f l = Ok r -> omap f' l = Ok (map g r).
Proof.
  intros H. revert r. induction l as [|x l IH]; cbn [omap]; intros r E; [inversion E; auto|].
  apply obind_Ok in E as (y & E1 & E2). apply obind_Ok in E2 as (ys & E2 & E3). inversion E3; subst. rewrite (H _ _ E1). cbn [obind]. rewrite (IH _ E2). reflexivity.
Qed.
Lemma deser_node_map {Gr : group} {A B} (de : welem Gr -> outcome A) (de' : welem Gr -> outcome B) (g : A -> B) :
  (forall w c, de w = Ok c -> de' w = Ok (g c)) -> forall ws n, deser_node de ws = Ok n -> deser_node de' ws = Ok (nmap g n).
Proof.
  intros H ws n E. unfold deser_node in *. apply obind_Ok in E as (cs & E1 & E2). inversion E2; subst. rewrite (omap_map _ de' g _ _ H E1). reflexivity.
Qed.
Lemma tree_deserialize_map {A B N} (de : N -> outcome (node A)) (de' : N -> outcome (node B)) (g : A -> B) f t :
  (forall x n, de x = Ok n -> de' x = Ok (nmap g n)) -> tree_deserialize de f = Ok t -> tree_deserialize de' f = Ok (tmap g t).
Proof.
  intros H E. unfold tree_deserialize in *. apply obind_Ok in E as (ns & E1 & E2). inversion E2; subst. rewrite (omap_map _ de' (nmap g) _ _ H E1). reflexivity.
Qed.
Lemma deser_pnode_map p n : deser_pnode_payload p = Ok n -> deser_pnode p = Ok (nmap fst n).
Proof.
  unfold deser_pnode_payload, deser_pnode. intros E. inversion E. unfold add_all, nmap; cbn [elems node_cap]. rewrite <- firstn_map, map_map. reflexivity.
Qed.
Lemma deser_elgamal_fst {Gr : group} (w : welem Gr) c : deser_elgamal w = Ok c -> deser_plain w = Ok (fst c).
Proof. destruct w; cbn; try discriminate. intros E. apply obind_Ok in E as (x & E1 & E2). apply obind_Ok in E2 as (y & E2 & E3). inversion E3. auto. Qed.
Lemma deser_paillier_fst {Gr : group} (w : welem Gr) c : deser_paillier w = Ok c -> deser_plain w = Ok (fst c).
Proof. destruct w; cbn; try discriminate. intros E. apply obind_Ok in E as (x & E1 & E2). inversion E2. auto. Qed.

(** ** what GenerateTrees leaves behind *)
Section Gen.
Context {Gr : group} {A C : Type}.
Variables stash node : nat.
Hypothesis SS : Z.of_nat stash < 2 ^ 31.
Hypothesis NS : Z.of_nat node < 2 ^ 31.
Variable hash : A -> list bool.
Variable mk : Z -> A.
Variable enc : A -> M C.
Variable ser : C -> outcome (welem Gr).
Variable deser : welem Gr -> outcome C.
Variable serp : TreeModel.node A -> outcome pnode.
Variable deserp : pnode -> outcome (TreeModel.node A).
Variable Rep : A -> C -> Prop.
Variable is_pad : A -> Prop.
Variable goodp : A -> Prop.
Variable good : C -> Prop.
Hypothesis RT : file_roundtrip ser deser good.
Hypothesis PT : forall t : tree A, fits_int32 t -> Forall within_capacity (t_nodes t) -> (forall x, In x (contents t) -> goodp x) ->
  exists f, tree_serialize serp t = Ok f /\ tree_deserialize deserp f = Ok t.
Hypothesis ser_ok : forall a c, Rep a c -> match ser c with Ok w => deser w = Ok c | Err _ => True | _ => False end.

Lemma reach_files (t : tree A) n : t_stash_size t = stash -> t_node_size t = node -> reach hash t n -> int_range n -> fits_int32 t /\ Forall within_capacity (t_nodes t).
Proof.
  intros E1 E2 R IR. pose proof (depth_bound _ _ (r_min _ _ _ R) IR) as DB. unfold int_range in IR. split.
  - unfold fits_int32. rewrite E1, E2, (r_actual _ _ _ R). repeat constructor; auto; [|].
    + apply Z.lt_trans with 30; [lia|reflexivity].
    + apply Z.lt_trans with (2 ^ 30); [auto|reflexivity].
  - apply Forall_forall. intros x Hx. apply nodeAt_in in Hx as (v & Lv & <-). split.
    + apply (wf_caps _ _ (r_wf _ _ _ R)).
    + rewrite (wf_cap _ _ (r_wf _ _ _ R) v Lv). unfold cap_at. rewrite E1, E2. destruct (v =? 0)%nat; auto.
Qed.
Lemma write_spec pt et H : t_stash_size pt = stash -> t_node_size pt = node -> reach hash pt H -> int_range H -> mirrors Rep is_pad pt et ->
  (forall x, In x (contents pt) -> goodp x) ->
  match write_trees ser serp pt et with
  | Ok (pf, ef) => tree_deserialize deserp pf = Ok pt /\ exists et', tree_deserialize (deser_node deser) ef = Ok et' /\ mirrors Rep is_pad pt et'
  | Err _ => True | _ => False end.
Proof.
  intros E1 E2 R IR MI G. destruct (reach_files pt H E1 E2 R IR) as (FI & WC). destruct (PT pt FI WC G) as (pf & EP & DP).
  unfold write_trees. rewrite EP. cbn [obind].
  assert (FE : fits_int32 et).
  { destruct MI as (M1 & M2 & M3 & M4 & _). unfold fits_int32 in *. rewrite M1, M2, M3, M4. auto. }
  destruct (RT et FE) as (RT1 & RT2).
  destruct (tree_serialize (ser_node ser) et) as [ef| | |] eqn:ES; cbn [obind]; auto.
  - split; auto. destruct (RT1 (RT2 (ex_intro _ ef eq_refl))) as (f' & t' & Q1 & Q2 & Q3). inversion Q1; subst f'. exists t'. split; auto. eapply mirrors_same; eauto.
  - assert (X : match tree_serialize (ser_node ser) et with Ok _ | Err _ => True | _ => False end); [|rewrite ES in X; auto].
    unfold tree_serialize. assert (Y : match omap (ser_node ser) (t_nodes et) with Ok _ | Err _ => True | _ => False end).
    { apply omap_good. intros n Hn. apply omap_good. intros c Hc. destruct (mirrors_entry Rep is_pad pt et c MI) as (a & Ra). { apply in_flat_map. eauto. }
      pose proof (ser_ok a c Ra). destruct (ser c); auto. }
    destruct (omap (ser_node ser) (t_nodes et)); auto.
  - assert (X : match tree_serialize (ser_node ser) et with Ok _ | Err _ => True | _ => False end); [|rewrite ES in X; auto].
    unfold tree_serialize. assert (Y : match omap (ser_node ser) (t_nodes et) with Ok _ | Err _ => True | _ => False end).
    { apply omap_good. intros n Hn. apply omap_good. intros c Hc. destruct (mirrors_entry Rep is_pad pt et c MI) as (a & Ra). { apply in_flat_map. eauto. }
      pose proof (ser_ok a c Ra). destruct (ser c); auto. }
    destruct (omap (ser_node ser) (t_nodes et)); auto.
Qed.

Hypothesis hash_len : forall x, length (hash x) = 256%nat.
Hypothesis mk_ok : forall x, pad_range x -> is_pad (mk x).
Hypothesis enc_ok : forall a tp, match enc a tp with Ok (c, _) => Rep a c | Err _ => True | _ => False end.
(** the files hold a plaintext tree with the data and its encrypted mirror *)
Definition holds (data : list A) (f : tree_file pnode * tree_file (list (welem Gr))) : Prop :=
  exists pt et, tree_deserialize deserp (fst f) = Ok pt /\ tree_deserialize (deser_node deser) (snd f) = Ok et
    /\ t_stash_size pt = stash /\ t_node_size pt = node /\ side hash pt data /\ mirrors Rep is_pad pt et.
Lemma generate_spec data tp : int_range (length data) -> Forall goodp data ->
  match generate_trees stash node (insert hash) mk enc ser deser serp data tp with
  | Ok (f, _) => holds data f
  | Err _ => True | _ => False end.
Proof.
  intros IR G. unfold generate_trees.
  pose proof (send_step hash mk enc ser deser Rep is_pad hash_len mk_ok enc_ok ser_ok data (tree_new stash node) (tree_new stash node) [] tp (side_new hash stash node) (mirrors_new Rep is_pad stash node) IR) as X.
  assert (SZ : forall t o, send_update (insert hash) mk enc ser data (tree_new stash node) tp = (t, o) -> t_stash_size t = stash /\ t_node_size t = node).
  { intros t o Q. pose proof (send_update_spec hash (insert hash) mk enc ser deser Rep is_pad (ins_like_insert hash hash_len) mk_ok enc_ok ser_ok data (tree_new stash node) 0%nat tp (reach_new hash stash node) IR) as Y.
    rewrite Q in Y. destruct Y as (hs & out & tp1 & EH & EI & _).
    destruct (reach_step hash (tree_new stash node) 0 (data, map byte2binary hs) t out hash_len (reach_new hash stash node) (hashes_valid _ _ _ _ EH) IR EI) as (_ & _ & _ & Y1 & Y2 & _). auto. }
  destruct (send_update (insert hash) mk enc ser data (tree_new stash node) tp) as [pt o] eqn:ES. destruct (SZ pt o eq_refl) as (Z1 & Z2).
  destruct X as (SD & _ & X). cbn [app] in SD. unfold bind. destruct o as [[u tp1]| | |]; auto.
  destruct X as (et & RE & MI). rewrite RE. unfold lift at 1.
  assert (GC : forall x, In x (contents pt) -> goodp x).
  { destruct SD as (_ & lost & P). rewrite Forall_forall in G. intros x Hx. apply G. apply (Permutation_in x P). apply in_or_app. auto. }
  pose proof (write_spec pt et (length data) Z1 Z2 (proj1 SD) IR MI GC) as Y. unfold lift.
  destruct (write_trees ser serp pt et) as [[pf ef]| | |]; auto. destruct Y as (Y1 & et' & Y2 & Y3). exists pt, et'. auto 10.
Qed.
End Gen.

Section Kinds.
Context {Gr : group}.
Variables stash node : nat.
Hypothesis SS : Z.of_nat stash < 2 ^ 31.
Hypothesis NS : Z.of_nat node < 2 ^ 31.
Variable hash : Z -> list bool.
Hypothesis HH : forall x, length (hash x) = 256%nat.
Variable sk : Z.
Notation pk := (@key_of Gr sk).
Notation RepP := (fun (a : Z) (c : ct Gr) => decrypt sk c = gpow gen a).
Notation RepE := (fun (a : Z * Z) (c : ct Gr * ct Gr) => decrypt sk (fst c) = gpow gen (fst a) /\ decrypt sk (snd c) = gpow gen (snd a)).
Notation RepS n := (fun (a : Z * Z) (c : ct Gr * Z) => decrypt sk (fst c) = gpow gen (fst a) /\ 0 <= snd a < n /\ ct_of n (snd a) (snd c)).
Notation hold_plain := (holds stash node hash (@deser_plain Gr) deser_pnode RepP pad_elem).
Notation hold_elgamal := (holds stash node (fun a => hash (fst a)) (@deser_elgamal Gr) deser_pnode_payload RepE pad_entry).
Notation hold_paillier n := (holds stash node (fun a => hash (fst a)) (@deser_paillier Gr) deser_pnode_payload (RepS n) pad_entry).

Lemma trees_plain_ok data tp : int_range (length data) -> Forall (fun x => 0 <= x) data ->
  match trees_plain stash node hash pk data tp with Ok (f, _) => hold_plain data f | Err _ => True | _ => False end.
Proof.
  intros IR G.
  refine (generate_spec stash node SS NS hash (fun x => x) (enc_plain pk) ser_plain deser_plain ser_pnode deser_pnode RepP pad_elem (fun x => 0 <= x) _
    (proj1 (C13_encrypted_files Gr)) (fun t F W => proj1 (proj1 C13_plaintext_files t F W)) _ HH (fun x H => H) _ data tp IR G).
  - intros a c _. apply ser_plain_ok.
  - intros a tp'. apply enc_plain_ok.
Qed.
Lemma trees_elgamal_ok data tp : int_range (length data) -> Forall (fun a => 0 <= fst a /\ 0 <= snd a) data ->
  match trees_elgamal stash node hash pk data tp with Ok (f, _) => hold_elgamal data f | Err _ => True | _ => False end.
Proof.
  intros IR G.
  refine (generate_spec stash node SS NS (fun a => hash (fst a)) pad_payload (enc_elgamal pk) ser_elgamal deser_elgamal ser_pnode_payload deser_pnode_payload RepE pad_entry (fun a => 0 <= fst a /\ 0 <= snd a) _
    (proj1 (proj2 (proj2 (C13_encrypted_files Gr)))) (fun t F W => proj1 (proj2 C13_plaintext_files t F W)) _ (fun a => HH (fst a)) _ _ data tp IR G).
  - intros a c _. apply ser_elgamal_ok.
  - intros x H. split; auto.
  - intros a tp'. apply enc_elgamal_ok.
Qed.
Lemma trees_paillier_ok n P data tp : 1 < n -> thr_object n P -> int_range (length data) -> Forall (fun a => 0 <= fst a /\ 0 <= snd a) data ->
  match trees_paillier stash node hash pk P data tp with Ok (f, _) => hold_paillier n data f | Err _ => True | _ => False end.
Proof.
  intros Hn OB IR G.
  refine (generate_spec stash node SS NS (fun a => hash (fst a)) pad_payload (enc_paillier pk (pub_encrypt P)) ser_paillier deser_paillier ser_pnode_payload deser_pnode_payload (RepS n) pad_entry (fun a => 0 <= fst a /\ 0 <= snd a) _
    (proj1 (proj2 (C13_encrypted_files Gr))) (fun t F W => proj1 (proj2 C13_plaintext_files t F W)) _ (fun a => HH (fst a)) _ _ data tp IR G).
  - intros a c (_ & _ & Q). apply ser_paillier_ok. apply Q.
  - intros x H. split; auto.
  - intros a tp'. apply enc_paillier_ok; auto.
Qed.
End Kinds.

Section Load.
Context {Gr : group}.
Variables stash node : nat.
Hypothesis SS_ : Z.of_nat stash < 2 ^ 31.
Hypothesis NS : Z.of_nat node < 2 ^ 31.
Variable hash : Z -> list bool.
Hypothesis HH : forall x, length (hash x) = 256%nat.
Variables sk0 sk1 : Z.
Notation sk := (sk0 + sk1).
Notation pk := (@key_of Gr sk).
Notation RepP := (fun (a : Z) (c : ct Gr) => decrypt sk c = gpow gen a).
Notation RepE := (fun (a : Z * Z) (c : ct Gr * ct Gr) => decrypt sk (fst c) = gpow gen (fst a) /\ decrypt sk (snd c) = gpow gen (snd a)).
Notation RepS n := (fun (a : Z * Z) (c : ct Gr * Z) => decrypt sk (fst c) = gpow gen (fst a) /\ 0 <= snd a < n /\ ct_of n (snd a) (snd c)).
Variables (n : Z) (pai0 : pub) (func : functionality) (start0 : list (Z * Z)) (start1 : list Z).
Hypothesis PR : func = SS -> 1 < n /\ thr_object n pai0.
Hypothesis IR0 : int_range (length start0).
Hypothesis IR1 : int_range (length start1).
Hypothesis G0 : Forall (fun a => 0 <= fst a /\ 0 <= snd a) start0.
Hypothesis G1 : Forall (fun x => 0 <= x) start1.

Definition sizes {A} (t : tree A) : Prop := t_stash_size t = stash /\ t_node_size t = node.
Notation hold_plain := (holds stash node hash (@deser_plain Gr) deser_pnode RepP pad_elem).
Notation hold_elgamal := (holds stash node (fun a => hash (fst a)) (@deser_elgamal Gr) deser_pnode_payload RepE pad_entry).
Notation hold_paillier := (holds stash node (fun a => hash (fst a)) (@deser_paillier Gr) deser_pnode_payload (RepS n) pad_entry).
Definition written (d : tree_files Gr) : Prop :=
  hold_plain start1 (p1_plaintext d, p0_encrypted d)
  /\ (func <> SS -> hold_elgamal start0 (p0_plaintext d, p1_encrypted d))
  /\ (func = SS -> hold_paillier start0 (p0_plaintext d, p1_encrypted d)).
Lemma setup_written tp : match setup_trees stash node hash pk func pai0 start0 start1 tp with Ok (d, _) => written d | Err _ => True | _ => False end.
Proof.
  unfold setup_trees.
  assert (X : match (if is_ss func then trees_paillier stash node hash pk pai0 start0 else trees_elgamal stash node hash pk start0) tp with
    | Ok (f, _) => (func <> SS -> hold_elgamal start0 f) /\ (func = SS -> hold_paillier start0 f) | Err _ => True | _ => False end).
  { destruct (is_ss func) eqn:IS.
    2:{ assert (NE : func <> SS) by (intros Q; rewrite Q in IS; discriminate). pose proof (@trees_elgamal_ok Gr stash node SS_ NS hash HH sk start0 tp IR0 G0) as X.
      destruct (trees_elgamal stash node hash pk start0 tp) as [[f tp1]| | |]; auto. split; [auto|congruence]. }
    assert (IE : func = SS) by (destruct func; auto; discriminate).
    destruct (PR IE) as (Hn & OB). pose proof (@trees_paillier_ok Gr stash node SS_ NS hash HH sk n pai0 start0 tp Hn OB IR0 G0) as X.
    destruct (trees_paillier stash node hash pk pai0 start0 tp) as [[f tp1]| | |]; auto. split; [congruence|auto]. }
  unfold bind at 1. destruct ((if is_ss func then trees_paillier stash node hash pk pai0 start0 else trees_elgamal stash node hash pk start0) tp) as [[f0 tp1]| | |]; auto. destruct X as (X1 & X2).
  unfold bind, ret. pose proof (@trees_plain_ok Gr stash node SS_ NS hash HH sk start1 tp1 IR1 G1) as Y.
  destruct (trees_plain stash node hash pk start1 tp1) as [[f1 tp2]| | |]; auto. destruct f0, f1. split; [exact Y|]. split; auto.
Qed.

Lemma load_value d : written d -> func <> SS -> exists my0 other0 my1 other1,
  import_zero_payload d = Ok (my0, other0) /\ import_one_sum d = Ok (my1, other1)
  /\ sizes my0 /\ sizes my1 /\ agree hash sk0 sk1 (@fst Z Z) pad_entry RepE my0 other0 my1 other1 start0 start1.
Proof.
  intros ((pt1 & et1 & D1 & D1' & Z1 & Z1' & S1 & M1) & W & _) NE. destruct (W NE) as (pt0 & et0 & D0 & D0' & Z0 & Z0' & S0 & M0). cbn [fst snd] in *.
  exists pt0, et1, pt1, et0. unfold import_zero_payload, import_one_sum, import_trees. rewrite D0, D0', D1, D1'. unfold sizes. repeat (split; [auto|]). constructor; auto.
Qed.
Lemma load_paillier d : written d -> func = SS -> exists my0 other0 my1 other1,
  import_zero_payload d = Ok (my0, other0) /\ import_one_ss d = Ok (my1, other1)
  /\ sizes my0 /\ sizes my1 /\ agree hash sk0 sk1 (@fst Z Z) pad_entry (RepS n) my0 other0 my1 other1 start0 start1.
Proof.
  intros ((pt1 & et1 & D1 & D1' & Z1 & Z1' & S1 & M1) & _ & W) NE. destruct (W NE) as (pt0 & et0 & D0 & D0' & Z0 & Z0' & S0 & M0). cbn [fst snd] in *.
  exists pt0, et1, pt1, et0. unfold import_zero_payload, import_one_ss, import_trees. rewrite D0, D0', D1, D1'. unfold sizes. repeat (split; [auto|]). constructor; auto.
Qed.
Lemma load_plain d : written d -> exists my0 other0 my1 other1,
  import_zero_no_payload d = Ok (my0, other0) /\ import_one_no_payload d = Ok (my1, other1)
  /\ sizes my0 /\ sizes my1 /\ agree hash sk0 sk1 (fun x : Z => x) pad_elem RepP my0 other0 my1 other1 (map fst start0) start1.
Proof.
  intros ((pt1 & et1 & D1 & D1' & Z1 & Z1' & S1 & M1) & W1 & W2). cbn [fst snd] in *.
  assert (X : exists pt0 et0, tree_deserialize deser_pnode (p0_plaintext d) = Ok pt0 /\ tree_deserialize (deser_node deser_plain) (p1_encrypted d) = Ok et0
    /\ sizes pt0 /\ side hash pt0 (map fst start0) /\ mirrors RepP pad_elem pt0 et0).
  { assert (Q : func = SS \/ func <> SS) by (destruct func; auto; right; discriminate). destruct Q as [Q|Q].
    - destruct (W2 Q) as (pt0 & et0 & D0 & D0' & Z0 & Z0' & S0 & M0). cbn [fst snd] in *. exists (tmap fst pt0), (tmap fst et0).
      split; [eapply tree_deserialize_map; [|exact D0]; intros x y; apply deser_pnode_map|].
      split; [eapply tree_deserialize_map; [|exact D0']; intros x y; apply deser_node_map; apply deser_paillier_fst|].
      split; [split; auto|]. split; [apply side_tmap; auto|]. eapply mirrors_tmap; [| |exact M0].
      + intros a c (H & _). exact H.
      + intros a (H & _). exact H.
    - destruct (W1 Q) as (pt0 & et0 & D0 & D0' & Z0 & Z0' & S0 & M0). cbn [fst snd] in *. exists (tmap fst pt0), (tmap fst et0).
      split; [eapply tree_deserialize_map; [|exact D0]; intros x y; apply deser_pnode_map|].
      split; [eapply tree_deserialize_map; [|exact D0']; intros x y; apply deser_node_map; apply deser_elgamal_fst|].
      split; [split; auto|]. split; [apply side_tmap; auto|]. eapply mirrors_tmap; [| |exact M0].
      + intros a c (H & _). exact H.
      + intros a (H & _). exact H. }
  destruct X as (pt0 & et0 & D0 & D0' & Z0 & S0 & M0).
  exists pt0, et1, pt1, et0. unfold import_zero_no_payload, import_one_no_payload, import_trees. rewrite D0, D0', D1, D1'. do 3 (split; [auto|]). split; [split; auto|]. constructor; auto.
Qed.
End Load.

(** ** files of the wrong kind *)
Lemma omap_in {A B} (f : A -> outcome B) l r y : omap f l = Ok r -> In y r -> exists x, In x l /\ f x = Ok y.
Proof.
  revert r. induction l as [|x l IH]; cbn [omap]; intros r E H; [inversion E; subst; inversion H|].
  apply obind_Ok in E as (z & E1 & E2). apply obind_Ok in E2 as (zs & E2 & E3). inversion E3; subst. destruct H as [->|H].
  - exists x. split; auto. left; auto.
  - destruct (IH _ E2 H) as (x' & ? & ?). exists x'. split; auto. right; auto.
Qed.
Lemma wrong_kind {Gr : group} {A B} (de : welem Gr -> outcome A) (de' : welem Gr -> outcome B) f t :
  (forall w c, de w = Ok c -> is_ok (de' w) = false) -> tree_deserialize (deser_node de) f = Ok t -> contents t <> [] ->
  is_ok (tree_deserialize (deser_node de') f) = false.
Proof.
  intros H E NE. destruct (tree_deserialize (deser_node de') f) as [t'| | |] eqn:E'; auto. exfalso.
  unfold tree_deserialize in *. apply obind_Ok in E as (ns & E1 & E2). inversion E2; subst t; clear E2. apply obind_Ok in E' as (ns' & E1' & _).
  destruct (contents _) as [|c cs] eqn:EC; [congruence|]. assert (IC : In c (flat_map elems ns)) by (change (flat_map elems ns) with (contents (mkTree (Z.to_nat (f_stash f)) (Z.to_nat (f_node f)) (Z.to_nat (f_depth f)) (Z.to_nat (f_actual f)) ns)); rewrite EC; left; auto).
  apply in_flat_map in IC as (nd & I1 & I2). destruct (omap_in _ _ _ _ E1 I1) as (ws & I3 & E3).
  unfold deser_node in E3. apply obind_Ok in E3 as (cs' & E3 & E4). inversion E4; subst nd. cbn [elems] in I2.
  destruct (omap_in _ _ _ _ E3 I2) as (w & I5 & E5). destruct (omap_inv _ _ _ E1' ws I3) as (nd' & E6). unfold deser_node in E6. apply obind_Ok in E6 as (cs2 & E6 & _).
  destruct (omap_inv _ _ _ E6 w I5) as (c' & E7). specialize (H w c E5). rewrite E7 in H. discriminate.
Qed.
Lemma mirrors_nonempty {A C} (Rep : A -> C -> Prop) pad ts tr : mirrors Rep pad ts tr -> contents ts <> [] -> contents tr <> [].
Proof.
  intros (_ & _ & _ & _ & L & M) NE Q. destruct (contents ts) as [|a l] eqn:EC; [congruence|]. assert (IC : In a (contents ts)) by (rewrite EC; left; auto).
  apply in_flat_map in IC as (nd & I1 & I2). apply nodeAt_in in I1 as (v & Lv & <-). destruct (M v Lv) as [(X & _)|(pads & _ & _ & F)].
  - unfold entries_at in X. unfold nodeAt in I2. rewrite X in I2. inversion I2.
  - unfold entries_at in F. unfold nodeAt in I2. assert (Y : elems (nth v (t_nodes tr) (node_new 0)) = []).
    { destruct (elems (nth v (t_nodes tr) (node_new 0))) as [|c r] eqn:EE; auto. exfalso. assert (In c (contents tr)); [|rewrite Q in *; auto].
      apply in_flat_map. exists (nth v (t_nodes tr) (node_new 0)). split; [apply nth_In; lia|]. rewrite EE. left; auto. }
    rewrite Y in F. apply Forall2_length' in F. rewrite app_length in F. destruct (elems (nth v (t_nodes ts) (node_new 0))); [inversion I2|cbn in F; lia].
Qed.
