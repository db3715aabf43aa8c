(** Proofs about the addition-only protocols. *)
Require Import String.
Require Import List Arith Lia ZArith Permutation Bool Znumtheory.
Import ListNotations.
From Verif Require Import Prelude TreeModel TreeSpec TreeIndex TreeProofs TreeHistory Coins Group ElGamalModel ElGamalProofs BytesModel BytesProofs CipherModel CipherProofs PaillierModel PaillierProofs PropsPaillier WireModel WireProofs PropsWire SyncModel SyncSpec SyncProofs KindProofs PropsSync AddModel AddSpec.

(** ** one party's own tree *)
Definition side {A} (hash : A -> list bool) (t : tree A) (H : list A) : Prop :=
  reach hash t (length H) /\ exists lost, Permutation (contents t ++ lost) H.

Lemma side_new {A} (hash : A -> list bool) s n : side hash (tree_new s n) [].
Proof. split; [apply reach_new|]. exists []. reflexivity. Qed.
Lemma side_perm {A} (hash : A -> list bool) t H : side hash t H -> no_overflow t -> Permutation (contents t) H.
Proof.
  intros (R & lost & P) N. unfold no_overflow in N. rewrite (r_actual _ _ _ R) in N.
  pose proof (Permutation_length P) as L. rewrite app_length, N in L. destruct lost; [|cbn in L; lia]. rewrite app_nil_r in P. auto.
Qed.

Lemma side_lost {A} (hash : A -> list bool) t H : side hash t H -> exists lost, Permutation (contents t ++ lost) H /\ (no_overflow t -> lost = []).
Proof.
  intros (R & lost & P). exists lost. split; auto. intros N. unfold no_overflow in N. rewrite (r_actual _ _ _ R) in N.
  pose proof (Permutation_length P) as L. rewrite app_length, N in L. destruct lost; [auto|cbn in L; lia].
Qed.

Section Send.
Context {Gr : group} {A C : Type}.
Variable hash : A -> list bool.
Variable mk : Z -> A.
Variable enc : A -> M C.
Variable ser : C -> outcome (welem Gr).
Variable deser : welem Gr -> outcome C.
Variable Rep : A -> C -> Prop.
Variable is_pad : A -> Prop.
Hypothesis hash_len : forall x, length (hash x) = 256%nat.
Hypothesis mk_ok : forall x, pad_range x -> is_pad (mk x).
Hypothesis enc_ok : forall a tp, match enc a tp with Ok (c, _) => Rep a c | Err _ => True | _ => False end.
Hypothesis ser_ok : forall a c, Rep a c -> match ser c with Ok w => deser w = Ok c | Err _ => True | _ => False end.

Lemma send_step es ts tr H tp : side hash ts H -> mirrors Rep is_pad ts tr -> int_range (length H + length es) ->
  let '(ts', o) := send_update (insert hash) mk enc ser es ts tp in
  side hash ts' (H ++ es) /\ (no_overflow ts' -> no_overflow ts) /\
  match o with
  | Ok (u, _) => exists tr', recv_update deser u tr = Ok tr' /\ mirrors Rep is_pad ts' tr'
  | Err _ => True | _ => False
  end.
Proof.
  intros (R & lost & P) MI IR.
  pose proof (sync_step hash (insert hash) mk enc ser deser Rep is_pad hash_len (ins_like_insert hash hash_len) mk_ok enc_ok ser_ok es ts tr _ tp R MI IR) as X.
  pose proof (send_update_spec hash (insert hash) mk enc ser deser Rep is_pad (ins_like_insert hash hash_len) mk_ok enc_ok ser_ok es ts _ tp R IR) as Y.
  destruct (send_update (insert hash) mk enc ser es ts tp) as [ts' o].
  destruct X as (R' & _ & _ & X). destruct Y as (hs & out & tp1 & EH & EI & _).
  destruct (reach_step hash ts _ (es, map byte2binary hs) ts' out hash_len R (hashes_valid _ _ _ _ EH) IR EI) as (_ & _ & _ & _ & _ & PL & _).
  cbn [fst snd] in PL. split; [|split; [|exact X]].
  - split; [rewrite app_length; auto|]. exists (lost_by hash es (map byte2binary hs) ts ++ lost).
    rewrite app_assoc, PL. rewrite <- app_assoc, P. apply Permutation_app_comm.
  - unfold no_overflow. rewrite (r_actual _ _ _ R'), (r_actual _ _ _ R). intros N.
    apply Permutation_length in PL. apply Permutation_length in P. rewrite !app_length in *. lia.
Qed.
End Send.

(** ** candidates *)
Section Gen.
Context {Gr : group} {A E P V : Type}.
Variable hash : Z -> list bool.
Variables sk0 sk1 : Z.
Let sk := (sk0 + sk1)%Z.
Variable key : A -> Z.
Variable first : A -> M (ct Gr * P).
Variable ser_cand : ct Gr * P -> outcome (welem Gr).
Variable mk : Z -> A.
Variable enc : A -> M E.
Variable ser : E -> outcome (welem Gr).
Variable deser : welem Gr -> outcome E.
Variable deser_cand : welem Gr -> outcome (ct Gr * P).
Variable split : E -> ct Gr * P.
Variable mask : ct Gr * P -> M (ct Gr * P).
Variable seal : ct Gr * P -> M (welem Gr).
(** what ciphertexts stand for *)
Variable val : A -> V.
Variable is_pad : A -> Prop.
Variable Rep : A -> E -> Prop.
Variable PayRep : V -> P -> Prop.          (* payload in a candidate *)
Variable PayM PayOut : Z -> V -> P -> Prop. (* after masking; as received by party zero *)
Hypothesis hash_len : forall x, length (hash x) = 256%nat.
Hypothesis big : (2 * 10 ^ 15 <= ord Gr)%Z.
Hypothesis mk_ok : forall x, pad_range x -> is_pad (mk x).
Hypothesis pad_key : forall a, is_pad a -> (10 ^ 15 <= key a < 2 * 10 ^ 15)%Z.
Hypothesis enc_ok : forall a tp, match enc a tp with Ok (c, _) => Rep a c | Err _ => True | _ => False end.
Hypothesis ser_ok : forall a c, Rep a c -> match ser c with Ok w => deser w = Ok c | Err _ => True | _ => False end.
Hypothesis rep_split : forall a e, Rep a e -> decrypt sk (fst (split e)) = gpow gen (key a) /\ PayRep (val a) (snd (split e)).
Hypothesis first_ok : forall a tp, match first a tp with
  | Ok (xp, _) => decrypt sk (fst xp) = gpow gen (key a) /\ PayRep (val a) (snd xp) | Err _ => True | _ => False end.
Hypothesis ser_cand_ok : forall c v p, PayRep v p -> match ser_cand (c, p) with Ok w => deser_cand w = Ok (c, p) | Err _ => True | _ => False end.
Hypothesis mask_ok : forall c k v p tp, decrypt sk c = gpow gen k -> PayRep v p ->
  match mask (c, p) tp with
  | Ok (cp, _) => (decrypt sk (fst cp) = gid <-> (ord Gr | k)%Z) /\ PayM k v (snd cp)
  | Err _ => True | _ => False end.
Hypothesis seal_ok : forall c k v p tp, PayM k v p ->
  match seal (c, p) tp with
  | Ok (w, _) => exists c' p', deser_cand w = Ok (c', p') /\ decrypt sk0 c' = decrypt sk c /\ PayOut k v p'
  | Err _ => True | _ => False end.

Notation pk := (@key_of Gr sk).
Notation Rep1 := (fun (x : Z) (c : ct Gr) => decrypt sk c = gpow gen x).
(** a candidate and the pair (difference, payload) it encrypts *)
Definition CR (l : Z * V) (c : ct Gr * P) : Prop := decrypt sk (fst c) = gpow gen (fst l) /\ PayRep (snd l) (snd c).
Definition Fin (l : Z * V) (c : ct Gr * P) : Prop :=
  (decrypt sk0 (fst c) = gid <-> (ord Gr | fst l)%Z) /\ PayOut (fst l) (snd l) (snd c).

Lemma decrypt_diff c d (a b : Z) : decrypt sk c = gpow (@gen Gr) a -> decrypt sk d = gpow gen b ->
  decrypt sk (ct_mul c (ct_invert d)) = gpow gen (a - b).
Proof. intros H1 H2. rewrite decrypt_mul, decrypt_invert, H1, H2, <- gpow_opp, <- gpow_add. f_equal. Qed.

(** plaintexts of the candidates for one new element of party zero (party one) *)
Definition plain_i (a : A) (L : list Z) : list (Z * V) := map (fun y => (y - key a, val a)%Z) L.
Definition plain_ii (x : Z) (L : list A) : list (Z * V) := map (fun b => (key b - x, val b)%Z) L.
Definition looked_i (my1 : tree Z) (a : A) (L : list Z) : Prop :=
  exists pads, Permutation L (get_path (hash (key a)) my1 ++ pads) /\ Forall pad_elem pads.
Definition looked_ii (my0 : tree A) (x : Z) (L : list A) : Prop :=
  exists pads, Permutation L (get_path (hash x) my0 ++ pads) /\ Forall is_pad pads.

Lemma candidates_i_spec my1 other a tp : mirrors Rep1 pad_elem my1 other ->
  match candidates_i hash pk key first ser_cand other a tp with
  | Ok (ws, _) => exists L cs, looked_i my1 a L /\ omap deser_cand ws = Ok cs /\ Forall2 CR (plain_i a L) cs
  | Err _ => True | _ => False end.
Proof.
  intros MI. unfold candidates_i. destruct (mirrors_path Rep1 pad_elem my1 other (hash (key a)) MI) as (L & pads & F & PM & FP).
  unfold bind at 1. pose proof (first_ok a tp) as X. destruct (first a tp) as [[[x p] tp1]| | |]; auto. cbn [fst snd] in *.
  destruct X as (X1 & X2).
  match goal with |- match ?m with _ => _ end => assert (G : forall L path tp, Forall2 (fun y c => decrypt sk c = gpow gen y) L path ->
    match mapM (fun y : ct Gr => r <- rerandomize (@key_of Gr sk) (ct_mul y (ct_invert x)) ;; lift (ser_cand (r, p))) path tp with
    | Ok (ws, _) => exists cs, omap deser_cand ws = Ok cs /\ Forall2 CR (plain_i a L) cs
    | Err _ => True | _ => False end) end.
  { clear - X1 X2 ser_cand_ok. intros L path. revert L. induction path as [|y path IH]; intros L tp F; inversion F; subst; cbn [mapM].
    - exists []. split; auto. constructor.
    - unfold bind at 1. unfold bind at 1. destruct (@rerandomize_total Gr (key_of sk) (ct_mul y (ct_invert x)) tp) as (r & tp1 & ER). rewrite ER.
      unfold lift. pose proof (ser_cand_ok r _ _ X2) as S. destruct (ser_cand (r, p)) as [w| | |]; auto. unfold bind.
      specialize (IH l tp1 H3). destruct (mapM _ path tp1) as [[ws tp2]| | |]; auto. destruct IH as (cs & E1 & F1).
      cbn. rewrite S. cbn. rewrite E1. cbn. eexists. split; [reflexivity|]. constructor; auto. split; cbn; auto.
      apply rerandomize_Ok in ER. rewrite ER. apply decrypt_diff; auto. }
  specialize (G L (get_path (hash (key a)) other) tp1 F). destruct (mapM _ (get_path (hash (key a)) other) tp1) as [[ws tp2]| | |]; auto.
  destruct G as (cs & G1 & G2). exists L, cs. split; auto. exists pads. auto.
Qed.

Lemma candidates_ii_spec my0 other x tp : mirrors Rep is_pad my0 other ->
  exists cs tp', candidates_ii hash pk split other x tp = Ok (cs, tp') /\ exists L, looked_ii my0 x L /\ Forall2 CR (plain_ii x L) cs.
Proof.
  intros MI. unfold candidates_ii. destruct (mirrors_path Rep is_pad my0 other (hash x) MI) as (L & pads & F & PM & FP).
  unfold bind. destruct (@encrypt_total Gr (key_of sk) x tp) as (c & tp1 & EC). rewrite EC. eexists _, _. split; [reflexivity|].
  apply encrypt_Ok in EC. exists L. split; [exists pads; auto|]. unfold plain_ii. clear - F EC rep_split.
  induction F; cbn; constructor; auto. apply rep_split in H as (H1 & H2). split; cbn; auto. apply decrypt_diff; auto.
Qed.

(** for all the new elements *)
Lemma all_candidates_i my1 other es : mirrors Rep1 pad_elem my1 other -> forall tp,
  match mapM (candidates_i hash pk key first ser_cand other) es tp with
  | Ok (wss, _) => exists Ls cs, Forall2 (looked_i my1) es Ls /\ omap deser_cand (concat wss) = Ok cs
                   /\ Forall2 CR (concat (map (fun p => plain_i (fst p) (snd p)) (combine es Ls))) cs
  | Err _ => True | _ => False end.
Proof.
  intros MI. induction es as [|a es IH]; intros tp; cbn [mapM].
  - exists [], []. cbn. auto.
  - unfold bind at 1. pose proof (candidates_i_spec my1 other a tp MI) as X. destruct (candidates_i _ _ _ _ _ _ _ _) as [[ws tp1]| | |]; auto.
    unfold bind at 1. specialize (IH tp1). destruct (mapM _ es tp1) as [[wss tp2]| | |]; auto.
    destruct X as (L & cs & X1 & X2 & X3). destruct IH as (Ls & cs' & I1 & I2 & I3).
    exists (L :: Ls), (cs ++ cs'). split; [auto|]. cbn [concat map combine fst snd]. split.
    + cbn [concat]. clear - X2 I2. revert cs X2. induction ws as [|w ws IHw]; intros cs X2; cbn in *.
      * inversion X2; subst. auto.
      * destruct (deser_cand w); try discriminate. cbn in *. destruct (omap deser_cand ws) as [l| | |]; try discriminate. cbn in *.
        inversion X2; subst. rewrite (IHw l eq_refl). reflexivity.
    + apply Forall2_app; auto.
Qed.
Lemma all_candidates_ii my0 other es : mirrors Rep is_pad my0 other -> forall tp,
  exists css tp', mapM (candidates_ii hash pk split other) es tp = Ok (css, tp') /\ exists Ls, Forall2 (looked_ii my0) es Ls
     /\ Forall2 CR (concat (map (fun p => plain_ii (fst p) (snd p)) (combine es Ls))) (concat css).
Proof.
  intros MI. induction es as [|x es IH]; intros tp; cbn [mapM].
  - eexists _, _. split; [reflexivity|]. exists []. cbn. auto.
  - unfold bind at 1. destruct (candidates_ii_spec my0 other x tp MI) as (cs & tp1 & -> & L & X1 & X2).
    unfold bind at 1. destruct (IH tp1) as (css & tp2 & -> & Ls & I1 & I2). eexists _, _. split; [reflexivity|].
    exists (L :: Ls). split; auto. cbn. apply Forall2_app; auto.
Qed.

Lemma Forall2_perm_r {X Y} (R : X -> Y -> Prop) l ys ys' : Forall2 R l ys -> Permutation ys' ys ->
  exists l', Permutation l' l /\ Forall2 R l' ys'.
Proof.
  intros F PM. revert l F. symmetry in PM. induction PM; intros l0 F.
  - inversion F; subst. exists []; auto.
  - inversion F as [|a b l1 l2 R1 F1]; subst. destruct (IHPM _ F1) as (l2 & P2 & F2). exists (a :: l2). split; [constructor; auto|]. constructor; auto.
  - inversion F as [|a b l1 l2 R1 F1]; subst. inversion F1 as [|a' b' l1' l2' R1' F1']; subst.
    exists (a' :: a :: l1'). split; [constructor|]. constructor; auto.
  - destruct (IHPM1 _ F) as (l1 & P1 & F1). destruct (IHPM2 _ F1) as (l2 & P2 & F2). exists l2. split; auto. etransitivity; eauto.
Qed.

Lemma mask_all L : forall cs tp, Forall2 CR L cs -> match mapM mask cs tp with
  | Ok (ms, _) => Forall2 (fun l c => (decrypt sk (fst c) = gid <-> (ord Gr | fst l)%Z) /\ PayM (fst l) (snd l) (snd c)) L ms
  | Err _ => True | _ => False end.
Proof.
  induction L as [|[k v] L IH]; intros cs tp F; inversion F; subst; cbn [mapM]; [constructor|].
  destruct y as [c p]. destruct H1 as (H1 & H2). cbn [fst snd] in *. unfold bind at 1.
  pose proof (mask_ok c k v p tp H1 H2) as X. destruct (mask (c, p) tp) as [[m tp1]| | |]; auto.
  unfold bind at 1. specialize (IH l' tp1 H3). destruct (mapM mask l' tp1) as [[ms tp2]| | |]; auto. cbn. constructor; auto.
Qed.
Lemma seal_all L : forall cs tp, Forall2 (fun l c => (decrypt sk (fst c) = gid <-> (ord Gr | fst l)%Z) /\ PayM (fst l) (snd l) (snd c)) L cs ->
  match mapM seal cs tp with
  | Ok (ws, _) => exists fs, omap deser_cand ws = Ok fs /\ Forall2 Fin L fs
  | Err _ => True | _ => False end.
Proof.
  induction L as [|[k v] L IH]; intros cs tp F; inversion F; subst; cbn [mapM]. { exists []. auto. }
  destruct y as [c p]. destruct H1 as (H1 & H2). cbn [fst snd] in *. unfold bind at 1.
  pose proof (seal_ok c k v p tp H2) as X. destruct (seal (c, p) tp) as [[w tp1]| | |]; auto.
  unfold bind at 1. specialize (IH l' tp1 H3). destruct (mapM seal l' tp1) as [[ws tp2]| | |]; auto.
  destruct X as (c' & p' & X1 & X2 & X3). destruct IH as (fs & I1 & I2). exists ((c', p') :: fs). cbn. rewrite X1. cbn. rewrite I1. split; auto.
  constructor; auto. split; cbn; auto. rewrite X2. auto.
Qed.

Lemma answer_spec my0 other es ws theirs Lt tp : mirrors Rep is_pad my0 other ->
  omap deser_cand ws = Ok theirs -> Forall2 CR Lt theirs ->
  match answer_candidates hash pk deser_cand split mask seal ws es other tp with
  | Ok (rs, _) => exists L Ls fs, omap deser_cand rs = Ok fs /\ Forall2 Fin L fs /\ Forall2 (looked_ii my0) es Ls
       /\ Permutation L (Lt ++ concat (map (fun p => plain_ii (fst p) (snd p)) (combine es Ls)))
  | Err _ => True | _ => False end.
Proof.
  intros MI ED FT. unfold answer_candidates. rewrite ED. unfold lift, bind at 1.
  unfold bind at 1. destruct (all_candidates_ii my0 other es MI tp) as (css & tp1 & -> & Ls & FL & FC).
  unfold bind at 1. destruct (shuffle_total (theirs ++ concat css) tp1) as (sh & tp2 & ES). rewrite ES. apply shuffle_perm in ES.
  pose proof (Forall2_app FT FC) as FA. destruct (Forall2_perm_r _ _ _ _ FA ES) as (L & PL & FL2).
  unfold bind. pose proof (mask_all L sh tp2 FL2) as X. destruct (mapM mask sh tp2) as [[ms tp3]| | |]; auto.
  pose proof (seal_all L ms tp3 X) as Y. destruct (mapM seal ms tp3) as [[rs tp4]| | |]; auto.
  destruct Y as (fs & Y1 & Y2). exists L, Ls, fs. auto.
Qed.

(** ** which candidates match *)
Notation hashA := (fun a : A => hash (key a)).
Definition joined (h0 : list A) (h1 : list Z) (es0 : list A) (es1 : list Z) : list A :=
  common key es0 h1 ++ common key (h0 ++ es0) es1.

Lemma div_small k : (- (2 * 10 ^ 15) < k < 2 * 10 ^ 15)%Z -> ((ord Gr | k)%Z <-> k = 0%Z).
Proof.
  intros B. split; [|intros ->; apply Z.divide_0_r]. intros (z & EZ). destruct (Z.eq_dec z 0); [subst; lia|].
  exfalso. destruct (Z_lt_le_dec z 0); nia.
Qed.
Lemma filter_map {X Y} (f : X -> Y) p l : filter p (map f l) = map f (filter (fun x => p (f x)) l).
Proof. induction l; cbn; auto. destruct (p (f a)); cbn; rewrite IHl; auto. Qed.
Lemma filter_none {X} (p : X -> bool) l : (forall x, In x l -> p x = false) -> filter p l = [].
Proof. induction l; intros H; cbn; auto. rewrite (H a) by (left; auto). apply IHl. intros; apply H; right; auto. Qed.
Lemma filter_false {X} (l : list X) : filter (fun _ => false) l = [].
Proof. induction l; auto. Qed.
Lemma filter_eq_one l x : NoDup l -> filter (Z.eqb x) l = if mem x l then [x] else [].
Proof.
  induction l as [|y l IH]; intros ND; cbn; auto. inversion_clear ND. unfold mem in *. cbn [existsb].
  destruct (Z.eqb_spec x y) as [->|N]; cbn [orb]; auto.
  rewrite filter_none; auto. intros z Hz. apply Z.eqb_neq. intros ->. auto.
Qed.

(** matches among the candidates of party zero; [rest]: lost by overflows *)
Lemma zeros_i my1 H1 : side hash my1 H1 -> NoDup H1 -> int_range (length H1) -> forall es Ls,
  Forall (fun a => element (key a)) es -> Forall2 (looked_i my1) es Ls ->
  exists rest, Permutation (map snd (filter (fun l => fst l =? 0)%Z (concat (map (fun p => plain_i (fst p) (snd p)) (combine es Ls)))) ++ rest) (map val (common key es H1))
    /\ (no_overflow my1 -> rest = []).
Proof.
  intros S ND IR es Ls FE FL. destruct (side_lost _ _ _ S) as (lost & PM & LO). destruct S as ([W RA RL RM] & _).
  assert (DB : (t_depth my1 < 30)%nat) by (eapply depth_bound; eauto).
  induction FL as [|a L es Ls (pads & PL & FP) FL IH]; cbn [combine map concat]; [exists []; split; auto; constructor|].
  inversion_clear FE. destruct (IH H0) as (rest & IH1 & IH2). rewrite filter_app, map_app. unfold common in *. cbn [filter fst snd].
  assert (X : Permutation (map snd (filter (fun l : Z * V => fst l =? 0)%Z (plain_i a L)) ++ map (fun _ => val a) (filter (Z.eqb (key a)) lost)) (if mem (key a) H1 then [val a] else [])).
  { unfold plain_i. rewrite filter_map, map_map. cbn [fst snd].
    assert (EQ : forall l, filter (fun y => y - key a =? 0)%Z l = filter (Z.eqb (key a)) l).
    { intros l. apply filter_ext. intros y. destruct (Z.eqb_spec (y - key a) 0), (Z.eqb_spec (key a) y); auto; lia. }
    rewrite EQ. rewrite <- map_app. rewrite (filter_perm _ _ _ PL), filter_app.
    rewrite (filter_none (Z.eqb (key a)) pads); cycle 1.
    { intros y Hy. rewrite Forall_forall in FP. specialize (FP y Hy). unfold pad_elem, element in *. apply Z.eqb_neq. lia. }
    rewrite app_nil_r. rewrite (placed_filter_path hash (Z.eqb (key a)) (hash (key a)) my1); auto.
    - rewrite <- filter_app. rewrite (filter_perm _ _ _ PM), filter_eq_one; auto. destruct (mem (key a) H1); auto.
    - intros x. rewrite hash_len. lia.
    - intros x Hx. apply Z.eqb_eq in Hx. subst; auto. }
  exists (map (fun _ => val a) (filter (Z.eqb (key a)) lost) ++ rest). split.
  - rewrite <- app_assoc. rewrite (Permutation_app_comm _ (_ ++ rest)), <- app_assoc, app_assoc. rewrite X.
    rewrite (Permutation_app_comm rest). rewrite IH1. destruct (mem (key a) H1); reflexivity.
  - intros NO. rewrite (LO NO), (IH2 NO). auto.
Qed.

Lemma split_common (h : list A) (x : Z) l : ~ In x l -> Permutation (filter (fun b => key b =? x)%Z h ++ common key h l) (common key h (x :: l)).
Proof.
  intros NI. unfold common. induction h as [|b h IH]; cbn [filter app]; auto.
  unfold mem in *. cbn [existsb]. rewrite (Z.eqb_sym (key b) x) in *.
  destruct (Z.eqb_spec x (key b)) as [EZ|NE].
  - cbn [orb]. destruct (existsb (Z.eqb (key b)) l) eqn:EX.
    { exfalso. apply NI. apply existsb_exists in EX as (y & Hy & Ey). apply Z.eqb_eq in Ey. congruence. }
    cbn [app]. constructor. exact IH.
  - cbn [orb]. destruct (existsb (Z.eqb (key b)) l); auto. rewrite <- Permutation_middle. constructor. exact IH.
Qed.
(** matches among the candidates of party one *)
Lemma zeros_ii my0 H0 : side hashA my0 H0 -> int_range (length H0) -> forall es Ls,
  Forall element es -> NoDup es -> Forall2 (looked_ii my0) es Ls ->
  exists rest, Permutation (map snd (filter (fun l => fst l =? 0)%Z (concat (map (fun p => plain_ii (fst p) (snd p)) (combine es Ls)))) ++ rest) (map val (common key H0 es))
    /\ (no_overflow my0 -> rest = []).
Proof.
  intros S IR es Ls FE ND FL. destruct (side_lost _ _ _ S) as (lost & PM & LO). destruct S as ([W RA RL RM] & _).
  assert (DB : (t_depth my0 < 30)%nat) by (eapply depth_bound; eauto).
  induction FL as [|x L es Ls (pads & PL & FP) FL IH]; cbn [combine map concat].
  { exists []. unfold common, mem. cbn [existsb]. rewrite filter_false. split; auto. }
  inversion_clear FE. inversion_clear ND. destruct (IH H1 H3) as (rest & IH1 & IH2). rewrite filter_app, map_app. cbn [fst snd].
  exists (map val (filter (fun b => key b =? x)%Z lost) ++ rest). split; [|intros NO; rewrite (LO NO), (IH2 NO); auto].
  rewrite <- split_common by auto. rewrite map_app, <- IH1.
  rewrite <- app_assoc. rewrite (Permutation_app_comm _ (_ ++ rest)), <- app_assoc, app_assoc.
  rewrite (Permutation_app_comm rest). apply Permutation_app_tail.
  unfold plain_ii. rewrite filter_map, map_map. cbn [fst snd]. rewrite <- map_app. apply Permutation_map.
  assert (EQ : forall l, filter (fun b => key b - x =? 0)%Z l = filter (fun b => key b =? x)%Z l).
  { intros l. apply filter_ext. intros y. destruct (Z.eqb_spec (key y - x) 0), (Z.eqb_spec (key y) x); auto; lia. }
  rewrite EQ, (filter_perm _ _ _ PL), filter_app.
  rewrite (filter_none (fun b => key b =? x)%Z pads); cycle 1.
  { intros y Hy. rewrite Forall_forall in FP. specialize (pad_key _ (FP y Hy)). unfold element in *. apply Z.eqb_neq. lia. }
  rewrite app_nil_r. rewrite (placed_filter_path hashA (fun b => key b =? x)%Z (hash x) my0); auto.
  - rewrite <- filter_app. apply filter_perm. auto.
  - intros y. rewrite hash_len. lia.
  - intros y Hy. apply Z.eqb_eq in Hy. subst; auto.
Qed.

Lemma common_step h0 h1 es0 es1 : NoDup (h1 ++ es1) ->
  Permutation (common key h0 h1 ++ joined h0 h1 es0 es1) (common key (h0 ++ es0) (h1 ++ es1)).
Proof.
  intros ND. unfold joined. rewrite app_assoc.
  replace (common key h0 h1 ++ common key es0 h1) with (common key (h0 ++ es0) h1) by (unfold common; rewrite filter_app; auto).
  generalize (h0 ++ es0). intros h. unfold common. induction h as [|b h IH]; cbn [filter app]; auto.
  replace (mem (key b) (h1 ++ es1)) with (mem (key b) h1 || mem (key b) es1)%bool by (unfold mem; rewrite existsb_app; auto).
  destruct (mem (key b) h1) eqn:M1, (mem (key b) es1) eqn:M2; cbn [orb app]; auto.
  - exfalso. unfold mem in *. apply existsb_exists in M1 as (y & Hy & Ey), M2 as (z & Hz & Ez). apply Z.eqb_eq in Ey, Ez. subst y z.
    clear - ND Hy Hz. induction h1; cbn in *; [auto|]. inversion_clear ND. destruct Hy as [->|Hy]; auto. apply H. apply in_or_app; auto.
  - rewrite <- Permutation_middle. constructor. exact IH.
Qed.

(** ** the exchange of messages I and II *)
(** state of the two parties after histories [h0], [h1] *)
Record agree (my0 : tree A) (other0 : tree (ct Gr)) (my1 : tree Z) (other1 : tree E) (h0 : list A) (h1 : list Z) : Prop := {
  ag_side0 : side hashA my0 h0;
  ag_side1 : side hash my1 h1;
  ag_mir0 : mirrors Rep is_pad my0 other1;
  ag_mir1 : mirrors Rep1 pad_elem my1 other0 }.

Lemma exchange my0 other0 my1 other1 h0 h1 es0 es1 tp :
  agree my0 other0 my1 other1 h0 h1 ->
  int_range (length (h0 ++ es0)) -> int_range (length (h1 ++ es1)) ->
  match generate_message_i hash pk key first ser_cand mk enc ser es0 my0 other0 tp with
  | Ok ((my0', m1), _) =>
     (no_overflow my0' -> no_overflow my0) /\
     forall tp2,
     match generate_message_ii hash pk deser deser_cand split mask seal m1 es1 (my1, other1) tp2 with
     | ((my1', other1'), Ok (m2, _)) =>
         (no_overflow my1' -> no_overflow my1) /\
         exists other0' cs,
           recv_update deser_plain (m_updates m2) other0 = Ok other0'
           /\ agree my0' other0' my1' other1' (h0 ++ es0) (h1 ++ es1)
           /\ omap deser_cand (m_cands m2) = Ok cs
           /\ Forall (fun c => exists k v, PayOut k v (snd c)) cs
           /\ (NoDup (h1 ++ es1) ->
               Forall (fun a => element (key a)) (h0 ++ es0) -> Forall element (h1 ++ es1) ->
               exists vs rest, Permutation (vs ++ rest) (map val (joined h0 h1 es0 es1))
                 /\ (no_overflow my0' -> no_overflow my1' -> rest = [])
                 /\ Forall2 (fun v c => PayOut 0 v (snd c)) vs (filter (is_match sk0) cs))
     | (_, Err _) => True | _ => False end
  | Err _ => True | _ => False end.
Proof.
  intros [S0 S1 M0 M1] IR0 IR1. rewrite app_length in IR0, IR1.
  unfold generate_message_i.
  pose proof (send_step hashA mk enc ser deser Rep is_pad (fun a => hash_len (key a)) mk_ok enc_ok ser_ok es0 my0 other1 h0 tp S0 M0 IR0) as X.
  destruct (send_update _ mk enc ser es0 my0 tp) as [my0' o]. destruct X as (S0' & N0 & X).
  unfold bind at 1. destruct o as [[u tp1]| | |]; auto. destruct X as (other1' & ER & M0').
  unfold bind at 1. pose proof (all_candidates_i my1 other0 es0 M1 tp1) as Y.
  destruct (mapM _ es0 tp1) as [[wss tp1b]| | |]; auto. destruct Y as (Ls & cs & FL & ED & FC). cbn.
  split; auto. intros tp2. rewrite ER.
  pose proof (answer_spec my0' other1' es1 (concat wss) cs _ tp2 M0' ED FC) as Z.
  destruct (answer_candidates _ _ _ _ _ _ _ _ _ _) as [[rs tp3]| | |]; auto.
  destruct Z as (L & Ls1 & fs & EF & FF & FL1 & PL).
  pose proof (send_step hash (fun x => x) (enc_plain pk) ser_plain deser_plain Rep1 pad_elem hash_len (fun x H => H)
     (fun a t => enc_plain_ok sk a t) (fun a c _ => ser_plain_ok c) es1 my1 other0 h1 tp3 S1 M1 IR1) as Q.
  destruct (send_update _ _ (enc_plain pk) ser_plain es1 my1 tp3) as [my1' o1]. destruct Q as (S1' & N1 & Q).
  unfold bind. destruct o1 as [[u1 tp4]| | |]; auto. destruct Q as (other0' & ER1 & M1'). cbn.
  split; auto. exists other0', fs. split; auto. split; [constructor; auto|]. split; auto.
  split. { clear - FF. induction FF as [|l c L fs (F1 & F2) FF IH]; constructor; eauto. }
  intros ND FE0 FE1.
  (* matches are exactly the zero differences *)
  assert (BND : Forall (fun l : Z * V => - (2 * 10 ^ 15) < fst l < 2 * 10 ^ 15)%Z L).
  { eapply Permutation_Forall; [symmetry; exact PL|]. apply Forall_app. apply Forall_app in FE0 as (FE00 & FE0). apply Forall_app in FE1 as (FE10 & FE1).
    assert (IN1 : forall h y, In y (get_path h my1) -> element y).
    { intros h y Hy. destruct S1 as (_ & lost & PM). rewrite Forall_forall in FE10. apply FE10. eapply Permutation_in; [exact PM|]. apply in_or_app. left.
      unfold get_path in Hy. apply in_flat_map in Hy as (v & _ & Hv). unfold contents.
      apply (stored_In y (t_nodes my1)). eauto. }
    assert (IN0 : forall h y, In y (get_path h my0') -> element (key y)).
    { intros h y Hy. destruct S0' as (_ & lost & PM). assert (FA : Forall (fun a => element (key a)) (h0 ++ es0)) by (apply Forall_app; auto).
      rewrite Forall_forall in FA. apply FA. eapply Permutation_in; [exact PM|]. apply in_or_app. left.
      unfold get_path in Hy. apply in_flat_map in Hy as (v & _ & Hv). unfold contents.
      apply (stored_In y (t_nodes my0')). eauto. }
    split.
    - clear - FL FE0 IN1. revert FE0. induction FL as [|a L es Ls (pads & PLL & FP) _ IH]; intros FE; cbn [combine map concat]; [constructor|]. inversion_clear FE.
      apply Forall_app. split; auto. apply Forall_forall. intros l Hl. apply in_map_iff in Hl as (y & <- & Hy). cbn [fst].
      apply (Permutation_in _ PLL) in Hy. apply in_app_or in Hy as [Hy|Hy].
      + apply IN1 in Hy. unfold element in *. lia.
      + rewrite Forall_forall in FP. apply FP in Hy. unfold pad_elem, element in *. lia.
    - clear - FL1 FE1 IN0 pad_key. revert FE1. induction FL1 as [|x L es Ls (pads & PLL & FP) _ IH]; intros FE; cbn [combine map concat]; [constructor|]. inversion_clear FE.
      apply Forall_app. split; auto. apply Forall_forall. intros l Hl. apply in_map_iff in Hl as (y & <- & Hy). cbn [fst].
      apply (Permutation_in _ PLL) in Hy. apply in_app_or in Hy as [Hy|Hy].
      + apply IN0 in Hy. unfold element in *. lia.
      + rewrite Forall_forall in FP. apply FP, pad_key in Hy. unfold element in *. lia. }
  assert (FE0' := FE0). assert (FE1' := FE1). apply Forall_app in FE0' as (FE00 & FE01). apply Forall_app in FE1' as (FE10 & FE11).
  destruct (zeros_i my1 h1 S1) with (es := es0) (Ls := Ls) as (r1 & Z1 & Z2); auto.
  { clear - ND. induction h1; cbn in *; [constructor|]. inversion_clear ND. constructor; auto. intros HI; apply H; apply in_or_app; auto. }
  { unfold int_range in *. lia. }
  destruct (zeros_ii my0' (h0 ++ es0) S0') with (es := es1) (Ls := Ls1) as (r2 & Z3 & Z4); auto.
  { rewrite app_length. auto. }
  { clear - ND. induction h1; cbn in *; auto. inversion_clear ND. auto. }
  exists (map snd (filter (fun l => fst l =? 0)%Z L)), (r1 ++ r2). split; [|split].
  - rewrite (Permutation_map _ (filter_perm _ _ _ PL)), filter_app, map_app. unfold joined. rewrite map_app.
    rewrite <- Z1, <- Z3. rewrite <- !app_assoc. apply Permutation_app_head. rewrite !app_assoc. apply Permutation_app_tail. apply Permutation_app_comm.
  - intros NO0 NO1. rewrite Z2, Z4; auto.
  - clear - FF BND big sk. induction FF as [|l c L fs (F1 & F2) FF IH]; cbn; [constructor|]. inversion_clear BND.
    unfold is_match at 1. rewrite (div_small _ H) in F1.
    destruct (Z.eqb_spec (fst l) 0) as [E1|N1].
    + replace (geqb (decrypt sk0 (fst c)) gid) with true. { cbn. constructor; auto. rewrite <- E1. auto. }
      symmetry. apply geqb_spec. tauto.
    + replace (geqb (decrypt sk0 (fst c)) gid) with false. { auto. }
      symmetry. apply geqb_false. tauto.
Qed.

(** the same through Connection::Send *)
Lemma exchange_send (fin : bool) (csize : client_msg Gr -> Z) (ssize : server_msg Gr -> Z) handle my0 other0 (s : server E) h0 h1 es0 es1 tp :
  agree my0 other0 (sv_my s) (sv_other s) h0 h1 ->
  int_range (length (h0 ++ es0)) -> int_range (length (h1 ++ es1)) ->
  nth (sv_day s) (sv_data s) [] = es1 ->
  (forall m tp, handle (C_party_zero (P0_I m)) s tp =
     answer_i ssize (generate_message_ii hash pk deser deser_cand split mask seal) m (add_comm (csize (C_party_zero (P0_I m))) s) tp
       (if fin then sv_finish_day else fun s => s)) ->
  match generate_message_i hash pk key first ser_cand mk enc ser es0 my0 other0 tp with
  | Ok ((my0', m1), tp1) =>
     (no_overflow my0' -> no_overflow my0) /\
     match send handle (C_party_zero (P0_I m1)) s tp1 with
     | Ok ((s', r), _) =>
         (no_overflow (sv_my s') -> no_overflow (sv_my s)) /\
         sv_data s' = sv_data s /\ sv_total s' = sv_total s /\ sv_shares s' = sv_shares s
         /\ sv_day s' = (if fin then S (sv_day s) else sv_day s) /\
         exists m2 other0' cs,
           r = S_party_one (P1_II m2)
           /\ recv_update deser_plain (m_updates m2) other0 = Ok other0'
           /\ agree my0' other0' (sv_my s') (sv_other s') (h0 ++ es0) (h1 ++ es1)
           /\ omap deser_cand (m_cands m2) = Ok cs
           /\ Forall (fun c => exists k v, PayOut k v (snd c)) cs
           /\ (NoDup (h1 ++ es1) ->
               Forall (fun a => element (key a)) (h0 ++ es0) -> Forall element (h1 ++ es1) ->
               exists vs rest, Permutation (vs ++ rest) (map val (joined h0 h1 es0 es1))
                 /\ (no_overflow my0' -> no_overflow (sv_my s') -> rest = [])
                 /\ Forall2 (fun v c => PayOut 0 v (snd c)) vs (filter (is_match sk0) cs))
     | Err _ => True | _ => False end
  | Err _ => True | _ => False end.
Proof.
  intros AG IR0 IR1 E1 HH.
  pose proof (exchange my0 other0 (sv_my s) (sv_other s) h0 h1 es0 es1 tp AG IR0 IR1) as X.
  destruct (generate_message_i _ _ _ _ _ _ _ _ _ _ _ _) as [[[my0' m1] tp1]| | |]; auto.
  destruct X as (X0 & X). split; auto. unfold send. rewrite HH. unfold answer_i. cbn [add_comm sv_day sv_data sv_my sv_other]. rewrite E1.
  specialize (X (fun i => tp1 (2 * i)%nat)).
  destruct (generate_message_ii _ _ _ _ _ _ _ _ _ _ _) as [[my1' other1'] [[m2 tp2]| | |]]; auto.
  destruct X as (X1 & other0' & cs & X2 & X3 & X4 & X5 & X6).
  destruct fin; cbn; (split; [auto|]; do 4 (split; [reflexivity|]); exists m2, other0', cs; auto 10).
Qed.
End Gen.
