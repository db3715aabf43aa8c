(** Proofs about the original construction. *)
Require Import String.
Require Import List Arith Lia ZArith Permutation Bool Znumtheory.
Import ListNotations.
From Verif Require Import Prelude TreeModel TreeSpec TreeIndex TreeProofs TreeHistory Coins Group ElGamalModel ElGamalProofs BytesModel CipherModel PaillierModel PaillierProofs WireModel WireProofs SyncModel SyncSpec SyncProofs KindProofs PropsSync AddModel AddSpec AddProofs AddRun OrigModel.
Local Open Scope Z_scope.

Lemma mem_In x l : mem x l = true <-> In x l.
Proof.
  unfold mem. rewrite existsb_exists. split.
  - intros (y & Hy & E). apply Z.eqb_eq in E. congruence.
  - intros HI. exists x. split; auto. apply Z.eqb_refl.
Qed.
Lemma existsb_perm {A} (p : A -> bool) l l' : Permutation l l' -> existsb p l = existsb p l'.
Proof. induction 1; cbn; try congruence. rewrite !orb_assoc, (orb_comm (p y)). auto. Qed.

Section Orig.
Context {Gr : group}.
Variable hash : Z -> list bool.
Variable H : Z -> Gr.
Variable dec_string : Z -> string.
Variables sk0 sk1 : Z.
Variable csize : og_req Gr -> Z.
Variable ssize : og_reply Gr -> Z.
Hypothesis hash_len : forall x, length (hash x) = 256%nat.
Hypothesis big : 2 * 10 ^ 15 <= ord Gr.
Hypothesis K0 : 1 <= sk0 < ord Gr.
Hypothesis K1 : 1 <= sk1 < ord Gr.
Notation pk0 := (@key_of Gr sk0).
Notation pk1 := (@key_of Gr sk1).
Notation Rep1 := (fun (x : Z) (c : ct Gr) => decrypt sk1 c = gpow gen x).

Lemma not_div k : 1 <= k < ord Gr -> ~ (ord Gr | k).
Proof. intros B (z & E). clear - B E. destruct (Z_lt_le_dec z 1); nia. Qed.
Lemma pow_base_inj (p q : Gr) k : ~ (ord Gr | k) -> gpow p k = gpow q k -> p = q.
Proof.
  intros ND E. destruct (geqb (gop p (ginv q)) gid) eqn:Q.
  - apply geqb_spec in Q. apply (gop_cancel_l (ginv q)). rewrite gop_inv, gop_comm. auto.
  - apply geqb_false in Q. exfalso. apply ND. apply (gpow_id_iff _ k Q). rewrite gpow_op, gpow_inv, E. apply gop_inv_r.
Qed.
Lemma key_nd : ~ (ord Gr | sk0 * sk1).
Proof. intros D. apply prime_mult in D as [D|D]; [| |apply ord_prime]; revert D; apply not_div; auto. Qed.

(** *** which new elements have a match on party one's plaintext tree *)
Definition hit (t : tree Z) (x : Z) : bool := mem x (get_path (hash x) t).
Lemma hit_In t Y x : side hash t Y -> hit t x = true -> In x Y.
Proof.
  intros (_ & lost & PM) HT. apply mem_In in HT. eapply Permutation_in; [exact PM|]. apply in_or_app. left.
  unfold get_path in HT. apply in_flat_map in HT as (v & _ & Hv). unfold contents. apply (stored_In x (t_nodes t)). eauto.
Qed.
Lemma In_hit t Y x : side hash t Y -> int_range (length Y) -> no_overflow t -> In x Y -> hit t x = true.
Proof.
  intros S IR NO HI. pose proof (side_perm _ _ _ S NO) as PM. destruct S as ([W RA RL RM] & _).
  assert (DB : (t_depth t < 30)%nat) by (eapply depth_bound; eauto).
  assert (P : Permutation (filter (Z.eqb x) (get_path (hash x) t)) (filter (Z.eqb x) (contents t))).
  { apply (placed_filter_path hash (Z.eqb x) (hash x) t); auto.
    - intros y. rewrite hash_len. lia.
    - intros y Hy. apply Z.eqb_eq in Hy. subst; auto. }
  unfold hit. apply mem_In.
  assert (J : In x (filter (Z.eqb x) (contents t))).
  { apply filter_In. split; [|apply Z.eqb_refl]. eapply Permutation_in; [symmetry; exact PM|auto]. }
  symmetry in P. apply (Permutation_in _ P) in J. apply filter_In in J. tauto.
Qed.

(** *** message II: looking up in the map *)
Definition keyed (U : list Z) : list (Gr * string) := map (fun x => (gpow (H x) (sk0 * sk1), dec_string x)) U.
Lemma find_keyed U y : (forall x, In x U -> H x = H y -> x = y) ->
  og_find (gpow (H y) (sk0 * sk1)) (keyed U) = if mem y U then Some (dec_string y) else None.
Proof.
  induction U as [|x U IH]; intros INJ; cbn [keyed map og_find]; [reflexivity|].
  unfold mem. cbn [existsb]. destruct (Z.eqb_spec y x) as [->|NE].
  - rewrite geqb_refl. reflexivity.
  - replace (geqb _ _) with false.
    + cbn [orb]. apply IH. intros z Hz. apply INJ. right; auto.
    + symmetry. apply geqb_false. intros E. apply pow_base_inj in E; [|apply key_nd]. apply NE. symmetry. apply INJ; cbn; auto.
Qed.
Lemma lookups_spec U es : (forall x y, In x U -> In y es -> H x = H y -> x = y) -> forall ps inter,
  omap (fun x => point_to_bytes (gpow (H x) sk1)) es = Ok ps ->
  match og_lookups sk0 (keyed U) ps inter with
  | (inter', Ok _) => inter' = inter ++ map dec_string (filter (fun y => mem y U) es)
  | (_, Err _) => True | _ => False end.
Proof.
  induction es as [|y es IH]; intros INJ ps inter E; cbn [omap] in E.
  - inversion E; subst. cbn. rewrite app_nil_r. auto.
  - apply obind_Ok in E as (w & Ew & E). apply obind_Ok in E as (ws & Es & E). inversion E; subst ps.
    unfold point_to_bytes in Ew. destruct (geqb (gpow (H y) sk1) gid) eqn:G1; [discriminate|]. inversion Ew; subst w.
    cbn [og_lookups create_point]. rewrite G1. cbn [obind]. unfold point_key. rewrite <- gpow_mul, (Z.mul_comm sk1).
    destruct (geqb (gpow (H y) (sk0 * sk1)) gid); auto.
    rewrite find_keyed by (intros x Hx; apply INJ; cbn; auto).
    specialize (IH (fun x z Hx Hz => INJ x z Hx (or_intror Hz)) ws (inter ++ (if mem y U then [dec_string y] else [])) Es).
    cbn [filter]. destruct (mem y U); cbn [map].
    + destruct (og_lookups _ _ _ _) as [i [[]| | |]]; auto. rewrite IH, <- app_assoc. auto.
    + destruct (og_lookups _ _ _ _) as [i [[]| | |]]; auto. rewrite IH, app_nil_r. auto.
Qed.

(** *** message II: candidates; message III: their answer *)
Definition blinded (hr : Gr) (x y : Z) (c : ct Gr) : Prop :=
  exists beta, 1 <= beta < ord Gr /\ decrypt sk1 c = gop hr (gpow gen ((x - y) * beta)).
Lemma candidates_spec t tr alpha hr x tp : mirrors Rep1 pad_elem t tr -> decrypt sk1 alpha = hr ->
  exists cs tp', og_candidates hash pk1 tr alpha x tp = Ok (cs, tp')
    /\ exists L pads, Forall2 (blinded hr x) L cs /\ Permutation L (get_path (hash x) t ++ pads) /\ Forall pad_elem pads.
Proof.
  intros MI EA. unfold og_candidates. destruct (mirrors_path Rep1 pad_elem t tr (hash x) MI) as (L & pads & F & PM & FP).
  unfold bind at 1. destruct (@encrypt_total Gr pk1 x tp) as (cx & tp1 & EC). rewrite EC. apply encrypt_Ok in EC.
  set (f := fun y => beta <- create_random_mask;; ret (ct_mul alpha (ct_exp (ct_mul cx (ct_invert y)) beta))).
  assert (G : forall L path tp, Forall2 (fun y c => decrypt sk1 c = gpow gen y) L path ->
    exists cs tp', mapM f path tp = Ok (cs, tp') /\ Forall2 (blinded hr x) L cs).
  { clear - EC EA. intros L path. revert L. induction path as [|y path IH]; intros [|z L] tp F; try solve [inversion F]; cbn [mapM].
    - eexists _, _. split; [reflexivity|constructor].
    - apply F2_cons in F as (FY & F). unfold bind at 1. unfold f at 1. unfold bind at 1, create_random_mask. destruct (gen_private_key_total (Gr := Gr) tp) as (b & tp1 & EB). rewrite EB.
      apply gen_private_key_range in EB. cbn [ret]. unfold ret at 1. unfold bind at 1; destruct (IH L tp1 F) as (cs & tp2 & -> & FC).
      eexists _, _. split; [reflexivity|]. constructor; auto. exists b. split; auto.
      rewrite decrypt_mul, decrypt_exp_ct, decrypt_mul, decrypt_invert, EC, FY, <- gpow_opp, <- gpow_add, EA, <- gpow_mul. reflexivity. }
  destruct (G L _ tp1 F) as (cs & tp2 & -> & FC). eexists _, _. split; [reflexivity|]. exists L, pads. auto.
Qed.

(** the answer of party one to one candidate set *)
Lemma answer_one alpha hr x L cs ws tp : decrypt sk0 alpha = hr -> omap (@ser_plain Gr) cs = Ok ws -> Forall2 (blinded hr x) L cs ->
  Forall (fun y => - (2 * 10 ^ 15) < x - y < 2 * 10 ^ 15) L ->
  match oc_candidates pk0 sk1 (ct_invert alpha) ws tp with
  | Ok (ws', _) => exists cs', omap deser_cand_plain ws' = Ok cs' /\ existsb (fun c => geqb (decrypt sk0 c) gid) cs' = mem x L
  | Err _ => True | _ => False end.
Proof.
  intros EA ES FB FS. unfold oc_candidates.
  assert (ED : omap deser_cand_plain ws = Ok cs).
  { clear - ES. revert ws ES. induction cs as [|c cs IH]; intros ws ES; cbn in ES.
    - inversion ES. auto.
    - apply obind_Ok in ES as (w & Ew & ES). apply obind_Ok in ES as (ws' & Es & ES). inversion ES; subst. cbn.
      unfold ser_plain in Ew. pose proof (ser_ct_returns c) as R. destruct (ser_ct c) as [wc| | |]; try discriminate. cbn in Ew. inversion Ew; subst w.
      cbn. rewrite R. cbn. rewrite (IH _ Es). reflexivity. }
  rewrite ED. unfold bind at 1, lift at 1. set (f := fun c => gamma <- create_random_mask;; beta <- encrypt_point pk0 (decrypt sk1 c) ;; ret (ct_exp (ct_mul beta (ct_invert alpha)) gamma)).
  assert (G : forall tp, exists outs tp', mapM f cs tp = Ok (outs, tp') /\ existsb (fun c => geqb (decrypt sk0 c) gid) outs = mem x L).
  { clear - EA FB FS big. induction FB as [|y c L cs (b & Bb & Eb) FB IH]; intros tp; cbn [mapM].
    - eexists _, _. split; reflexivity.
    - apply Forall_cons_iff in FS as (FY & FS). unfold bind at 1. unfold f at 1. unfold bind at 1, create_random_mask. destruct (gen_private_key_total (Gr := Gr) tp) as (g & tp1 & EG). rewrite EG.
      apply gen_private_key_range in EG. unfold bind at 1. destruct (@encrypt_point_total Gr pk0 (decrypt sk1 c) tp1) as (be & tp2 & EB). rewrite EB.
      apply encrypt_point_Ok in EB. unfold ret at 1. unfold bind at 1. destruct (IH FS tp2) as (outs & tp3 & -> & IE). eexists _, _. split; [reflexivity|].
      cbn [existsb]. unfold mem in *. cbn [existsb]. f_equal; auto.
      rewrite decrypt_exp_ct, decrypt_mul, decrypt_invert, EB, EA, Eb.
      rewrite (gop_comm _ hr), <- gop_assoc, gop_inv_r, gop_id_r, <- gpow_mul.
      apply eq_true_iff_eq. rewrite geqb_spec, gen_pow_id_iff, Z.eqb_eq. split.
      + intros D. apply prime_mult in D as [D|D]; [| |apply ord_prime].
        * apply prime_mult in D as [D|D]; [| |apply ord_prime]. { apply (div_small 0 0 big) in D; auto. lia. } exfalso. apply (not_div b); auto.
        * exfalso. apply (not_div g); auto.
      + intros ->. rewrite Z.sub_diag. apply Z.divide_0_r. }
  destruct (G tp) as (outs & tp1 & EG & EX). unfold bind at 1. rewrite EG. unfold bind at 1.
  destruct (shuffle_total outs tp1) as (sh & tp2 & ESH). rewrite ESH. apply shuffle_perm in ESH.
  unfold lift.
  assert (R : match omap (@ser_plain Gr) sh with Ok ws' => omap deser_cand_plain ws' = Ok sh | Err _ => True | _ => False end).
  { clear. induction sh as [|c sh IH]; cbn; auto. unfold ser_plain at 1. pose proof (ser_ct_returns c) as R. destruct (ser_ct c) as [wc| | |]; cbn; auto.
    destruct (omap (@ser_plain Gr) sh) as [ws'| | |]; cbn; auto. rewrite R. cbn. rewrite IH. reflexivity. }
  destruct (omap (@ser_plain Gr) sh) as [ws'| | |]; auto. exists sh. split; auto. rewrite (existsb_perm _ _ _ ESH). auto.
Qed.

(** messages II and III for all the new elements of party zero *)
Lemma answer_all t tr es tp : mirrors Rep1 pad_elem t tr -> Forall element es -> (forall h y, In y (get_path h t) -> element y) ->
  match og_answer_ii hash H pk0 pk1 tr es tp with
  | Ok (r, _) => forall tp2, match oc_message_iii pk0 sk1 r tp2 with
      | Ok (css, _) => Forall2 (fun x ws => exists cs, omap deser_cand_plain ws = Ok cs /\ existsb (fun c => geqb (decrypt sk0 c) gid) cs = hit t x) es css
      | Err _ => True | _ => False end
  | Err _ => True | _ => False end.
Proof.
  intros MI FE IN. unfold og_answer_ii. unfold bind at 1. unfold rand_less_than. pose proof (@ord_pos Gr).
  destruct (Z.ltb_spec 0 (ord Gr)); [|lia]. set (r := tp 0%nat mod ord Gr). generalize (tl_tape tp). intros tpa.
  unfold bind at 1. destruct (@encrypt_point_total Gr pk0 (H r) tpa) as (a0 & tpb & E0). rewrite E0. apply encrypt_point_Ok in E0.
  unfold bind at 1. unfold lift at 1. pose proof (ser_ct_returns a0) as SR. destruct (ser_ct a0) as [alpha| | |]; auto.
  unfold bind at 1. destruct (@encrypt_point_total Gr pk1 (H r) tpb) as (a1 & tpc & E1). rewrite E1. apply encrypt_point_Ok in E1.
  assert (G : forall es tp, Forall element es -> exists css tp', mapM (og_candidates hash pk1 tr a1) es tp = Ok (css, tp') /\
    Forall2 (fun x cs => exists L, Forall2 (blinded (H r) x) L cs /\ Forall (fun y => - (2 * 10 ^ 15) < x - y < 2 * 10 ^ 15) L /\ mem x L = hit t x) es css).
  { clear - MI E1 IN. clearbody r. clear tp. induction es as [|x es IH]; intros tp FE; cbn [mapM]. { eexists _, _. split; [reflexivity|constructor]. }
    apply Forall_cons_iff in FE as (EX & FE). unfold bind at 1. destruct (candidates_spec t tr a1 (H r) x tp MI E1) as (cs & tp1 & -> & L & pads & F1 & F2 & F3).
    unfold bind at 1. destruct (IH tp1 FE) as (css & tp2 & -> & F4). eexists _, _. split; [reflexivity|]. constructor; auto.
    exists L. split; auto. split.
    - apply Forall_forall. intros y Hy. apply (Permutation_in _ F2) in Hy. apply in_app_or in Hy as [Hy|Hy].
      + apply IN in Hy. unfold element in *. lia.
      + rewrite Forall_forall in F3. apply F3 in Hy. unfold pad_elem, element in *. lia.
    - unfold hit. apply eq_true_iff_eq. rewrite !mem_In. split; intros HI.
      + apply (Permutation_in _ F2) in HI. apply in_app_or in HI as [HI|HI]; auto. rewrite Forall_forall in F3. apply F3 in HI. unfold pad_elem, element in *. lia.
      + symmetry in F2. eapply Permutation_in; [exact F2|]. apply in_or_app; auto. }
  destruct (G es tpc FE) as (css & tpd & EM & FC). unfold bind at 1. rewrite EM. unfold bind at 1, lift at 1.
  assert (RT : match omap (omap (@ser_plain Gr)) css with Ok wss => Forall2 (fun cs ws => omap (@ser_plain Gr) cs = Ok ws) css wss | Err _ => True | _ => False end).
  { clear. induction css as [|cs css IH]; cbn; auto.
    assert (R : match omap (@ser_plain Gr) cs with Ok _ | Err _ => True | _ => False end).
    { clear. induction cs as [|c cs IH]; cbn; auto. unfold ser_plain at 1. pose proof (ser_ct_returns c) as R. destruct (ser_ct c); cbn; auto. destruct (omap (@ser_plain Gr) cs); auto. }
    destruct (omap (@ser_plain Gr) cs) as [ws| | |] eqn:EE; cbn; auto. destruct (omap (omap _) css); cbn; auto. }
  destruct (omap (omap _) css) as [wss| | |]; auto. unfold ret. intros tp2. unfold oc_message_iii.
  unfold bind at 1, lift. rewrite SR.
  clear - RT FC big E0. revert wss RT tp2. induction FC as [|x cs es css (L & F1 & F2 & F3) FC IH]; intros [|y wss] RT tp2; try solve [inversion RT]; cbn [mapM].
  { constructor. }
  apply F2_cons in RT as (RY & RT).
  unfold bind at 1. pose proof (answer_one a0 (H r) x L cs y tp2 E0 RY F1 F2) as A. destruct (oc_candidates _ _ _ _ _) as [[ws' tp3]| | |]; auto.
  unfold bind at 1. specialize (IH _ RT tp3). destruct (mapM _ wss tp3) as [[css' tp4]| | |]; auto. cbn. constructor; auto.
  destruct A as (cs' & A1 & A2). exists cs'. split; auto. congruence.
Qed.

(** *** message IV *)
Definition sorted_out (h : Z -> bool) (x : Z) (wm : wpoint Gr * Z) : Prop :=
  if h x then snd wm = 0 else 1 <= snd wm < ord Gr /\ fst wm = WPt (gpow (gpow (H x) sk0) (snd wm)).
Lemma sort_out_spec (h : Z -> bool) es css : Forall2 (fun x ws => exists cs, omap deser_cand_plain ws = Ok cs /\ existsb (fun c => geqb (decrypt sk0 c) (@gid Gr)) cs = h x) es css ->
  forall inter masks tp,
  match og_sort_out H dec_string sk0 es css inter masks tp with
  | ((inter', masks'), Ok (ps, _)) => exists l, inter' = inter ++ map dec_string (filter h es) /\ masks' = masks ++ map snd l /\ ps = map fst l /\ Forall2 (sorted_out h) es l
  | (_, Err _) => True | _ => False end.
Proof.
  intros F. pose proof (@ord_pos Gr) as OP. induction F as [|x ws es css (cs & E1 & E2) F IH]; intros inter masks tp; cbn [og_sort_out].
  { exists []. cbn. rewrite !app_nil_r. auto. }
  rewrite E1, E2. cbn [filter]. destruct (h x) eqn:HX.
  - unfold bind at 1. unfold rand_less_than at 1. destruct (Z.ltb_spec 0 (ord Gr)); [|lia].
    unfold bind at 1, lift at 1. unfold point_to_bytes. destruct (geqb (H _) gid); auto. unfold ret.
    specialize (IH (inter ++ [dec_string x]) (masks ++ [0]) (tl_tape tp)).
    destruct (og_sort_out _ _ _ _ _ _ _ _) as [[i' m'] [[ps tp']| | |]]; auto.
    destruct IH as (l & I1 & I2 & I3 & I4). exists ((WPt (H (tp 0%nat mod ord Gr)), 0) :: l). cbn [map fst snd]. rewrite I1, I2, I3, <- !app_assoc.
    split; auto. split; auto. split; auto. constructor; auto. unfold sorted_out. rewrite HX. auto.
  - unfold bind at 1, create_random_mask. destruct (gen_private_key_total (Gr := Gr) tp) as (m & tp1 & EM). rewrite EM. apply gen_private_key_range in EM.
    unfold bind at 1, lift at 1. unfold point_to_bytes. destruct (geqb (gpow _ m) gid); auto. unfold ret.
    specialize (IH inter (masks ++ [m]) tp1).
    destruct (og_sort_out _ _ _ _ _ _ _ _) as [[i' m'] [[ps tp']| | |]]; auto.
    destruct IH as (l & I1 & I2 & I3 & I4). eexists ((_, m) :: l). cbn [map fst snd]. rewrite I1, I2, I3, <- !app_assoc.
    split; auto. split; auto. split; [reflexivity|]. constructor; auto. unfold sorted_out. rewrite HX. auto.
Qed.

(** *** message V and recording *)
Lemma unmask (p : Gr) m inv : 1 <= m < ord Gr -> mod_inverse m (ord Gr) = Ok inv -> gpow (gpow (gpow (gpow p sk0) m) sk1) inv = gpow p (sk0 * sk1).
Proof.
  intros B E. apply mod_inverse_Ok in E as (_ & _ & _ & E). 
  transitivity (gpow p (sk0 * sk1 * (m * inv))). { rewrite <- !gpow_mul. f_equal. ring. }
  rewrite (gpow_mul p (sk0 * sk1) (m * inv)). generalize (gpow p (sk0 * sk1)). intros q. unfold NumTheory.eqm in E. destruct E as (z & E).
  replace (m * inv) with (1 + ord Gr * z) by lia. rewrite gpow_add, gpow_1, gpow_mul, gpow_ord, gpow_id, gop_id_r. auto.
Qed.
Lemma record_spec (h : Z -> bool) es l : Forall2 (sorted_out h) es l -> forall ps m,
  omap (fun w => let! p := create_point w in point_to_bytes (gpow p sk1)) (map fst l) = Ok ps ->
  match og_record dec_string ps (map snd l) es m with
  | (m', Ok _) => m' = keyed (rev (filter (fun x => negb (h x)) es)) ++ m
  | (_, Err _) => True | _ => False end.
Proof.
  intros F. induction F as [|x [w k] es l SO F IH]; intros ps m E; cbn [map omap fst snd] in E.
  { inversion E; subst. cbn. auto. }
  apply obind_Ok in E as (w' & Ew & E). apply obind_Ok in E as (ws & Es & E). inversion E; subst ps. cbn [og_record map snd tl].
  unfold sorted_out in SO. cbn [fst snd] in SO. cbn [filter]. destruct (h x) eqn:HX; cbn [negb].
  - subst k. cbn. apply IH; auto.
  - destruct SO as (B & ->). destruct (Z.eqb_spec k 0); [lia|].
    cbn [create_point] in Ew. destruct (geqb (gpow (gpow (H x) sk0) k) gid); [discriminate|]. cbn [obind] in Ew.
    unfold point_to_bytes in Ew. destruct (geqb (gpow (gpow (gpow (H x) sk0) k) sk1) gid) eqn:G; [discriminate|]. inversion Ew; subst w'.
    cbn [create_point]. rewrite G. cbn [obind].
    destruct (mod_inverse k (ord Gr)) as [inv| | |] eqn:MI.
    + cbn [obind]. rewrite (unmask _ _ _ B MI). unfold point_key. destruct (geqb (gpow (H x) (sk0 * sk1)) gid); auto.
      specialize (IH ws ((gpow (H x) (sk0 * sk1), dec_string x) :: m) Es). destruct (og_record _ _ _ _ _) as [m' [[]| | |]]; auto.
      rewrite IH. cbn [rev]. unfold keyed. rewrite map_app, <- app_assoc. reflexivity.
    + cbn. auto.
    + unfold mod_inverse in MI. destruct (_ && _)%bool; discriminate.
    + unfold mod_inverse in MI. destruct (_ && _)%bool; discriminate.
Qed.

(** *** one day *)
Variables (s0 s1 : list Z) (d0 d1 : list (list Z)) (D : nat).
Hypothesis R1 : int_range (length (s1 ++ concat d1)).
Hypothesis ND0 : NoDup (s0 ++ concat d0).
Hypothesis ND1 : NoDup (s1 ++ concat d1).
Hypothesis EL0 : Forall element (s0 ++ concat d0).
Hypothesis EL1 : Forall element (s1 ++ concat d1).
Hypothesis INJ : forall x y, In x (s0 ++ concat d0) -> In y (concat d1) -> H x = H y -> x = y.
Notation cm := (common (fun x : Z => x)).
(** everything so far, with what the parties started with *)
Notation all0 k := (s0 ++ upto k d0).
Notation all1 k := (s1 ++ upto k d1).
Lemma all_S (s : list Z) k d : s ++ upto (S k) d = (s ++ upto k d) ++ nth k d [].
Proof. rewrite upto_S, app_assoc. auto. Qed.
Lemma all_incl (s : list Z) k d : exists r, s ++ concat d = (s ++ upto k d) ++ r.
Proof. destruct (upto_incl k d) as (r & ->). exists r. rewrite app_assoc. auto. Qed.
Lemma all_NoDup (s : list Z) k d : NoDup (s ++ concat d) -> NoDup (s ++ upto k d).
Proof. destruct (all_incl s k d) as (r & ->). generalize (s ++ upto k d). intros l N. induction l as [|x l IH]; [constructor|]. cbn in N. inversion_clear N. constructor; auto. intros I. apply H0. apply in_or_app; auto. Qed.
Lemma all_Forall (P : Z -> Prop) (s : list Z) k d : Forall P (s ++ concat d) -> Forall P (s ++ upto k d).
Proof. destruct (all_incl s k d) as (r & ->). intros F. apply Forall_app in F. tauto. Qed.
Lemma all_range (s : list Z) k d : int_range (length (s ++ concat d)) -> int_range (length (s ++ upto k d)).
Proof. destruct (all_incl s k d) as (r & ->). unfold int_range. rewrite (app_length _ r). lia. Qed.

(** [T] was found in the tree, [U] is in the map, of which [N] was found later *)
Record og_inv (k : nat) (st : og_client * og_server Gr) : Prop := {
  oi_day0 : oc_day (fst st) = k; oi_day1 : og_day (snd st) = k;
  oi_tot0 : oc_total (fst st) = D; oi_tot1 : og_total (snd st) = D;
  oi_dat0 : oc_data (fst st) = d1; oi_dat1 : og_data (snd st) = d0;
  oi_side : side hash (oc_tree (fst st)) (all1 k);
  oi_mir : mirrors Rep1 pad_elem (oc_tree (fst st)) (og_tree (snd st));
  oi_sets : exists T U N missing found,
    Permutation (T ++ U) (all0 k) /\ og_map (snd st) = keyed U /\ og_inter (snd st) = map dec_string found
    /\ Permutation found (T ++ N) /\ Forall (fun x => In x (all1 k)) T
    /\ Permutation (cm s0 s1 ++ N ++ missing) (cm U (all1 k)) /\ (no_overflow (oc_tree (fst st)) -> missing = []) }.

Lemma common_all T Y : Forall (fun x => In x Y) T -> cm T Y = T.
Proof. induction 1 as [|x T HX F IH]; cbn; auto. apply mem_In in HX. unfold common in IH. rewrite HX. f_equal. auto. Qed.
Lemma common_none T Y : (forall x, In x T -> ~ In x Y) -> cm T Y = [].
Proof.
  induction T as [|x T IH]; intros HN; cbn; auto. destruct (mem x Y) eqn:E; [apply mem_In in E; exfalso; eapply HN; cbn; eauto|].
  apply IH. intros y Hy. apply HN. right; auto.
Qed.
Lemma common_app_l T U Y : cm (T ++ U) Y = cm T Y ++ cm U Y.
Proof. apply filter_app. Qed.
Lemma common_perm_l T U Y : Permutation T U -> Permutation (cm T Y) (cm U Y).
Proof. apply filter_perm. Qed.
Lemma NoDup_sub {A} (l l' m : list A) : Permutation (l ++ l') m -> NoDup m -> NoDup l'.
Proof. intros P N. symmetry in P. apply (Permutation_NoDup P) in N. clear P. induction l; cbn in *; auto. inversion_clear N; auto. Qed.
Lemma flip_common U es : NoDup U -> NoDup es -> Permutation (filter (fun y => mem y U) es) (cm U es).
Proof.
  intros N1 N2. apply NoDup_Permutation; try apply NoDup_filter; auto. intros x. unfold common. rewrite !filter_In, !mem_In. tauto.
Qed.

Lemma og_step k st tp : (k < D)%nat -> og_inv k st ->
  match og_day_run hash H dec_string pk0 pk1 sk0 sk1 csize ssize st tp with Ok (st', _) => og_inv (S k) st' | Err _ => True | _ => False end.
Proof.
  intros LK I. destruct st as [c s]. destruct I as [DA DB TA TB VA VB SD MI (T & U & N & missing & found & PX & EM & EI & PF & FT & PN & OK)]. cbn [fst snd] in *.
  assert (FIN : forall x : og_server Gr, og_day x = k -> og_total x = D -> og_finished x = false).
  { intros x E1 E2. unfold og_finished. rewrite E1, E2. apply Nat.leb_gt; auto. }
  unfold og_day_run. rewrite DA, VA.
  (* message I *)
  unfold bind at 1. unfold oc_message_i.
  assert (IR : int_range (length (all1 k) + length (nth k d1 []))) by (rewrite <- app_length, <- all_S; apply all_range; auto).
  pose proof (send_step hash (fun x => x) (enc_plain pk1) ser_plain deser_plain Rep1 pad_elem hash_len (fun x H => H)
     (fun a t => enc_plain_ok sk1 a t) (fun a c _ => ser_plain_ok c) (nth k d1 []) (oc_tree c) (og_tree s) (all1 k) tp SD MI IR) as X.
  destruct (send_update _ _ _ _ (nth k d1 []) (oc_tree c) tp) as [t' o]. destruct X as (SD' & NO & X). rewrite <- all_S in SD'.
  unfold bind at 1. destruct o as [[u tp1]| | |]; auto. destruct X as (tr' & ER & MI').
  unfold bind at 1. unfold lift at 1.
  destruct (omap (fun x => point_to_bytes (gpow (H x) sk1)) (nth k d1 [])) as [ps| | |] eqn:EP; auto.
  2,3: exfalso; clear - EP; revert EP; induction (nth k d1 []) as [|y l IH]; cbn; try discriminate; unfold point_to_bytes at 1; destruct (geqb _ gid); cbn; try discriminate;
       destruct (omap _ l); cbn; auto; discriminate.
  unfold ret at 1.
  (* message II *)
  unfold bind at 1. unfold og_send at 1. unfold og_handle at 1. rewrite (FIN s DB TB).
  unfold og_message_ii. cbn [og_add_comm og_tree og_map og_inter og_masks og_data og_day og_total og_comm oi_updates oi_points]. rewrite ER.
  assert (UI : forall x, In x U -> In x (s0 ++ concat d0)).
  { intros x Hx. destruct (all_incl s0 k d0) as (r & ->). apply in_or_app. left. eapply Permutation_in; [exact PX|]. apply in_or_app; auto. }
  assert (E1I : forall y, In y (upto (S k) d1) -> In y (concat d1)).
  { intros y Hy. destruct (upto_incl (S k) d1) as (r & ->). apply in_or_app; auto. }
  assert (INJ' : forall x y, In x U -> In y (nth k d1 []) -> H x = H y -> x = y).
  { intros x y Hx Hy. apply INJ; auto. apply E1I. rewrite upto_S. apply in_or_app; auto. }
  pose proof (lookups_spec U (nth k d1 []) INJ' ps (og_inter s) EP) as LS. rewrite <- EM in LS.
  destruct (og_lookups sk0 (og_map s) ps (og_inter s)) as [inter1 [[]| | |]]; auto.
  unfold og_today. cbn [og_add_comm og_day og_data]. rewrite DB, VB.
  assert (FE0 : Forall element (nth k d0 [])).
  { pose proof (all_Forall _ s0 (S k) _ EL0) as Q. rewrite all_S in Q. apply Forall_app in Q. tauto. }
  assert (IN : forall h y, In y (get_path h t') -> element y).
  { intros h y Hy. pose proof (all_Forall _ s1 (S k) _ EL1) as Q. rewrite Forall_forall in Q. apply Q. destruct SD' as (_ & lost & PM).
    eapply Permutation_in; [exact PM|]. apply in_or_app. left. unfold get_path in Hy. apply in_flat_map in Hy as (v & _ & Hv). unfold contents. apply (stored_In y (t_nodes t')). eauto. }
  pose proof (answer_all t' tr' (nth k d0 []) (fun i => tp1 (2 * i)%nat) MI' FE0 IN) as AN.
  destruct (og_answer_ii _ _ _ _ _ _ _) as [[r2 tpx]| | |]; auto. clear tpx.
  (* message III *)
  unfold bind at 1. specialize (AN (fun i => tp1 (2 * i + 1)%nat)).
  destruct (oc_message_iii _ _ _ _) as [[css tp2]| | |]; auto.
  (* message IV *)
  unfold bind at 1. unfold og_send at 1. unfold og_handle at 1. rewrite FIN by (cbn; auto).
  unfold og_message_iv, og_today. cbn [og_add_comm og_tree og_map og_inter og_masks og_data og_day og_total og_comm]. rewrite ?DB, ?VB.
  pose proof (sort_out_spec (hit t') (nth k d0 []) css AN inter1 [] (fun i => tp2 (2 * i)%nat)) as SO.
  destruct (og_sort_out _ _ _ _ _ _ _ _) as [[inter2 masks] [[pts tpy]| | |]]; auto.
  destruct SO as (l & E2 & EMS & EPS & FL). cbn [app] in EMS. subst masks pts.
  (* message V *)
  unfold bind at 1. unfold lift at 1. unfold oc_message_v.
  destruct (omap _ (map fst l)) as [ps5| | |] eqn:E5; auto.
  2,3: exfalso; clear - E5; revert E5; induction (map fst l) as [|y q IH]; cbn; try discriminate; unfold point_to_bytes at 1, create_point at 1; destruct y as [p|]; [destruct (geqb p gid); [|cbn; destruct (geqb _ gid)]|]; cbn; try discriminate;
       destruct (omap _ q); cbn; auto; discriminate.
  unfold bind at 1. unfold og_send at 1. unfold og_handle at 1. rewrite FIN by (cbn; auto).
  unfold og_message_v, og_today. cbn [og_add_comm og_tree og_map og_inter og_masks og_data og_day og_total og_comm]. rewrite ?DB, ?VB.
  pose proof (record_spec (hit t') _ _ FL ps5 (og_map s) E5) as RS.
  destruct (og_record _ _ _ _ _) as [m' [[]| | |]]; auto.
  unfold ret. constructor; cbn [fst snd oc_day oc_total oc_data oc_tree og_finish_day og_tree og_map og_inter og_masks og_data og_day og_total og_comm]; auto; try congruence.
  set (es0 := nth k d0 []) in *. set (es1 := nth k d1 []) in *. set (h := hit t') in *.
  set (Tn := filter h es0). set (Un := filter (fun x => negb (h x)) es0).
  assert (NY : NoDup (all1 k ++ es1)) by (unfold es1; rewrite <- all_S; apply all_NoDup; auto).
  assert (NU : NoDup U) by (eapply NoDup_sub; [exact PX|apply all_NoDup; auto]).
  exists (T ++ Tn), (rev Un ++ U), (N ++ filter (fun y => mem y U) es1), (missing ++ cm (rev Un) (all1 (S k))), (found ++ filter (fun y => mem y U) es1 ++ Tn).
  split; [|split; [|split; [|split; [|split; [|split]]]]].
  - rewrite all_S, <- PX. fold es0. rewrite <- Permutation_rev. transitivity ((T ++ U) ++ Tn ++ Un).
    + rewrite <- !app_assoc. apply Permutation_app_head. rewrite (Permutation_app_comm U), <- app_assoc. reflexivity.
    + apply Permutation_app_head. unfold Tn, Un. clear. induction es0 as [|x l IH]; cbn; auto. destruct (h x); cbn; [constructor; auto|]. rewrite <- Permutation_middle. constructor; auto.
  - rewrite RS, EM. unfold keyed. rewrite map_app. reflexivity.
  - rewrite E2, LS, EI, !map_app, <- app_assoc. reflexivity.
  - rewrite PF, <- !app_assoc. apply Permutation_app_head. rewrite (app_assoc N), (Permutation_app_comm (N ++ _)). reflexivity.
  - apply Forall_app. split.
    + eapply Forall_impl; [|exact FT]. intros x Hx. rewrite all_S. apply in_or_app; auto.
    + apply Forall_forall. intros x Hx. apply filter_In in Hx as (_ & Hx). eapply hit_In; eauto.
  - rewrite common_app_l. 
    assert (CU : Permutation (cm U (all1 (S k))) (cm U (all1 k) ++ filter (fun y => mem y U) es1)).
    { rewrite all_S. fold es1. pose proof (common_step (fun x : Z => x) U (all1 k) [] es1 NY) as CS. rewrite app_nil_r in CS. rewrite <- CS.
      apply Permutation_app_head. unfold joined. cbn [common filter app]. rewrite app_nil_r. symmetry. apply flip_common; auto.
      clear - NY. induction (all1 k); cbn in *; auto. inversion_clear NY; auto. }
    rewrite CU, <- PN. rewrite (Permutation_app_comm (cm (rev Un) _)). rewrite <- !app_assoc. do 2 apply Permutation_app_head.
    rewrite (app_assoc _ missing), (Permutation_app_comm _ missing), <- app_assoc. reflexivity.
  - intros NOV. rewrite (OK (NO NOV)). cbn [app]. apply common_none. intros x Hx HY. apply in_rev in Hx. apply filter_In in Hx as (_ & Hx).
    assert (HT : h x = true). { eapply In_hit; eauto. apply all_range; auto. } rewrite HT in Hx. discriminate.
Qed.

Lemma og_inv_start c s : oc_day c = 0%nat -> og_day s = 0%nat -> oc_total c = D -> og_total s = D -> oc_data c = d1 -> og_data s = d0 ->
  side hash (oc_tree c) s1 -> mirrors Rep1 pad_elem (oc_tree c) (og_tree s) -> og_map s = keyed (rev s0) -> og_inter s = [] ->
  og_inv 0 (c, s).
Proof.
  intros. constructor; cbn [fst snd]; auto.
  - change (upto 0 d1) with (@nil Z). rewrite app_nil_r. auto.
  - exists [], (rev s0), [], [], []. change (upto 0 d0) with (@nil Z). change (upto 0 d1) with (@nil Z). rewrite !app_nil_r. cbn [app map].
    split; [symmetry; apply Permutation_rev|]. split; auto. split; auto. split; auto. split; auto. split; auto. apply common_perm_l, Permutation_rev.
Qed.
Lemma og_inv_finished k st : og_inv k st -> oc_finished (fst st) = (D <=? k)%nat.
Proof. intros I. unfold oc_finished. rewrite (oi_day0 _ _ I), (oi_tot0 _ _ I). auto. Qed.
Lemma og_inv_out k st : og_inv k st ->
  exists found, partly (cm (all0 k) (all1 k)) (cm s0 s1 ++ found) (no_overflow (oc_tree (fst st))) /\ og_inter (snd st) = map dec_string found.
Proof.
  intros [_ _ _ _ _ _ _ _ (T & U & N & missing & found & PX & EM & EI & PF & FT & PN & OK)]. exists found. split; auto.
  exists missing. split; auto. rewrite PF, <- !app_assoc. rewrite <- (common_perm_l _ _ _ PX), common_app_l, (common_all T), <- PN by auto.
  rewrite !app_assoc, (Permutation_app_comm (cm s0 s1)). reflexivity.
Qed.
End Orig.

(** a run from trees and a map that hold [s1] and [s0] *)
Lemma og_from {Gr : group} (hash : Z -> list bool) (H : Z -> Gr) dec_string sk0 sk1 csize ssize s0 s1 d0 d1 c s k tp :
  (forall x, length (hash x) = 256%nat) -> 2 * 10 ^ 15 <= ord Gr -> 1 <= sk0 < ord Gr -> 1 <= sk1 < ord Gr ->
  proper (fun x => x) (s0 :: d0) -> proper (fun x => x) (s1 :: d1) ->
  (forall x y, In x (s0 ++ concat d0) -> In y (concat d1) -> H x = H y -> x = y) ->
  c = mkOgC (oc_tree c) d1 0 (length d0) -> og_day s = 0%nat -> og_total s = length d0 -> og_data s = d0 -> og_inter s = [] ->
  side hash (oc_tree c) s1 -> mirrors (fun (x : Z) (c : ct Gr) => decrypt sk1 c = gpow gen x) pad_elem (oc_tree c) (og_tree s) -> og_map s = keyed H dec_string sk0 sk1 (rev s0) ->
  ends_well (fun '((c, s), _) =>
      oc_day c = min k (length d0) /\ og_day s = min k (length d0) /\
      exists found, partly (common (fun x => x) (s0 ++ upto (og_day s) d0) (s1 ++ upto (og_day s) d1)) (common (fun x => x) s0 s1 ++ found) (no_overflow (oc_tree c))
                    /\ og_inter s = map dec_string found)
    (run_days oc_finished (og_day_run hash H dec_string (key_of sk0) (key_of sk1) sk0 sk1 csize ssize) k (c, s) tp).
Proof.
  intros HH BG K0 K1 (N0 & E0 & _) (N1 & E1 & R1) INJ EC Q1 Q2 Q3 Q4 SD MI KM. cbn [concat] in *. rewrite map_id in *.
  pose proof (run_ind oc_finished (og_day_run hash H dec_string (key_of sk0) (key_of sk1) sk0 sk1 csize ssize)
     (og_inv hash H dec_string sk0 sk1 s0 s1 d0 d1 (length d0)) (length d0)) as X.
  specialize (X (fun k st I => og_inv_finished _ _ _ _ _ _ _ _ _ _ k st I)).
  specialize (X (fun k st tp => og_step hash H dec_string sk0 sk1 csize ssize HH BG K0 K1 s0 s1 d0 d1 (length d0) R1 N0 N1 E0 E1 INJ k st tp)).
  assert (I : og_inv hash H dec_string sk0 sk1 s0 s1 d0 d1 (length d0) 0 (c, s)) by (apply og_inv_start; auto; rewrite EC; auto).
  specialize (X k 0%nat (c, s) tp ltac:(lia) I).
  destruct (run_days _ _ k _ tp) as [[[c' s'] tp']| | |]; auto. cbn [ends_well Nat.add] in *.
  pose proof (og_inv_out _ _ _ _ _ _ _ _ _ _ _ _ X) as OU. destruct X as [DA DB _ _ _ _ _ _ _]. cbn [fst snd] in *. split; auto. split; auto.
  rewrite DB. exact OU.
Qed.
