(** The four addition-only protocols over many days. *)
Require Import String.
Require Import List Arith Lia ZArith Permutation Bool Znumtheory.
Import ListNotations.
From Verif Require Import Prelude TreeModel TreeSpec TreeHistory Coins Group ElGamalModel ElGamalProofs BytesModel BytesProofs CipherModel CipherProofs PaillierModel PaillierProofs PropsPaillier WireModel WireProofs PropsWire SyncModel SyncSpec SyncProofs KindProofs PropsSync AddModel AddSpec AddProofs.
Local Open Scope Z_scope.

(** ** running several days *)
Lemma run_ind {C S} (fin : C -> bool) (day : C * S -> M (C * S)) (Inv : nat -> C * S -> Prop) D :
  (forall k st, Inv k st -> fin (fst st) = (D <=? k)%nat) ->
  (forall k st tp, (k < D)%nat -> Inv k st -> match day st tp with Ok (st', _) => Inv (Datatypes.S k) st' | Err _ => True | _ => False end) ->
  forall n k st tp, (k <= D)%nat -> Inv k st ->
    match run_days fin day n st tp with Ok (st', _) => Inv (min (k + n) D) st' | Err _ => True | _ => False end.
Proof.
  intros F ST. induction n as [|n IH]; intros k st tp L I; cbn [run_days].
  - cbn. rewrite Nat.add_0_r, Nat.min_l; auto.
  - rewrite (F _ _ I). destruct (Nat.leb_spec D k).
    + cbn. rewrite Nat.min_r by lia. replace D with k by lia. auto.
    + unfold bind. pose proof (ST k st tp H I) as X. destruct (day st tp) as [[st' tp']| | |]; auto.
      specialize (IH (Datatypes.S k) st' tp' ltac:(lia) X). replace (k + Datatypes.S n)%nat with (Datatypes.S k + n)%nat by lia. auto.
Qed.

Lemma upto_S {A} k (d : list (list A)) : upto (S k) d = upto k d ++ nth k d [].
Proof.
  unfold upto. revert k. induction d as [|x d IH]; intros k; [destruct k; reflexivity|].
  destruct k; [cbn; apply app_nil_r|]. change (firstn (S (S k)) (x :: d)) with (x :: firstn (S k) d).
  change (firstn (S k) (x :: d)) with (x :: firstn k d). cbn [concat nth]. rewrite IH. apply app_assoc.
Qed.
Lemma upto_incl {A} k (d : list (list A)) : exists r, concat d = upto k d ++ r.
Proof. exists (concat (skipn k d)). unfold upto. rewrite <- concat_app, firstn_skipn. auto. Qed.
Lemma upto_length {A} k (d : list (list A)) : (length (upto k d) <= length (concat d))%nat.
Proof. destruct (upto_incl k d) as (r & E). rewrite E, app_length. lia. Qed.
Lemma upto_Forall {A} P k (d : list (list A)) : Forall P (concat d) -> Forall P (upto k d).
Proof. destruct (upto_incl k d) as (r & E). rewrite E. rewrite Forall_app. tauto. Qed.
Lemma upto_NoDup {A} k (d : list (list A)) : NoDup (concat d) -> NoDup (upto k d).
Proof.
  destruct (upto_incl k d) as (r & E). rewrite E. clear. induction (upto k d); intros H; [constructor|].
  cbn in H. inversion_clear H. constructor; auto. intros HI. apply H0. apply in_or_app; auto.
Qed.
Lemma upto_range {A} k (d : list (list A)) : int_range (length (concat d)) -> int_range (length (upto k d)).
Proof. pose proof (upto_length k d). unfold int_range. lia. Qed.

Lemma F2_length {X Y} (R : X -> Y -> Prop) l l' : Forall2 R l l' -> length l = length l'.
Proof. induction 1; cbn; auto. Qed.
Lemma F2_cons {X Y} (R : X -> Y -> Prop) x l y l' : Forall2 R (x :: l) (y :: l') -> R x y /\ Forall2 R l l'.
Proof. intros H; inversion H; auto. Qed.
Lemma filter_length_le {X} (p : X -> bool) l : (length (filter p l) <= length l)%nat.
Proof. induction l; cbn; auto. destruct (p a); cbn; lia. Qed.
(** everything a party holds after [k] days if it started with [h] *)
Definition since {A} (h : list A) (k : nat) (d : list (list A)) : list A := h ++ upto k d.
Lemma since_nil {A} k (d : list (list A)) : since [] k d = upto k d.
Proof. reflexivity. Qed.
Lemma since_0 {A} h (d : list (list A)) : since h 0 d = h.
Proof. apply app_nil_r. Qed.
Lemma since_S {A} h k (d : list (list A)) : since h (S k) d = since h k d ++ nth k d [].
Proof. unfold since. rewrite upto_S, app_assoc. auto. Qed.
Lemma since_incl {A} h k (d : list (list A)) : exists r, h ++ concat d = since h k d ++ r.
Proof. destruct (upto_incl k d) as (r & E). exists r. unfold since. rewrite E, app_assoc. auto. Qed.
Lemma since_Forall {A} P h k (d : list (list A)) : Forall P (h ++ concat d) -> Forall P (since h k d).
Proof. destruct (since_incl h k d) as (r & E). rewrite E. rewrite (Forall_app P (since h k d) r). tauto. Qed.
Lemma NoDup_app_l' {A} (l r : list A) : NoDup (l ++ r) -> NoDup l.
Proof. induction l; intros H; [constructor|]. cbn in H. inversion_clear H. constructor; auto. intros HI. apply H0. apply in_or_app; auto. Qed.
Lemma since_NoDup {A} h k (d : list (list A)) : NoDup (h ++ concat d) -> NoDup (since h k d).
Proof. destruct (since_incl h k d) as (r & E). rewrite E. apply NoDup_app_l'. Qed.
Lemma since_range {A} h k (d : list (list A)) : int_range (length (h ++ concat d)) -> int_range (length (since h k d)).
Proof. destruct (since_incl h k d) as (r & E). rewrite E, (app_length (since h k d)). unfold int_range. lia. Qed.
(** ** the state between days *)
Section Inv.
Context {Gr : group} {A E R : Type}.
Variable hash : Z -> list bool.
Variables sk0 sk1 : Z.
Variable key : A -> Z.
Variable is_pad : A -> Prop.
Variable Rep : A -> E -> Prop.
Variable h0 : list A.
Variable d0 : list (list A).
Variable h1 : list Z.
Variable d1 : list (list Z).
Variable D : nat.
Variable Always : nat -> R -> Prop.
Variable Out : nat -> R -> list Z -> Prop -> Prop.    (* the output, party one's shares, no overflow so far *)
Record inv (k : nat) (st : client Gr A R * server E) : Prop := {
  i_agree : agree hash sk0 sk1 key is_pad Rep (cl_my (fst st)) (cl_other (fst st)) (sv_my (snd st)) (sv_other (snd st)) (since h0 k d0) (since h1 k d1);
  i_day0 : cl_day (fst st) = k; i_day1 : sv_day (snd st) = k;
  i_tot0 : cl_total (fst st) = D; i_tot1 : sv_total (snd st) = D;
  i_dat0 : cl_data (fst st) = d0; i_dat1 : sv_data (snd st) = d1;
  i_always : Always k (cl_out (fst st));
  i_out : Out k (cl_out (fst st)) (sv_shares (snd st)) (no_overflow (cl_my (fst st)) /\ no_overflow (sv_my (snd st))) }.
Lemma inv_new my0 other0 my1 other1 comm out : agree hash sk0 sk1 key is_pad Rep my0 other0 my1 other1 h0 h1 -> Always 0%nat out -> (forall ok, Out 0%nat out [] ok) ->
  inv 0 (mkClient my0 other0 d0 0 D out, mkServer my1 other1 d1 0 D comm []).
Proof. intros AG H1 H2. constructor; cbn [fst snd cl_my cl_other sv_my sv_other cl_day sv_day cl_total sv_total cl_data sv_data cl_out sv_shares]; auto. rewrite !since_0. exact AG. Qed.
Lemma inv_finished k st : inv k st -> cl_finished (fst st) = (D <=? k)%nat.
Proof. intros I. unfold cl_finished. rewrite (i_day0 _ _ I), (i_tot0 _ _ I). auto. Qed.
Lemma inv_sv_finished k st : inv k st -> sv_finished (snd st) = (D <=? k)%nat.
Proof. intros I. unfold sv_finished. rewrite (i_day1 _ _ I), (i_tot1 _ _ I). auto. Qed.
End Inv.

Lemma agree_new {Gr : group} {A E} hash sk0 sk1 (key : A -> Z) is_pad (Rep : A -> E -> Prop) ss ns :
  agree (Gr := Gr) hash sk0 sk1 key is_pad Rep (tree_new ss ns) (tree_new ss ns) (tree_new ss ns) (tree_new ss ns) [] [].
Proof. constructor; try apply side_new; apply mirrors_new. Qed.
Lemma partly_start {A} (key : A -> Z) h0 h1 d0 d1 ok : partly (common key (since h0 0 d0) (since h1 0 d1)) (common key h0 h1 ++ []) ok.
Proof. exists []. rewrite !since_0, !app_nil_r. auto. Qed.
Lemma partly_step {A} (key : A -> Z) h0 h1 k d0 d1 found vs (ok ok' : Prop) : NoDup (h1 ++ concat d1) -> (ok' -> ok) ->
  partly (common key (since h0 k d0) (since h1 k d1)) found ok ->
  (exists rest, Permutation (vs ++ rest) (map (fun x => x) (joined key (since h0 k d0) (since h1 k d1) (nth k d0 []) (nth k d1 []))) /\ (ok' -> rest = [])) ->
  partly (common key (since h0 (S k) d0) (since h1 (S k) d1)) (found ++ vs) ok'.
Proof.
  intros ND OK (r1 & P1 & Q1) (r2 & P2 & Q2). rewrite map_id in P2. exists (r1 ++ r2). split.
  - rewrite !since_S, <- common_step by (rewrite <- since_S; apply since_NoDup; auto). rewrite <- P1, <- P2, <- !app_assoc.
    apply Permutation_app_head. rewrite !app_assoc. apply Permutation_app_tail. apply Permutation_app_comm.
  - intros H. rewrite Q1, Q2; auto.
Qed.

Section Protocols.
Context {Gr : group}.
Variable hash : Z -> list bool.
Variables sk0 sk1 : Z.
Variable csize : client_msg Gr -> Z.
Variable ssize : server_msg Gr -> Z.
Hypothesis hash_len : forall x, length (hash x) = 256%nat.
Hypothesis big : 2 * 10 ^ 15 <= ord Gr.
Let sk := sk0 + sk1.
Notation pk := (@key_of Gr (sk0 + sk1)).
Variables (h1 : list Z) (d1 : list (list Z)) (D : nat).
Hypothesis R1 : int_range (length (h1 ++ concat d1)).
Hypothesis ND1 : NoDup (h1 ++ concat d1).
Hypothesis EL1 : Forall element (h1 ++ concat d1).

Lemma common_nil {A} (key : A -> Z) h : common key h [] = [].
Proof. unfold common, mem. cbn. apply filter_false. Qed.

(** *** cardinality *)
Section CA.
Variable h0 : list Z.
Variable d0 : list (list Z).
Hypothesis R0 : int_range (length (h0 ++ concat d0)).
Hypothesis EL0 : Forall element (h0 ++ concat d0).
Notation RepP := (fun (a : Z) (c : ct Gr) => decrypt (sk0 + sk1) c = gpow gen a).
Definition ca_out (k : nat) (o : Z) (_ : list Z) (ok : Prop) : Prop :=
  exists found, partly (common (fun x => x) (since h0 k d0) (since h1 k d1)) (common (fun x => x) h0 h1 ++ found) ok /\ o = Z.of_nat (length found).
Definition ca_inv := inv (Gr := Gr) hash sk0 sk1 (fun x : Z => x) pad_elem RepP h0 d0 h1 d1 D (fun _ _ => True) ca_out.

Lemma ca_step k st tp : (k < D)%nat -> ca_inv k st ->
  match ca_day hash pk sk0 sk1 csize ssize st tp with Ok (st', _) => ca_inv (S k) st' | Err _ => True | _ => False end.
Proof.
  intros LK I. destruct st as [c s]. destruct I as [AG DA DB TA TB VA VB _ OU]. cbn [fst snd] in *. unfold ca_day, today.
  assert (EX := exchange_send (V := Z) hash sk0 sk1 (fun x : Z => x) (ca_first pk) ca_ser (fun x => x) (enc_plain pk) ser_plain deser_plain ca_deser ca_split ca_mask (ca_seal sk1)
    (fun x => x) pad_elem RepP (fun _ _ => True) (fun _ _ _ => True) (fun _ _ _ => True) hash_len big (fun x H => H) (fun a H => H)).
  specialize (EX (fun a t => enc_plain_ok _ a t) (fun a c _ => ser_plain_ok c) (fun a e H => conj H I)).
  assert (H1 : forall a tp, match ca_first pk a tp with
    | Ok (xp, _) => decrypt (sk0 + sk1) (fst xp) = gpow gen a /\ True | Err _ => True | _ => False end).
  { intros a t. unfold ca_first, bind, ret. destruct (@encrypt_total Gr pk a t) as (x & t' & EE). rewrite EE. split; auto. eapply encrypt_Ok; eauto. }
  assert (H2 : forall c (v : Z) p, True -> match ca_ser (Gr := Gr) (c, p) with Ok w => ca_deser w = Ok (c, p) | Err _ => True | _ => False end).
  { intros x _ [] _. unfold ca_ser, ser_plain, ca_deser. cbn [fst]. pose proof (ser_ct_returns x) as Y. destruct (ser_ct x); cbn; auto. rewrite Y. reflexivity. }
  assert (H3 : forall c k (v : Z) p tp, decrypt (sk0 + sk1) c = gpow (@gen Gr) k -> True -> match ca_mask (c, p) tp with
    | Ok (cp, _) => (decrypt (sk0 + sk1) (fst cp) = gid <-> (ord Gr | k)) /\ True | Err _ => True | _ => False end).
  { intros x z _ p t HD _. unfold ca_mask, bind, ret, create_random_mask. destruct (gen_private_key_total (Gr := Gr) t) as (m & t' & EM). rewrite EM. cbn [fst]. split; auto.
    apply masked_zero; auto. eapply gen_private_key_range; eauto. }
  assert (H4 : forall c (k : Z) (v : Z) p tp, True -> match ca_seal sk1 (c, p) tp with
    | Ok (w, _) => exists c' p', ca_deser w = Ok (c', p') /\ decrypt sk0 c' = decrypt (sk0 + sk1) (c : ct Gr) /\ True | Err _ => True | _ => False end).
  { intros x z _ p t _. unfold ca_seal, lift, ser_plain, ca_deser. cbn [fst]. pose proof (ser_ct_returns (partial_decrypt sk1 x)) as Y.
    destruct (ser_ct (partial_decrypt sk1 x)); cbn; auto. rewrite Y. eexists _, _. split; [reflexivity|]. split; auto. apply decrypt_partial. }
  specialize (EX H1 H2 H3 H4). clear H1 H2 H3 H4.
  specialize (EX true csize ssize (ca_handle hash pk sk1 csize ssize) (cl_my c) (cl_other c) s (since h0 k d0) (since h1 k d1) (nth k d0 []) (nth k d1 []) tp AG).
  rewrite <- !since_S in EX. specialize (EX (since_range _ _ _ R0) (since_range _ _ _ R1)).
  rewrite DB, VB in EX. specialize (EX eq_refl).
  assert (FS : sv_finished s = false) by (unfold sv_finished; rewrite DB, TB; apply Nat.leb_gt; auto).
  assert (FC : forall x : client Gr Z Z, cl_day x = k -> cl_total x = D -> cl_finished x = false).
  { intros x E1 E2. unfold cl_finished. rewrite E1, E2. apply Nat.leb_gt; auto. }
  assert (HH : forall m t, ca_handle hash pk sk1 csize ssize (C_party_zero (P0_I m)) s t =
     answer_i ssize (ca_gen2 hash pk sk1) m (add_comm (csize (C_party_zero (P0_I m))) s) t sv_finish_day).
  { intros m t. unfold ca_handle, handle_no_payload. rewrite FS. reflexivity. }
  specialize (EX HH). rewrite DA, VA. fold (ca_gen1 hash pk) in EX.
  unfold bind at 1. destruct (ca_gen1 hash pk (nth k d0 []) (cl_my c) (cl_other c) tp) as [[[my0' m1] tp1]| | |]; auto.
  destruct EX as (N0 & EX). unfold bind at 1.
  destruct (send (ca_handle hash pk sk1 csize ssize) (C_party_zero (P0_I m1)) s tp1) as [[[s' r] tp2]| | |]; auto.
  destruct EX as (N1 & SD & ST & _ & SDY & m2 & other0' & cs & -> & EU & AG' & EC & _ & MT).
  unfold bind, lift, cl_handle. rewrite FC by (cbn; congruence). unfold ca_process. cbn [cl_other cl_my cl_out]. rewrite EU. cbn [obind]. rewrite EC. cbn [obind].
  unfold ret. constructor; cbn [fst snd finish cl_my cl_other cl_day cl_total cl_data cl_out]; auto; try congruence.
  specialize (MT (since_NoDup _ _ _ ND1)).
  destruct MT as (vs & rest & PV & RV & FV). { apply since_Forall; auto. } { apply since_Forall; auto. }
  destruct OU as (found & PF & EO). exists (found ++ vs). split.
  - rewrite app_assoc. eapply partly_step; [auto| |exact PF|exists rest; split; [exact PV|intros (? & ?); auto]]. intros (? & ?); auto.
  - rewrite EO, app_length, (F2_length _ _ _ FV). lia.
Qed.
End CA.

(** *** PSI *)
Section PSI.
Variable h0 : list Z.
Variable d0 : list (list Z).
Variable dec_string : Z -> string.
Hypothesis R0 : int_range (length (h0 ++ concat d0)).
Hypothesis ND0 : NoDup (h0 ++ concat d0).
Hypothesis EL0 : Forall element (h0 ++ concat d0).
Notation RepP := (fun (a : Z) (c : ct Gr) => decrypt (sk0 + sk1) c = gpow gen a).
Definition psi_map (k : nat) (o : psi_out (Gr := Gr)) : Prop := fst o = record_points pk dec_string (upto k d0) [].
(** what is printed for an element: the map only knows elements of the batches *)
Definition psi_label (x : Z) : string := if mem x h0 then EmptyString else dec_string x.
Definition psi_good (k : nat) (o : psi_out (Gr := Gr)) (_ : list Z) (ok : Prop) : Prop :=
  exists found, partly (common (fun x => x) (since h0 k d0) (since h1 k d1)) (common (fun x => x) h0 h1 ++ found) ok /\ snd o = map psi_label found.
Definition psi_inv := inv (Gr := Gr) hash sk0 sk1 (fun x : Z => x) pad_elem RepP h0 d0 h1 d1 D psi_map psi_good.

Lemma record_points_get es : forall m x, Forall element es -> element x ->
  map_get (gpow (@gen Gr) x) (record_points pk dec_string es m) = if mem x es then dec_string x else map_get (gpow gen x) m.
Proof.
  induction es as [|e es IH]; intros m x FE Ex; cbn [record_points fold_left]; auto. inversion_clear FE.
  change (fold_left _ es ?m0) with (record_points pk dec_string es m0). rewrite IH by auto. unfold mem. cbn [existsb map_get pk_g key_of].
  destruct (existsb (Z.eqb x) es) eqn:EX. { rewrite orb_true_r. auto. } rewrite orb_false_r.
  destruct (Z.eqb_spec x e) as [->|NE]. { rewrite geqb_refl. auto. }
  replace (geqb (gpow gen e) (gpow gen x)) with false; auto. symmetry. apply geqb_false. intros EE. apply NE. symmetry.
  unfold element in *. apply gen_pow_inj_small in EE; lia.
Qed.

Lemma psi_step k st tp : (k < D)%nat -> psi_inv k st ->
  match psi_day hash pk sk0 sk1 csize ssize dec_string st tp with Ok (st', _) => psi_inv (S k) st' | Err _ => True | _ => False end.
Proof.
  intros LK I. destruct st as [c s]. destruct I as [AG DA DB TA TB VA VB AL OU]. cbn [fst snd] in *. unfold psi_day, today.
  assert (EX := exchange_send (V := Z) hash sk0 sk1 (fun x : Z => x) (psi_first pk) ser_elgamal (fun x => x) (enc_plain pk) ser_plain deser_plain deser_cand_elgamal psi_split psi_mask (psi_seal sk1)
    (fun x => x) pad_elem RepP (fun v p => decrypt (sk0 + sk1) p = gpow gen v)
    (fun k v p => (ord Gr | k) -> decrypt (sk0 + sk1) p = gpow gen v) (fun k v p => (ord Gr | k) -> decrypt sk0 p = gpow gen v)
    hash_len big (fun x H => H) (fun a H => H)).
  specialize (EX (fun a t => enc_plain_ok _ a t) (fun a c _ => ser_plain_ok c) (fun a e H => conj H H)).
  assert (H1 : forall a tp, match psi_first pk a tp with
    | Ok (xp, _) => decrypt (sk0 + sk1) (fst xp) = gpow gen a /\ decrypt (sk0 + sk1) (snd xp) = gpow gen a | Err _ => True | _ => False end).
  { intros a t. unfold psi_first, bind, ret, lift, point_key. cbn [pk_g key_of].
    destruct (geqb (gpow gen a) gid); auto. destruct (@encrypt_point_total Gr pk (gpow gen a) t) as (x & t' & EE). rewrite EE.
    cbn. apply encrypt_point_Ok in EE. auto. }
  assert (H2 : forall (c : ct Gr) (v : Z) p, decrypt (sk0 + sk1) p = gpow gen v -> match ser_elgamal (c, p) with Ok w => deser_cand_elgamal w = Ok (c, p) | Err _ => True | _ => False end).
  { intros x v p _. apply (ser_elgamal_ok (x, p)). }
  assert (H3 : forall c k (v : Z) p tp, decrypt (sk0 + sk1) c = gpow (@gen Gr) k -> decrypt (sk0 + sk1) p = gpow gen v -> match psi_mask (c, p) tp with
    | Ok (cp, _) => (decrypt (sk0 + sk1) (fst cp) = gid <-> (ord Gr | k)) /\ ((ord Gr | k) -> decrypt (sk0 + sk1) (snd cp) = gpow gen v) | Err _ => True | _ => False end).
  { intros x z v p t HD HP. unfold psi_mask, bind, ret, create_random_mask. destruct (gen_private_key_total (Gr := Gr) t) as (m & t' & EM). rewrite EM.
    destruct (gen_private_key_total (Gr := Gr) t') as (b & t2 & EB). rewrite EB. cbn [fst snd].
    assert (MZ := masked_zero _ x z m (gen_private_key_range _ _ _ EM) HD). split; auto.
    intros DV. apply MZ in DV. rewrite decrypt_mul, decrypt_exp_ct, DV, gpow_id, gop_id_r. auto. }
  assert (H4 : forall c (k : Z) (v : Z) p tp, ((ord Gr | k) -> decrypt (sk0 + sk1) p = gpow gen v) -> match psi_seal sk1 (c, p) tp with
    | Ok (w, _) => exists c' p', deser_cand_elgamal w = Ok (c', p') /\ decrypt sk0 c' = decrypt (sk0 + sk1) (c : ct Gr) /\ ((ord Gr | k) -> decrypt sk0 p' = gpow gen v) | Err _ => True | _ => False end).
  { intros x z v p t HP. unfold psi_seal, lift. cbn [fst snd]. pose proof (ser_elgamal_ok (partial_decrypt sk1 x, partial_decrypt sk1 p)) as Y.
    destruct (ser_elgamal _); auto. eexists _, _. split; [exact Y|]. rewrite !decrypt_partial. auto. }
  specialize (EX H1 H2 H3 H4). clear H1 H2 H3 H4.
  specialize (EX true csize ssize (psi_handle hash pk sk1 csize ssize) (cl_my c) (cl_other c) s (since h0 k d0) (since h1 k d1) (nth k d0 []) (nth k d1 []) tp AG).
  rewrite <- !since_S in EX. specialize (EX (since_range _ _ _ R0) (since_range _ _ _ R1)).
  rewrite DB, VB in EX. specialize (EX eq_refl).
  assert (FS : sv_finished s = false) by (unfold sv_finished; rewrite DB, TB; apply Nat.leb_gt; auto).
  assert (FC : forall x : client Gr Z (psi_out (Gr := Gr)), cl_day x = k -> cl_total x = D -> cl_finished x = false).
  { intros x E1 E2. unfold cl_finished. rewrite E1, E2. apply Nat.leb_gt; auto. }
  assert (HH : forall m t, psi_handle hash pk sk1 csize ssize (C_party_zero (P0_I m)) s t =
     answer_i ssize (psi_gen2 hash pk sk1) m (add_comm (csize (C_party_zero (P0_I m))) s) t sv_finish_day).
  { intros m t. unfold psi_handle, handle_no_payload. rewrite FS. reflexivity. }
  specialize (EX HH). rewrite DA, VA. fold (psi_gen1 hash pk) in EX.
  unfold bind at 1. destruct (psi_gen1 hash pk (nth k d0 []) (cl_my c) (cl_other c) tp) as [[[my0' m1] tp1]| | |]; auto.
  destruct EX as (N0 & EX). unfold bind at 1.
  destruct (send (psi_handle hash pk sk1 csize ssize) (C_party_zero (P0_I m1)) s tp1) as [[[s' r] tp2]| | |]; auto.
  destruct EX as (N1 & SD & ST & _ & SDY & m2 & other0' & cs & -> & EU & AG' & EC & _ & MT).
  unfold bind, lift, cl_handle. rewrite FC by (cbn; congruence). unfold psi_process. cbn [cl_other cl_my cl_out fst snd]. rewrite EU. cbn [obind]. rewrite EC. cbn [obind].
  set (mp := record_points _ _ _ _).
  assert (EM : mp = record_points pk dec_string (upto (S k) d0) []).
  { unfold mp. rewrite AL, upto_S. unfold record_points. rewrite fold_left_app. auto. }
  assert (LK2 : returns (omap (psi_lookup sk0 mp) cs)).
  { apply omap_returns. intros x _. unfold psi_lookup, point_key. destruct (is_match sk0 x); cbn; auto. destruct (geqb _ gid); cbn; auto. }
  destruct (omap (psi_lookup sk0 mp) cs) as [found| | |] eqn:EF; cbn [obind]; auto.
  unfold ret. constructor; cbn [fst snd finish cl_my cl_other cl_day cl_total cl_data cl_out]; auto; try congruence.
  specialize (MT (since_NoDup _ _ _ ND1)).
  destruct MT as (vs & rest & PV & RV & FV). { apply since_Forall; auto. } { apply since_Forall; auto. }
  destruct OU as (found0 & PF & EO).
  assert (INV : forall v, In v vs -> In v (since h0 (S k) d0)).
  { intros v Hv. assert (Hv' := in_or_app vs rest v (or_introl Hv)); clear Hv; rename Hv' into Hv; apply (Permutation_in _ PV) in Hv. rewrite map_id in Hv. unfold joined, common in Hv.
    apply in_app_or in Hv as [Hv|Hv]; apply filter_In in Hv as (Hv & _); rewrite since_S; auto. apply in_or_app; auto. }
  assert (EFD : concat found = map psi_label vs).
  { clear - EF FV EM INV EL0 ND0 big sk. clearbody sk. revert found vs FV INV EF. induction cs as [|x cs IH]; intros found vs FV INV EF; cbn in EF, FV.
    - inversion FV; subst. inversion EF; subst. auto.
    - unfold psi_lookup in EF at 1. destruct (is_match sk0 x).
      + destruct vs as [|v vs]; [inversion FV|]. apply F2_cons in FV as (HP & FV).
        rewrite (HP (Z.divide_0_r _)) in EF. unfold point_key in EF. destruct (geqb (gpow gen _) gid); [discriminate|]. cbn [obind] in EF.
        destruct (omap (psi_lookup sk0 mp) cs) as [l| | |]; cbn in EF; try discriminate. inversion EF; subst found. cbn [concat map app].
        f_equal.
        * rewrite EM. assert (FE : Forall element (since h0 (S k) d0)) by (apply since_Forall; auto).
          rewrite record_points_get; [|unfold since in FE; apply Forall_app in FE; tauto|].
          2:{ rewrite Forall_forall in FE. apply FE. apply INV. left; auto. }
          cbn [map_get]. unfold psi_label. specialize (INV v (or_introl eq_refl)). unfold since in INV. apply in_app_or in INV.
          assert (NDK := since_NoDup h0 (S k) d0 ND0). unfold since in NDK.
          destruct INV as [INV|INV].
          -- replace (mem v h0) with true by (symmetry; apply existsb_exists; exists v; split; auto; apply Z.eqb_refl).
             destruct (mem v (upto (S k) d0)) eqn:MM; auto. exfalso. apply existsb_exists in MM as (y & Hy & EY). apply Z.eqb_eq in EY. subst y.
             clear - NDK INV Hy. induction h0; cbn in *; [auto|]. inversion_clear NDK. destruct INV as [->|INV]; auto. apply H. apply in_or_app; auto.
          -- replace (mem v (upto (S k) d0)) with true by (symmetry; apply existsb_exists; exists v; split; auto; apply Z.eqb_refl).
             destruct (mem v h0) eqn:MM; auto. exfalso. apply existsb_exists in MM as (y & Hy & EY). apply Z.eqb_eq in EY. subst y.
             clear - NDK INV Hy. induction h0; cbn in *; [auto|]. inversion_clear NDK. destruct Hy as [->|Hy]; auto. apply H. apply in_or_app; auto.
        * eapply IH; eauto. intros w Hw. apply INV. right; auto.
      + cbn [obind] in EF. destruct (omap (psi_lookup sk0 mp) cs) as [l| | |]; cbn in EF; try discriminate. inversion EF; subst found. cbn [concat app]. eapply IH; eauto. }
  exists (found0 ++ vs). split.
  - rewrite app_assoc. eapply partly_step; [auto| |exact PF|exists rest; split; [exact PV|intros (? & ?); auto]]. intros (? & ?); auto.
  - cbn [snd]. rewrite EFD, EO, map_app. auto.
Qed.
End PSI.

(** *** SUM *)
Section SUM.
Variable h0 : list (Z * Z).
Variable d0 : list (list (Z * Z)).
Hypothesis R0 : int_range (length (h0 ++ concat d0)).
Hypothesis EL0 : Forall (fun a => element (fst a)) (h0 ++ concat d0).
Hypothesis POS0 : Forall (fun a => 0 <= snd a) (h0 ++ concat d0).
Hypothesis SMALL0 : total (map snd (h0 ++ concat d0)) < ord Gr.
Hypothesis DR : Z.of_nat D < 2 ^ 31.
Notation RepP := (fun (a : Z * Z) (c : ct Gr * ct Gr) => decrypt (sk0 + sk1) (fst c) = gpow gen (fst a) /\ decrypt (sk0 + sk1) (snd c) = gpow gen (snd a)).
Definition sum_upto (k : nat) : Z := total (map snd (common fst (since h0 k d0) (since h1 k d1))).
Definition sum_good (k : nat) (o : Z * Z) (_ : list Z) (ok : Prop) : Prop :=
  exists found, partly (common fst (since h0 k d0) (since h1 k d1)) (common fst h0 h1 ++ found) ok
  /\ fst o = Z.of_nat (length found) /\ snd o = total (map snd found) /\ 0 <= total (map snd found) <= Z.of_nat k * 50000
  /\ (ok -> forall j, (j < k)%nat -> 0 <= sum_upto (S j) - sum_upto j < 50000).
Definition sum_inv := inv (Gr := Gr) hash sk0 sk1 (@fst Z Z) pad_entry RepP h0 d0 h1 d1 D (fun _ _ => True) sum_good.

Lemma total_app l l' : total (l ++ l') = total l + total l'.
Proof. induction l; cbn [total fold_right app] in *; [reflexivity|]. unfold total in *. cbn. rewrite IHl. ring. Qed.
Lemma total_perm l l' : Permutation l l' -> total l = total l'.
Proof. induction 1; unfold total in *; cbn; lia. Qed.
Lemma total_nonneg {A} (f : A -> Z) l : Forall (fun a => 0 <= f a) l -> 0 <= total (map f l).
Proof. induction 1; unfold total in *; cbn; lia. Qed.
Lemma total_filter {A} (f : A -> Z) p l : Forall (fun a => 0 <= f a) l -> 0 <= total (map f (filter p l)) <= total (map f l).
Proof. induction 1; unfold total in *; cbn; [lia|]. destruct (p x); cbn; lia. Qed.

Lemma sum_fold cs vs : Forall2 (fun (v : Z * Z) c => decrypt (sk0 + sk1) (snd c) = gpow (@gen Gr) (snd v)) vs cs -> forall (z : ct Gr) m, decrypt (sk0 + sk1) z = gpow gen m ->
  decrypt (sk0 + sk1) (fold_left (fun s (h : ct Gr * ct Gr) => ct_mul s (snd h)) cs z) = gpow gen (m + total (map snd vs)).
Proof.
  induction 1 as [|v c vs cs HV F IH]; intros z m HZ; cbn [fold_left].
  - unfold total. cbn. rewrite Z.add_0_r. auto.
  - rewrite (IH _ (m + snd v)). + f_equal. unfold total. cbn. lia. + rewrite decrypt_mul, HZ, HV, gpow_add. auto.
Qed.
Lemma max_sum_Z : Z.of_nat max_sum = 50000.
Proof. unfold max_sum. rewrite Z2Nat.id; lia. Qed.
Local Opaque max_sum.
Lemma decrypt_exp_returns table x (c : ct Gr) : returns (decrypt_exp table x c).
Proof. unfold decrypt_exp. destruct table; [exact I|]. destruct (find_exp _ _ _); exact I. Qed.

Lemma sum_step k st tp : (k < D)%nat -> sum_inv k st ->
  match sum_day hash pk sk0 sk1 csize ssize st tp with Ok (st', _) => sum_inv (S k) st' | Err _ => True | _ => False end.
Proof.
  intros LK I. destruct st as [c s]. destruct I as [AG DA DB TA TB VA VB AL OU]. cbn [fst snd] in *. unfold sum_day, today.
  assert (EX := exchange_send (V := Z * Z) hash sk0 sk1 (@fst Z Z) (sum_first pk) ser_elgamal pad_payload (enc_elgamal pk) ser_elgamal deser_elgamal deser_cand_elgamal (fun e => e) sum_mask (sum_seal pk sk1)
    (fun x => x) pad_entry RepP (fun v p => decrypt (sk0 + sk1) p = gpow gen (snd v))
    (fun _ v p => decrypt (sk0 + sk1) p = gpow gen (snd v)) (fun _ v p => decrypt (sk0 + sk1) p = gpow gen (snd v))
    hash_len big (fun x H => conj H eq_refl) (fun a H => proj1 H)).
  specialize (EX (fun a t => enc_elgamal_ok _ a t) (fun a c _ => ser_elgamal_ok c) (fun a e H => H)).
  assert (H1 : forall a tp, match sum_first pk a tp with
    | Ok (xp, _) => decrypt (sk0 + sk1) (fst xp) = gpow gen (fst a) /\ decrypt (sk0 + sk1) (snd xp) = gpow gen (snd a) | Err _ => True | _ => False end).
  { intros a t. apply enc_elgamal_ok. }
  assert (H2 : forall (c : ct Gr) (v : Z * Z) p, decrypt (sk0 + sk1) p = gpow gen (snd v) -> match ser_elgamal (c, p) with Ok w => deser_cand_elgamal w = Ok (c, p) | Err _ => True | _ => False end).
  { intros x v p _. apply (ser_elgamal_ok (x, p)). }
  assert (H3 : forall c k (v : Z * Z) p tp, decrypt (sk0 + sk1) c = gpow (@gen Gr) k -> decrypt (sk0 + sk1) p = gpow gen (snd v) -> match sum_mask (c, p) tp with
    | Ok (cp, _) => (decrypt (sk0 + sk1) (fst cp) = gid <-> (ord Gr | k)) /\ decrypt (sk0 + sk1) (snd cp) = gpow gen (snd v) | Err _ => True | _ => False end).
  { intros x z v p t HD HP. unfold sum_mask, bind, ret, create_random_mask. destruct (gen_private_key_total (Gr := Gr) t) as (m & t' & EM). rewrite EM. cbn [fst snd]. split; auto.
    apply masked_zero; auto. eapply gen_private_key_range; eauto. }
  assert (H4 : forall c (k : Z) (v : Z * Z) p tp, decrypt (sk0 + sk1) p = gpow gen (snd v) -> match sum_seal pk sk1 (c, p) tp with
    | Ok (w, _) => exists c' p', deser_cand_elgamal w = Ok (c', p') /\ decrypt sk0 c' = decrypt (sk0 + sk1) (c : ct Gr) /\ decrypt (sk0 + sk1) p' = gpow gen (snd v) | Err _ => True | _ => False end).
  { intros x z v p t HP. unfold sum_seal, bind, ret, lift. cbn [fst snd]. pose proof (ser_ct_returns (partial_decrypt sk1 x)) as Y.
    destruct (ser_ct (partial_decrypt sk1 x)); auto. destruct (@rerandomize_total Gr pk p t) as (r & t' & ER). rewrite ER.
    pose proof (ser_ct_returns r) as Y2. destruct (ser_ct r); auto. eexists _, _. cbn. rewrite Y. cbn. rewrite Y2. split; [reflexivity|]. rewrite decrypt_partial.
    split; auto. apply rerandomize_Ok in ER. congruence. }
  specialize (EX H1 H2 H3 H4). clear H1 H2 H3 H4.
  specialize (EX false csize ssize (sum_handle hash pk sk1 csize ssize) (cl_my c) (cl_other c) s (since h0 k d0) (since h1 k d1) (nth k d0 []) (nth k d1 []) tp AG).
  rewrite <- !since_S in EX. specialize (EX (since_range _ _ _ R0) (since_range _ _ _ R1)).
  rewrite DB, VB in EX. specialize (EX eq_refl).
  assert (FS : forall s : server (ct Gr * ct Gr), sv_day s = k -> sv_total s = D -> sv_finished s = false).
  { intros x E1 E2. unfold sv_finished. rewrite E1, E2. apply Nat.leb_gt; auto. }
  assert (FC : forall x : client Gr (Z * Z) (Z * Z), cl_day x = k -> cl_total x = D -> cl_finished x = false).
  { intros x E1 E2. unfold cl_finished. rewrite E1, E2. apply Nat.leb_gt; auto. }
  assert (HH : forall m t, sum_handle hash pk sk1 csize ssize (C_party_zero (P0_I m)) s t =
     answer_i ssize (sum_gen2 hash pk sk1) m (add_comm (csize (C_party_zero (P0_I m))) s) t (fun s => s)).
  { intros m t. unfold sum_handle, handle_sum. rewrite FS; auto. }
  specialize (EX HH). rewrite DA, VA. fold (sum_gen1 hash pk) in EX.
  unfold bind at 1. destruct (sum_gen1 hash pk (nth k d0 []) (cl_my c) (cl_other c) tp) as [[[my0' m1] tp1]| | |]; auto.
  destruct EX as (N0 & EX). unfold bind at 1.
  destruct (send (sum_handle hash pk sk1 csize ssize) (C_party_zero (P0_I m1)) s tp1) as [[[s' r] tp2]| | |]; auto.
  destruct EX as (N1 & SD & ST & _ & SDY & m2 & other0' & cs & -> & EU & AG' & EC & _ & MT).
  unfold cl_handle at 1. rewrite FC by (cbn; congruence). unfold sum_message_iii at 1. cbn [cl_other cl_my cl_out cl_data cl_day cl_total].
  unfold bind at 1. unfold bind at 1. unfold bind at 1. rewrite EU. unfold lift at 1. unfold bind at 1. rewrite EC. unfold lift at 1.
  unfold bind at 1. destruct (@encrypt_total Gr pk 0 tp2) as (zero & tp3 & EZ). rewrite EZ. apply encrypt_Ok in EZ.
  set (hits := filter (is_match sk0) cs) in *. set (sum := fold_left _ hits zero).
  unfold bind at 1. unfold lift at 1. pose proof (ser_ct_returns sum) as SS. destruct (ser_ct sum) as [w| | |]; auto.
  unfold ret at 1. unfold bind at 1. unfold send at 1. unfold sum_handle at 1, handle_sum at 1. rewrite FS by congruence.
  unfold process_iii_sum. rewrite SS. cbn [obind]. pose proof (ser_ct_returns (partial_decrypt sk1 sum)) as S2. destruct (ser_ct (partial_decrypt sk1 sum)) as [w4| | |]; auto.
  unfold ret at 1. unfold bind at 1. unfold cl_handle. rewrite FC by (cbn; congruence).
  unfold bind at 1. unfold sum_process_iv, lift. rewrite S2. cbn [obind].
  change (init_decrypt_exp pk max_sum) with (init_decrypt_exp (@key_of Gr sk0) max_sum).
  set (tab := init_decrypt_exp _ max_sum). pose proof (decrypt_exp_returns tab sk0 (partial_decrypt sk1 sum)) as RT.
  destruct (decrypt_exp tab sk0 (partial_decrypt sk1 sum)) as [v| | |] eqn:EV; cbn [obind]; auto.
  unfold ret. constructor; cbn [fst snd add_comm finish cl_my cl_other cl_day cl_total cl_data cl_out sv_my sv_other sv_day sv_data sv_total sv_shares sv_finish_day]; auto; try congruence.
  specialize (MT (since_NoDup _ _ _ ND1)).
  destruct MT as (vs & rest & PV & RV & FV). { apply since_Forall; auto. } { apply since_Forall; auto. }
  destruct OU as (found & PF & O1 & O2 & O3 & O4).
  pose proof (sum_fold _ _ FV zero 0 EZ) as SF. fold sum in SF. rewrite Z.add_0_l in SF.
  assert (CS := common_step fst (since h0 k d0) (since h1 k d1) (nth k d0 []) (nth k d1 [])). rewrite <- !since_S in CS. specialize (CS (since_NoDup _ _ _ ND1)).
  assert (TV : total (map snd vs) + total (map snd rest) = sum_upto (S k) - sum_upto k).
  { rewrite <- total_app, <- map_app, (total_perm _ _ (Permutation_map snd PV)), map_id. unfold sum_upto. rewrite <- (total_perm _ _ (Permutation_map snd CS)), map_app, total_app. ring. }
  assert (P1 : Forall (fun a : Z * Z => 0 <= snd a) (since h0 (S k) d0)) by (apply since_Forall; auto).
  assert (PJ : Forall (fun a : Z * Z => 0 <= snd a) (vs ++ rest)).
  { eapply Permutation_Forall; [symmetry; exact PV|]. rewrite map_id.
    unfold joined. rewrite <- since_S. apply Forall_app. split; apply Forall_forall; intros a Ha; apply filter_In in Ha as (Ha & _); rewrite Forall_forall in P1; apply P1; auto.
    rewrite since_S. apply in_or_app; auto. }
  apply Forall_app in PJ as (PJ1 & PJ2). apply (total_nonneg snd) in PJ1, PJ2.
  assert (BV : 0 <= total (map snd vs) < ord Gr).
  { assert (P2 : Forall (fun a : Z * Z => 0 <= snd a) (since h0 k d0)) by (apply since_Forall; auto).
    pose proof (total_filter snd (fun a => mem (fst a) (since h1 (S k) d1)) _ P1) as B1.
    pose proof (total_filter snd (fun a => mem (fst a) (since h1 k d1)) _ P2) as B2.
    destruct (since_incl h0 (S k) d0) as (rr & ER). assert (P3 := POS0). rewrite ER in P3. apply Forall_app in P3 as (_ & P3). apply (total_nonneg snd) in P3.
    assert (TT := SMALL0). rewrite ER, map_app, total_app in TT.
    unfold sum_upto, common in TV; lia. }
  assert (DE := decrypt_exp_spec max_sum sk0 (partial_decrypt sk1 sum) (total (map snd vs))). rewrite max_sum_Z in DE.
  fold tab in DE. rewrite EV in DE.
  specialize (DE ltac:(lia) ltac:(pose proof max_sum_Z; lia) BV). rewrite decrypt_partial in DE. specialize (DE SF).
  destruct (Z.ltb_spec (total (map snd vs)) 50000); [|discriminate]. inversion DE; subst v.
  assert (PFN : partly (common fst (since h0 (S k) d0) (since h1 (S k) d1)) (common fst h0 h1 ++ found ++ vs) (no_overflow my0' /\ no_overflow (sv_my s'))).
  { rewrite app_assoc. eapply partly_step; [auto| |exact PF|exists rest; split; [exact PV|intros (? & ?); auto]]. intros (? & ?); auto. }
  exists (found ++ vs). split; [exact PFN|]. cbn [fst snd]. rewrite map_app, total_app, app_length.
  split; [|split; [|split]].
  - rewrite O1, <- (F2_length _ _ _ FV), Nat2Z.inj_add. apply Z.mod_small.
    destruct PFN as (r2 & PP & _). apply Permutation_length in PP. rewrite !app_length in PP.
    pose proof (since_range h0 (S k) _ R0) as RR. unfold int_range in RR.
    assert (length (common fst (since h0 (S k) d0) (since h1 (S k) d1)) <= length (since h0 (S k) d0))%nat by (unfold common; apply filter_length_le). lia.
  - rewrite O2. apply Z.mod_small. assert (Z.of_nat (S k) <= Z.of_nat D) by lia. lia.
  - lia.
  - intros (NO0 & NO1) j Hj. rewrite (RV NO0 NO1) in TV. change (total (map snd [])) with 0 in TV. destruct (Nat.eq_dec j k) as [->|]; [lia|]. apply O4; auto. lia.
Qed.
End SUM.

(** *** secret shares *)
Section SS.
Variables p q n psk0 psk1 : Z.
Variables pai0 pai1 : pub.
Hypothesis Pp : prime p.
Hypothesis Pq : prime q.
Hypothesis Npq : p <> q.
Hypothesis En : n = p * q.
Hypothesis S0 : 0 <= psk0.
Hypothesis S1 : 0 <= psk1.
Hypothesis DD1 : NumTheory.eqm n (psk0 + psk1) 1.
Hypothesis DD2 : ((p - 1) * (q - 1) | psk0 + psk1).
Hypothesis OB0 : thr_object n pai0.
Hypothesis OB1 : thr_object n pai1.
Variable h0 : list (Z * Z).
Variable d0 : list (list (Z * Z)).
Hypothesis R0 : int_range (length (h0 ++ concat d0)).
Hypothesis EL0 : Forall (fun a => element (fst a)) (h0 ++ concat d0).
Let Hn : 1 < n. Proof. assert (1 < p) by (destruct Pp; auto). assert (1 < q) by (destruct Pq; auto). nia. Qed.
Notation RepP := (fun (a : Z * Z) (c : ct Gr * Z) => decrypt (sk0 + sk1) (fst c) = gpow gen (fst a) /\ 0 <= snd a < n /\ ct_of n (snd a) (snd c)).
Notation Pay := (fun (v : Z * Z) (c : Z) => 0 <= snd v < n /\ ct_of n (snd v) c).
Definition pair_sums (l : list (Z * Z)) : list Z := map (fun ab => (fst ab + snd ab) mod n) l.
Definition ss_good (k : nat) (o : list Z) (sh : list Z) (ok : Prop) : Prop :=
  length o = length sh
  /\ (exists found, partly (common fst (since h0 k d0) (since h1 k d1)) (common fst h0 h1 ++ found) ok /\ pair_sums (combine o sh) = map snd found)
  /\ Forall (fun a => 0 < a <= n) o /\ Forall (fun a => 0 <= a < n) sh.
Definition ss_inv := inv (Gr := Gr) hash sk0 sk1 (@fst Z Z) pad_entry RepP h0 d0 h1 d1 D (fun _ _ => True) ss_good.

(** one share *)
Lemma ss_share_spec v c tp : Pay v (snd c) ->
  exists r b1 b2 tp', ss_share (Gr := Gr) n pai0 psk0 c tp = Ok ((n - r, [b1; b2]), tp') /\ 0 <= r < n
    /\ thr_decrypt n psk1 (of_bytes b1) (of_bytes b2) = Ok ((snd v + r) mod n).
Proof.
  intros (BV & C). unfold ss_share, bind, lift, ret.
  unfold rand_less_than. destruct (Z.ltb_spec 0 n); [|lia].
  set (r := _ mod n). assert (BR : 0 <= r < n) by (apply Z.mod_pos_bound; lia).
  destruct (thr_object_facts _ _ Hn OB0) as (F1 & F2 & F3 & F4 & F5 & F6).
  destruct (pub_encrypt_spec pai0 n Hn F1 F2 F3 F4 F5 F6 r (tl_tape tp)) as (_ & B2).
  destruct (B2 BR) as (e & t2 & EE & CE). 
  rewrite EE.
  assert (CS : ct_of n (snd v + r) (thr_add n (snd c) e)) by (apply ct_add; auto).
  destruct (thr_decrypt_spec p q n psk0 psk1 Pp Pq Npq En S0 S1 DD1 DD2 _ _ CS) as (a & EA & ED). rewrite EA.
  assert (P1 : 0 <= thr_add n (snd c) e) by (apply (proj1 (proj1 CS))).
  destruct (to_bytes_of _ P1) as (b1 & E1 & E1'). rewrite E1.
  assert (P2 : 0 <= a). { unfold thr_partial in EA. destruct (_ <? 0); [discriminate|]. destruct (_ <=? _); [discriminate|]. rewrite mod_exp_total in EA by nia. inversion EA. apply Z.mod_pos_bound. nia. }
  destruct (to_bytes_of _ P2) as (b2 & E2 & E2'). rewrite E2.
  exists r, b1, b2, t2. rewrite E1', E2'. auto.
Qed.
Lemma ss_shares_spec cs : forall tp, Forall (fun c => exists v, Pay v (snd c)) cs ->
  exists res tp', mapM (ss_share (Gr := Gr) n pai0 psk0) cs tp = Ok (res, tp') /\
    forall sh, exists sh', process_iii_ss (fun c p => thr_decrypt n psk1 c p) (concat (map snd res)) sh = (sh ++ sh', Ok tt)
      /\ length sh' = length res /\ Forall (fun a => 0 < a <= n) (map fst res) /\ Forall (fun a => 0 <= a < n) sh'
      /\ forall vs, Forall2 (fun v c => Pay v (snd c)) vs cs -> pair_sums (combine (map fst res) sh') = map snd vs.
Proof.
  induction cs as [|c cs IH]; intros tp F; cbn [mapM].
  - eexists _, _. split; [reflexivity|]. intros sh. exists []. cbn. rewrite app_nil_r. split; auto. split; auto. split; auto. split; auto.
    intros vs FV. inversion FV. auto.
  - inversion F as [|? ? (v & PV) F']; subst. destruct (ss_share_spec v c tp PV) as (r & b1 & b2 & tp1 & E1 & BR & ED).
    unfold bind. rewrite E1. destruct (IH tp1 F') as (res & tp2 & E2 & G). rewrite E2. eexists _, _. split; [reflexivity|].
    intros sh. destruct (G (sh ++ [(snd v + r) mod n])) as (sh' & G1 & G2 & G3 & G4 & G5). exists ((snd v + r) mod n :: sh').
    cbn [map snd fst concat app process_iii_ss]. rewrite ED. rewrite G1. rewrite <- app_assoc. split; auto. split; [cbn; auto|].
    split; [constructor; auto; lia|]. split; [constructor; auto; apply Z.mod_pos_bound; lia|].
    intros vs FV. destruct vs as [|w vs]; [inversion FV|]. apply F2_cons in FV as (PW & FV). cbn. f_equal; auto.
    assert (WV : snd w = snd v).
    { destruct PW as (BW & CW), PV as (BV & CV).
      destruct (thr_decrypt_spec p q n psk0 psk1 Pp Pq Npq En S0 S1 DD1 DD2 _ _ CW) as (a & EA & X1).
      destruct (thr_decrypt_spec p q n psk0 psk1 Pp Pq Npq En S0 S1 DD1 DD2 _ _ CV) as (a' & EA' & X2).
      rewrite EA in EA'. inversion EA'; subst a'. rewrite X1 in X2. inversion X2 as [X3]. rewrite !Z.mod_small in X3; auto. }
    rewrite WV, Z.add_mod_idemp_r by lia. replace (n - r + (snd v + r)) with (snd v + 1 * n) by ring. rewrite Z_mod_plus_full. apply Z.mod_small. apply PV.
Qed.
Lemma combine_app {X Y} (a b : list X) (c d : list Y) : length a = length c -> combine (a ++ b) (c ++ d) = combine a c ++ combine b d.
Proof. revert c. induction a; destruct c; cbn; intros H; try discriminate; auto. f_equal; auto. Qed.

Lemma ss_step k st tp : (k < D)%nat -> ss_inv k st ->
  match ss_day hash pk sk0 sk1 csize ssize n pai0 pai1 psk0 psk1 st tp with Ok (st', _) => ss_inv (S k) st' | Err _ => True | _ => False end.
Proof.
  intros LK I. destruct st as [c s]. destruct I as [AG DA DB TA TB VA VB AL OU]. cbn [fst snd] in *. unfold ss_day, today.
  assert (EX := exchange_send (V := Z * Z) hash sk0 sk1 (@fst Z Z) (ss_first pk pai0) ser_paillier pad_payload (enc_paillier pk (pub_encrypt pai0)) ser_paillier deser_paillier deser_cand_paillier (fun e => e) ss_mask (ss_seal pai1 sk1)
    (fun x => x) pad_entry RepP Pay (fun _ => Pay) (fun _ => Pay)
    hash_len big (fun x H => conj H eq_refl) (fun a H => proj1 H)).
  specialize (EX (fun a t => enc_paillier_ok _ n pai0 a t Hn OB0) (fun a c H => ser_paillier_ok c (proj1 (proj1 (proj2 (proj2 H))))) (fun a e H => H)).
  assert (H1 : forall a tp, match ss_first pk pai0 a tp with
    | Ok (xp, _) => decrypt (sk0 + sk1) (fst xp) = gpow gen (fst a) /\ Pay a (snd xp) | Err _ => True | _ => False end).
  { intros a t. apply (enc_paillier_ok _ n pai0 a t Hn OB0). }
  assert (H2 : forall (c : ct Gr) (v : Z * Z) p, Pay v p -> match ser_paillier (c, p) with Ok w => deser_cand_paillier w = Ok (c, p) | Err _ => True | _ => False end).
  { intros x v y (_ & (By & _)). apply (ser_paillier_ok (x, y)). cbn. lia. }
  assert (H3 : forall c k (v : Z * Z) p tp, decrypt (sk0 + sk1) c = gpow (@gen Gr) k -> Pay v p -> match ss_mask (c, p) tp with
    | Ok (cp, _) => (decrypt (sk0 + sk1) (fst cp) = gid <-> (ord Gr | k)) /\ Pay v (snd cp) | Err _ => True | _ => False end).
  { intros x z v y t HD HP. unfold ss_mask, bind, ret, create_random_mask. destruct (gen_private_key_total (Gr := Gr) t) as (m & t' & EM). rewrite EM. cbn [fst snd]. split; auto.
    apply masked_zero; auto. eapply gen_private_key_range; eauto. }
  assert (H4 : forall c (k : Z) (v : Z * Z) p tp, Pay v p -> match ss_seal pai1 sk1 (c, p) tp with
    | Ok (w, _) => exists c' p', deser_cand_paillier w = Ok (c', p') /\ decrypt sk0 c' = decrypt (sk0 + sk1) (c : ct Gr) /\ Pay v p' | Err _ => True | _ => False end).
  { intros x z v y t (BV & CV). unfold ss_seal, bind, ret, lift. cbn [fst snd]. pose proof (ser_ct_returns (partial_decrypt sk1 x)) as Y.
    destruct (ser_ct (partial_decrypt sk1 x)); auto.
    destruct (thr_object_facts _ _ Hn OB1) as (F1 & F2 & F3 & F4 & F5 & F6).
    destruct (pub_rerand_spec pai1 n Hn F1 F2 F4 F6 (snd v) y t CV) as (r & t' & ER & CR). rewrite ER.
    assert (P1 : 0 <= r) by (apply (proj1 (proj1 CR))). destruct (to_bytes_of _ P1) as (b1 & E1 & E1'). rewrite E1.
    eexists _, _. cbn. rewrite Y. cbn. rewrite E1'. split; [reflexivity|]. rewrite decrypt_partial. auto. }
  specialize (EX H1 H2 H3 H4). clear H1 H2 H3 H4.
  specialize (EX false csize ssize (ss_handle hash pk sk1 csize ssize n pai1 psk1) (cl_my c) (cl_other c) s (since h0 k d0) (since h1 k d1) (nth k d0 []) (nth k d1 []) tp AG).
  rewrite <- !since_S in EX. specialize (EX (since_range _ _ _ R0) (since_range _ _ _ R1)).
  rewrite DB, VB in EX. specialize (EX eq_refl).
  assert (FS : forall s : server (ct Gr * Z), sv_day s = k -> sv_total s = D -> sv_finished s = false).
  { intros x E1 E2. unfold sv_finished. rewrite E1, E2. apply Nat.leb_gt; auto. }
  assert (FC : forall x : client Gr (Z * Z) (list Z), cl_day x = k -> cl_total x = D -> cl_finished x = false).
  { intros x E1 E2. unfold cl_finished. rewrite E1, E2. apply Nat.leb_gt; auto. }
  assert (HH : forall m t, ss_handle hash pk sk1 csize ssize n pai1 psk1 (C_party_zero (P0_I m)) s t =
     answer_i ssize (ss_gen2 hash pk sk1 pai1) m (add_comm (csize (C_party_zero (P0_I m))) s) t (fun s => s)).
  { intros m t. unfold ss_handle, handle_ss. rewrite FS; auto. }
  specialize (EX HH). rewrite DA, VA. fold (ss_gen1 hash pk pai0) in EX.
  unfold bind at 1. destruct (ss_gen1 hash pk pai0 (nth k d0 []) (cl_my c) (cl_other c) tp) as [[[my0' m1] tp1]| | |]; auto.
  destruct EX as (N0 & EX). unfold bind at 1.
  destruct (send (ss_handle hash pk sk1 csize ssize n pai1 psk1) (C_party_zero (P0_I m1)) s tp1) as [[[s' r] tp2]| | |]; auto.
  destruct EX as (N1 & SD & ST & SSH & SDY & m2 & other0' & cs & -> & EU & AG' & EC & FA & MT).
  unfold cl_handle at 1. rewrite FC by (cbn; congruence). unfold ss_message_iii at 1. cbn [cl_other cl_my cl_out cl_data cl_day cl_total].
  unfold bind at 1. unfold bind at 1. rewrite EU. unfold lift at 1. unfold bind at 1. rewrite EC. unfold lift at 1.
  set (hits := filter (is_match sk0) cs) in *.
  assert (FH : Forall (fun c : ct Gr * Z => exists v, Pay v (snd c)) hits).
  { apply Forall_forall. intros x Hx. apply filter_In in Hx as (Hx & _). rewrite Forall_forall in FA. destruct (FA x Hx) as (_ & v & HV). eauto. }
  destruct (ss_shares_spec hits tp2 FH) as (res & tp3 & EM & G). unfold bind at 1. rewrite EM. unfold ret at 1.
  unfold bind at 1. unfold send at 1. unfold ss_handle at 1, handle_ss at 1. rewrite FS by congruence.
  destruct (G (sv_shares s')) as (sh' & G1 & G2 & G3 & G4 & G5). cbn [add_comm sv_shares]. rewrite G1.
  unfold ret. constructor; cbn [fst snd add_comm finish cl_my cl_other cl_day cl_total cl_data cl_out sv_my sv_other sv_day sv_data sv_total sv_shares sv_finish_day]; auto; try congruence.
  specialize (MT (since_NoDup _ _ _ ND1)).
  destruct MT as (vs & rest & PV & RV & FV). { apply since_Forall; auto. } { apply since_Forall; auto. }
  destruct OU as (O1 & (found & PF & O2) & O3 & O4). rewrite SSH. unfold ss_good.
  split; [rewrite !app_length, map_length; congruence|]. split; [|split; apply Forall_app; auto].
  exists (found ++ vs). split.
  - rewrite app_assoc. eapply partly_step; [auto| |exact PF|exists rest; split; [exact PV|intros (? & ?); auto]]. intros (? & ?); auto.
  - rewrite combine_app by auto. unfold pair_sums in *. rewrite map_app. rewrite (G5 vs FV), O2, map_app. auto.
Qed.
End SS.
End Protocols.
