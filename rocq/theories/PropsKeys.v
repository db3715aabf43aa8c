(** * C52: the key files written by setup are the keys the parties run with. *)
Require Import List Arith Lia ZArith Bool.
Import ListNotations.
From Verif Require Import Prelude Coins Group ElGamalModel ElGamalProofs BytesModel BytesProofs CipherModel PaillierModel PropsPaillier FileModel FileSpec FileProofs PropsFile KeyModel KeyProofs BigPrime PropsAdd.
Local Open Scope Z_scope.

(** ** Specification *)
(** [m] reads [a] from any world whose files [l] are those of [w1]: it may fail
    when an operation does, it never gives anything else, and it changes no file. *)
Definition reads_back {A} (w1 : world) (l : list bytes) (m : env -> SM world A) (a : A) : Prop :=
  forall e w, (forall f, In f l -> files w f = files w1 f) ->
    (forall w' b, m e w = (w', Ok b) -> b = a)
    /\ (reliable e -> exists w', m e w = (w', Ok a))
    /\ (forall w' o, m e w = (w', o) -> forall f, files w' f = files w f).
(** the two parties' directories under [out] *)
Definition threshold_files (out : bytes) : list bytes :=
  map path [p0_dir out ++ elgamal_pub; p0_dir out ++ elgamal_key; p0_dir out ++ shared_pub; p0_dir out ++ paillier_key;
            p1_dir out ++ elgamal_pub; p1_dir out ++ elgamal_key; p1_dir out ++ shared_pub; p1_dir out ++ paillier_key].
Definition paillier_files (out : bytes) : list bytes :=
  map path [p0_dir out ++ paillier_pub; p0_dir out ++ paillier_key; p1_dir out ++ paillier_pub; p1_dir out ++ paillier_key].
Definition elgamal_files (out : bytes) : list bytes :=
  map path [p0_dir out ++ elgamal_pub; p0_dir out ++ elgamal_key; p1_dir out ++ elgamal_pub; p1_dir out ++ elgamal_key].

(** ** reading back *)
Section Back.
Variables (w1 : world) (l : list bytes).
Lemma back_read {T} (c : codec T) name t : faithful c -> saved w1 c name t -> In (path name) l -> reads_back w1 l (fun e => read_msg e c name) t.
Proof.
  intros FC SV HI e w AG. assert (SW : saved w c name t). { destruct SV as (A & B). split; auto. rewrite AG; auto. }
  split; [|split].
  - intros w' b H. apply (read_msg_Ok e c t name w w' b FC SW) in H as (-> & _). auto.
  - intros RE. destruct (read_msg_reliable e c t name w RE FC SW) as [k K]. eauto.
  - intros w' o H. eapply read_msg_files; eauto.
Qed.
Lemma back_pure {A} (a : A) : reads_back w1 l (fun _ => pure (Ok a)) a.
Proof. intros e w AG. split; [|split]; [intros w' b H; inversion H; auto|intros _; eexists; reflexivity|intros w' o H; inversion H; auto]. Qed.
Lemma back_must {A} (m : env -> SM world A) a : reads_back w1 l m a -> reads_back w1 l (fun e => must (m e)) a.
Proof.
  intros B e w AG. destruct (B e w AG) as (B1 & B2 & B3). unfold must. split; [|split].
  - intros w' b H. destruct (m e w) as [w2 [x|c| |]] eqn:Q; inversion H; subst. eapply B1; eauto.
  - intros RE. destruct (B2 RE) as [w' Q]. rewrite Q. eauto.
  - intros w' o H. destruct (m e w) as [w2 [x|c| |]] eqn:Q; inversion H; subst; eapply B3; eauto.
Qed.
Lemma back_bind {A B} (m : env -> SM world A) (f : env -> A -> SM world B) a b :
  reads_back w1 l m a -> reads_back w1 l (fun e => f e a) b -> reads_back w1 l (fun e => sbind (m e) (f e)) b.
Proof.
  intros BM BF e w AG. destruct (BM e w AG) as (B1 & B2 & B3). unfold sbind.
  destruct (m e w) as [w2 o] eqn:Q. pose proof (B3 _ _ eq_refl) as FW.
  assert (AG2 : forall g, In g l -> files w2 g = files w1 g) by (intros g HI; rewrite FW; auto). destruct (BF e w2 AG2) as (C1 & C2 & C3).
  split; [|split].
  - intros w' y H. destruct o as [x|c| |]; try discriminate. rewrite (B1 _ _ eq_refl) in H. eauto.
  - intros RE. destruct (B2 RE) as [w' K]. inversion K; subst. apply C2. auto.
  - intros w' o' H g. destruct o as [x|c| |]; try (inversion H; subst; apply FW). rewrite (B1 _ _ eq_refl) in H. rewrite (C3 _ _ H g). apply FW.
Qed.
End Back.

Lemma path_dir out c r : c <> slash -> path (out ++ c :: r) = path out ++ path (c :: r).
Proof. intros NE. apply path_app. exact NE. Qed.
Lemma p0_path out x : path (p0_dir out ++ x) = path out ++ path ([112; 48; slash] ++ x).
Proof. unfold p0_dir. rewrite <- app_assoc. apply path_dir. discriminate. Qed.
Lemma p1_path out x : path (p1_dir out ++ x) = path out ++ path ([112; 49; slash] ++ x).
Proof. unfold p1_dir. rewrite <- app_assoc. apply path_dir. discriminate. Qed.
Ltac paths := rewrite ?p0_path, ?p1_path.
Ltac apart := let Q := fresh in intros Q; rewrite ?p0_path, ?p1_path in Q; apply app_inv_head in Q; revert Q; vm_compute; discriminate.
Ltac not_in := cbn [In]; let Q := fresh in intros Q; repeat (destruct Q as [Q|Q]; [revert Q; apart|]); destruct Q.
Ltac tells := cbn [In map threshold_files paillier_files elgamal_files]; rewrite ?p0_path, ?p1_path; repeat first [left; reflexivity | right].

Section Keys.
Context {Gr : group}.
Variables (cpub : codec (pub_msg (Gr := Gr))) (csec : codec sec_msg) (cthr : codec thr_msg) (cppub : codec ppub_msg) (cpsec : codec psec_msg).
Hypotheses (Fpub : faithful cpub) (Fsec : faithful csec) (Fthr : faithful cthr) (Fppub : faithful cppub) (Fpsec : faithful cpsec).

(** Whatever happens, no file but the eight named ones changes. *)
Theorem C52_threshold_only out e p q bits s s' o :
  generate_threshold_keys cpub csec cthr e (p0_dir out) (p1_dir out) p q bits s = (s', o) -> same_except (threshold_files out) (sy_world s) (sy_world s').
Proof.
  revert s s' o. change (touches (threshold_files out) (generate_threshold_keys cpub csec cthr e (p0_dir out) (p1_dir out) p q bits)).
  unfold generate_threshold_keys, elgamal_key_pair, joint_public_key, threshold_key_files. 
  repeat first [ apply touches_rand | apply touches_pure | apply touches_shares | apply touches_read | apply touches_ret | (apply touches_write; tells) | (apply touches_bind; [|intros]) | match goal with |- touches _ (let '(_, _) := ?x in _) => destruct x end | match goal with |- touches _ (match ?x with _ => _ end) => destruct x end ].
Qed.

(** what the eight files contain *)
Lemma threshold_saved out e p q bits s s' :
  generate_threshold_keys cpub csec cthr e (p0_dir out) (p1_dir out) p q bits s = (s', Ok tt) ->
  exists x0 x1 n k0 k1 t t', 1 <= x0 < ord Gr /\ 1 <= x1 < ord Gr /\ threshold_keygen p q bits t = Ok ((n, k0, k1), t') /\ gpow (Gr := Gr) gen (x0 + x1) <> gid
    /\ 0 <= n /\ 0 <= k0 /\ 0 <= k1
    /\ saved (sy_world s') cpub (p0_dir out ++ shared_pub) (key_msg (x0 + x1)) /\ saved (sy_world s') cpub (p1_dir out ++ shared_pub) (key_msg (x0 + x1))
    /\ saved (sy_world s') csec (p0_dir out ++ elgamal_key) (bn2bin x0) /\ saved (sy_world s') csec (p1_dir out ++ elgamal_key) (bn2bin x1)
    /\ saved (sy_world s') cthr (p0_dir out ++ paillier_key) (bn2bin n, bn2bin k0) /\ saved (sy_world s') cthr (p1_dir out ++ paillier_key) (bn2bin n, bn2bin k1).
Proof.
  intros H. unfold generate_threshold_keys in H.
  apply sbind_Ok in H as (s1 & [] & H1 & H). apply key_pair_Ok in H1 as (x0 & B0 & N0 & P0 & S0 & E0); [|apart].
  apply sbind_Ok in H as (s2 & [] & H1 & H). apply key_pair_Ok in H1 as (x1 & B1 & N1 & P1 & S1 & E1); [|apart].
  assert (Q0 : saved (sy_world s2) cpub (p0_dir out ++ elgamal_pub) (key_msg x0)).
  { apply saved_path with (p0_dir out ++ slash :: elgamal_pub); [paths; reflexivity|]. eapply saved_keep; [exact P0|exact E1|not_in]. }
  assert (Q1 : saved (sy_world s2) cpub (p1_dir out ++ elgamal_pub) (key_msg x1)).
  { apply saved_path with (p1_dir out ++ slash :: elgamal_pub); [paths; reflexivity|]. exact P1. }
  assert (K0 : saved (sy_world s2) csec (p0_dir out ++ elgamal_key) (bn2bin x0)).
  { apply saved_path with (p0_dir out ++ slash :: elgamal_key); [paths; reflexivity|]. eapply saved_keep; [exact S0|exact E1|not_in]. }
  assert (K1 : saved (sy_world s2) csec (p1_dir out ++ elgamal_key) (bn2bin x1)).
  { apply saved_path with (p1_dir out ++ slash :: elgamal_key); [paths; reflexivity|]. exact S1. }
  clear P0 P1 S0 S1 E0 E1 s1.
  apply sbind_Ok in H as (s3 & [] & H1 & H). apply (joint_Ok cpub Fpub e _ _ _ _ _ x0 x1 Q0 Q1 N0 N1) in H1 as (J0 & NJ & X3).
  apply (fun a b => saved_keep _ _ _ _ _ _ a X3 b) in Q0; [|not_in]. apply (fun a b => saved_keep _ _ _ _ _ _ a X3 b) in Q1; [|not_in].
  apply (fun a b => saved_keep _ _ _ _ _ _ a X3 b) in K0; [|not_in]. apply (fun a b => saved_keep _ _ _ _ _ _ a X3 b) in K1; [|not_in]. clear X3.
  apply sbind_Ok in H as (s4 & [] & H1 & H). apply (joint_Ok cpub Fpub e _ _ _ _ _ x0 x1 Q0 Q1 N0 N1) in H1 as (J1 & _ & X3).
  apply (fun a b => saved_keep _ _ _ _ _ _ a X3 b) in J0; [|not_in].
  apply (fun a b => saved_keep _ _ _ _ _ _ a X3 b) in K0; [|not_in]. apply (fun a b => saved_keep _ _ _ _ _ _ a X3 b) in K1; [|not_in]. clear X3 Q0 Q1.
  apply threshold_files_Ok in H as (n & k0 & k1 & t' & KG & L1 & L2 & L3 & T0 & T1 & X3); [|apart].
  apply (fun a b => saved_keep _ _ _ _ _ _ a X3 b) in J0; [|not_in]. apply (fun a b => saved_keep _ _ _ _ _ _ a X3 b) in J1; [|not_in].
  apply (fun a b => saved_keep _ _ _ _ _ _ a X3 b) in K0; [|not_in]. apply (fun a b => saved_keep _ _ _ _ _ _ a X3 b) in K1; [|not_in]. clear X3.
  exists x0, x1, n, k0, k1, (sy_coins s4), t'. auto 20.
Qed.

(** Key generation for the addition-only protocols: if it succeeds, the two
    parties read back secret exponents sk0 and sk1, the same public key
    g^(sk0 + sk1), the same modulus n and the two shares of the threshold
    Paillier key, all in the files written; setup encrypts the trees with the
    same public key. *)
Theorem C52_threshold out e p q bits s s' :
  generate_threshold_keys cpub csec cthr e (p0_dir out) (p1_dir out) p q bits s = (s', Ok tt) ->
  exists sk0 sk1 n k0 k1 t t',
    1 <= sk0 < ord Gr /\ 1 <= sk1 < ord Gr /\ threshold_keygen p q bits t = Ok ((n, k0, k1), t')
    /\ let back {A} := @reads_back A (sy_world s') (threshold_files out) in
       let pk := mkPk gen (gpow (Gr := Gr) gen (sk0 + sk1)) in
       gpow (Gr := Gr) gen (sk0 + sk1) <> gid
       /\ back (fun e' => load_addition cpub csec cthr e' (p0_dir out)) (pk, sk0, n, k0)
       /\ back (fun e' => load_addition cpub csec cthr e' (p1_dir out)) (pk, sk1, n, k1)
       /\ back (fun e' => load_encrypter cpub e' (p0_dir out) shared_pub) pk
       /\ back (fun e' => load_encrypter cpub e' (p1_dir out) shared_pub) pk.
Proof.
  intros H. apply threshold_saved in H as (x0 & x1 & n & k0 & k1 & t & t' & B0 & B1 & KG & NJ & L1 & L2 & L3 & J0 & J1 & K0 & K1 & T0 & T1).
  exists x0, x1, n, k0, k1, t, t'. split; auto. split; auto. split; auto. cbn zeta. split; auto.
  assert (OB : forall x, 0 <= x -> of_bytes (bn2bin x) = x) by (intros x GE; apply bn2bin_spec; auto).
  assert (LA : forall dir x k, 0 <= x -> 0 <= k -> saved (sy_world s') cpub (dir ++ shared_pub) (key_msg (x0 + x1)) -> saved (sy_world s') csec (dir ++ elgamal_key) (bn2bin x) ->
     saved (sy_world s') cthr (dir ++ paillier_key) (bn2bin n, bn2bin k) -> In (path (dir ++ shared_pub)) (threshold_files out) -> In (path (dir ++ elgamal_key)) (threshold_files out) -> In (path (dir ++ paillier_key)) (threshold_files out) ->
     reads_back (sy_world s') (threshold_files out) (fun e' => load_addition cpub csec cthr e' dir) (mkPk gen (gpow gen (x0 + x1)), x, n, k)).
  { intros dir x k GX GK SP SE ST I1 I2 I3. unfold load_addition.
    eapply (back_bind _ _ (fun e' => must (read_msg e' cpub (dir ++ shared_pub)))); [apply back_must; eapply back_read; eauto|].
    eapply (back_bind _ _ (fun e' => must (pure (deser_pubkey (key_msg (x0 + x1)))))); [apply back_must; rewrite deser_key by auto; apply back_pure|].
    eapply (back_bind _ _ (fun e' => must (read_msg e' csec (dir ++ elgamal_key)))); [apply back_must; eapply back_read; eauto|].
    eapply (back_bind _ _ (fun e' => must (read_msg e' cthr (dir ++ paillier_key)))); [apply back_must; eapply back_read; eauto|].
    cbn [fst snd]. rewrite !OB by auto. apply back_pure. }
  assert (LE : forall dir, saved (sy_world s') cpub (dir ++ shared_pub) (key_msg (x0 + x1)) -> In (path (dir ++ shared_pub)) (threshold_files out) ->
     reads_back (sy_world s') (threshold_files out) (fun e' => load_encrypter cpub e' dir shared_pub) (mkPk gen (gpow gen (x0 + x1)))).
  { intros dir SP I1. unfold load_encrypter. eapply (back_bind _ _ (fun e' => read_msg e' cpub (dir ++ shared_pub))); [eapply back_read; eauto|]. rewrite deser_key by auto. apply back_pure. }
  split; [apply LA; auto; try lia; tells|]. split; [apply LA; auto; try lia; tells|]. split; apply LE; auto; tells.
Qed.

(** Key generation for the protocols with deletions: each party reads back its
    own primes, and as public key the modulus of the other party. *)
Theorem C52_paillier out e p0 q0 p1 q1 s s' :
  generate_paillier_keys cppub cpsec e (p0_dir out) (p1_dir out) p0 q0 p1 q1 s = (s', Ok tt) ->
  let back {A} := @reads_back A (sy_world s') (paillier_files out) in
  same_except (paillier_files out) (sy_world s) (sy_world s')
  /\ back (fun e' => load_deletion cppub cpsec e' (p0_dir out)) (p0, q0, 1, (p1 * q1, 1))
  /\ back (fun e' => load_deletion cppub cpsec e' (p1_dir out)) (p1, q1, 1, (p0 * q0, 1)).
Proof.
  intros H. unfold generate_paillier_keys in H.
  assert (TB : forall x b (s : sys) s', pure (to_bytes x) s = (s', Ok b) -> of_bytes b = x /\ s' = s).
  { intros x b u u' Q. apply pure_Ok in Q as (Q & ->). split; auto. apply to_bytes_Ok in Q. tauto. }
  apply sbind_Ok in H as (? & bp0 & B & H). apply TB in B as (T1 & ->). apply sbind_Ok in H as (? & bq0 & B & H). apply TB in B as (T2 & ->).
  apply sbind_Ok in H as (? & bn0 & B & H). apply TB in B as (T3 & ->). apply sbind_Ok in H as (? & bp1 & B & H). apply TB in B as (T4 & ->).
  apply sbind_Ok in H as (? & bq1 & B & H). apply TB in B as (T5 & ->). apply sbind_Ok in H as (? & bn1 & B & H). apply TB in B as (T6 & ->).
  apply sbind_Ok in H as (s1 & [] & W1 & H). apply io_write_Ok in W1 as (W1 & X1 & _).
  apply sbind_Ok in H as (s2 & [] & W2 & H). apply io_write_Ok in W2 as (W2 & X2 & _).
  apply sbind_Ok in H as (s3 & [] & W3 & H). apply io_write_Ok in W3 as (W3 & X3 & _). apply io_write_Ok in H as (W4 & X4 & _).
  apply (fun a b => saved_keep _ _ _ _ _ _ a X2 b) in W1; [|not_in]. apply (fun a b => saved_keep _ _ _ _ _ _ a X3 b) in W1; [|not_in]. apply (fun a b => saved_keep _ _ _ _ _ _ a X4 b) in W1; [|not_in].
  apply (fun a b => saved_keep _ _ _ _ _ _ a X3 b) in W2; [|not_in]. apply (fun a b => saved_keep _ _ _ _ _ _ a X4 b) in W2; [|not_in].
  apply (fun a b => saved_keep _ _ _ _ _ _ a X4 b) in W3; [|not_in].
  cbn zeta. split.
  { intros f NI. cbn [paillier_files map] in NI. rewrite X4, X3, X2, X1; auto; intros [Q|[]]; apply NI; rewrite <- Q; cbn [In]; tauto. }
  assert (LD : forall dir bp bq bn, saved (sy_world s') cpsec (dir ++ paillier_key) (bp, bq, 1) -> saved (sy_world s') cppub (dir ++ paillier_pub) (bn, 1) ->
     In (path (dir ++ paillier_key)) (paillier_files out) -> In (path (dir ++ paillier_pub)) (paillier_files out) ->
     reads_back (sy_world s') (paillier_files out) (fun e' => load_deletion cppub cpsec e' dir) (of_bytes bp, of_bytes bq, 1, (of_bytes bn, 1))).
  { intros dir bp bq bn SP SE I1 I2. unfold load_deletion.
    eapply (back_bind _ _ (fun e' => must (read_msg e' cpsec (dir ++ paillier_key)))); [apply back_must; eapply back_read; eauto|].
    eapply (back_bind _ _ (fun e' => must (read_msg e' cppub (dir ++ paillier_pub)))); [apply back_must; eapply back_read; eauto|].
    cbn [fst snd]. apply back_pure. }
  assert (D0 := LD (p0_dir out) bp0 bq0 bn1 W2 W3 ltac:(tells) ltac:(tells)). assert (D1 := LD (p1_dir out) bp1 bq1 bn0 W4 W1 ltac:(tells) ltac:(tells)).
  rewrite T1, T2, T6 in D0. rewrite T4, T5, T3 in D1. split; auto.
Qed.

(** Key generation for the original protocol: what one party reads as the other
    party's public key is the public key of the secret the other one reads. *)
Theorem C52_elgamal out e s s' :
  generate_elgamal_keys cpub csec e (p0_dir out) (p1_dir out) s = (s', Ok tt) ->
  exists sk0 sk1, 1 <= sk0 < ord Gr /\ 1 <= sk1 < ord Gr
    /\ let back {A} := @reads_back A (sy_world s') (elgamal_files out) in
       let key x := mkPk gen (gpow (Gr := Gr) gen x) in
       same_except (elgamal_files out) (sy_world s) (sy_world s')
       /\ back (fun e' => load_original cpub csec e' (p0_dir out) (p1_dir out)) (key sk0, key sk1, sk0)
       /\ back (fun e' => load_original cpub csec e' (p1_dir out) (p0_dir out)) (key sk1, key sk0, sk1).
Proof.
  intros H. unfold generate_elgamal_keys in H.
  apply sbind_Ok in H as (s1 & [] & H1 & H). apply key_pair_Ok in H1 as (x0 & B0 & N0 & P0 & S0 & E0); [|apart].
  apply key_pair_Ok in H as (x1 & B1 & N1 & P1 & S1 & E1); [|apart].
  assert (Q0 : saved (sy_world s') cpub (p0_dir out ++ elgamal_pub) (key_msg x0)).
  { apply saved_path with (p0_dir out ++ slash :: elgamal_pub); [paths; reflexivity|]. eapply saved_keep; [exact P0|exact E1|not_in]. }
  assert (Q1 : saved (sy_world s') cpub (p1_dir out ++ elgamal_pub) (key_msg x1)).
  { apply saved_path with (p1_dir out ++ slash :: elgamal_pub); [paths; reflexivity|]. exact P1. }
  assert (K0 : saved (sy_world s') csec (p0_dir out ++ elgamal_key) (bn2bin x0)).
  { apply saved_path with (p0_dir out ++ slash :: elgamal_key); [paths; reflexivity|]. eapply saved_keep; [exact S0|exact E1|not_in]. }
  assert (K1 : saved (sy_world s') csec (p1_dir out ++ elgamal_key) (bn2bin x1)).
  { apply saved_path with (p1_dir out ++ slash :: elgamal_key); [paths; reflexivity|]. exact S1. }
  exists x0, x1. split; auto. split; auto. cbn zeta. split.
  { pose proof (same_except_app _ _ _ _ _ E0 E1) as X. intros f NI. apply X. intros Q. apply NI. clear - Q. cbn [app In] in Q.
    repeat (destruct Q as [<-|Q]; [tells|]). destruct Q. }
  assert (LO : forall mine other x y, 0 <= x -> gpow (Gr := Gr) gen x <> gid -> gpow (Gr := Gr) gen y <> gid ->
     saved (sy_world s') cpub (mine ++ elgamal_pub) (key_msg x) -> saved (sy_world s') cpub (other ++ elgamal_pub) (key_msg y) -> saved (sy_world s') csec (mine ++ elgamal_key) (bn2bin x) ->
     In (path (mine ++ elgamal_pub)) (elgamal_files out) -> In (path (other ++ elgamal_pub)) (elgamal_files out) -> In (path (mine ++ elgamal_key)) (elgamal_files out) ->
     reads_back (sy_world s') (elgamal_files out) (fun e' => load_original cpub csec e' mine other) (mkPk gen (gpow gen x), mkPk gen (gpow gen y), x)).
  { intros mine other x y GX NX NY SP SO SE I1 I2 I3. unfold load_original.
    eapply (back_bind _ _ (fun e' => must (read_msg e' cpub (mine ++ elgamal_pub)))); [apply back_must; eapply back_read; eauto|].
    eapply (back_bind _ _ (fun e' => must (pure (deser_pubkey (key_msg x))))); [apply back_must; rewrite deser_key by auto; apply back_pure|].
    eapply (back_bind _ _ (fun e' => must (read_msg e' cpub (other ++ elgamal_pub)))); [apply back_must; eapply back_read; eauto|].
    eapply (back_bind _ _ (fun e' => must (pure (deser_pubkey (key_msg y))))); [apply back_must; rewrite deser_key by auto; apply back_pure|].
    eapply (back_bind _ _ (fun e' => must (read_msg e' csec (mine ++ elgamal_key)))); [apply back_must; eapply back_read; eauto|].
    replace (of_bytes (bn2bin x)) with x by (symmetry; apply bn2bin_spec; auto). apply back_pure. }
  split; apply LO; auto; try lia; tells.
Qed.

(** If no operation fails and the messages are not too long, generation
    succeeds, unless the two secrets add up to the group's order: then the joint
    key cannot be written, and the error is reported. *)
Lemma write_reliable {T} e (c : codec T) t name (s : sys) : reliable e -> short (c_ser c t) ->
  exists s', io (write_msg e c t name) s = (s', Ok tt) /\ sy_coins s' = sy_coins s.
Proof.
  intros RE SH. destruct (C44_single_succeeds (c_ser c) (c_parse c) e (path name) t (sy_world s) RE SH) as (w1 & w2 & X & _).
  unfold io, zoom, write_msg. rewrite X. eexists. split; reflexivity.
Qed.
Lemma read_reliable {T} e (c : codec T) t name (s : sys) : reliable e -> faithful c -> saved (sy_world s) c name t ->
  exists k, io (read_msg e c name) s = (mkSys (mkWorld (files (sy_world s)) k) (sy_coins s), Ok t).
Proof. intros RE FC SV. destruct (read_msg_reliable e c t name (sy_world s) RE FC SV) as [k K]. exists k. unfold io, zoom. rewrite K. auto. Qed.
Lemma pow_nz x : 1 <= x < ord Gr -> gpow (Gr := Gr) gen x <> gid.
Proof. intros B Q. apply gen_pow_id_iff in Q. apply Z.divide_pos_le in Q; lia. Qed.
Lemma ser_key_Ok x : gpow (Gr := Gr) gen x <> gid -> ser_pubkey (key_of (Gr := Gr) x) = Ok (key_msg x).
Proof.
  intros NZ. unfold ser_pubkey, key_of, point_to_bytes. cbn [pk_g pk_y].
  assert (E1 : geqb (@gen Gr) gid = false). { destruct (geqb gen gid) eqn:Q; auto. apply geqb_spec in Q. exfalso. exact (gen_nontrivial Gr Q). }
  assert (E2 : geqb (gpow (Gr := Gr) gen x) gid = false). { destruct (geqb (gpow gen x) gid) eqn:Q; auto. apply geqb_spec in Q. congruence. }
  rewrite E1, E2. auto.
Qed.
Hypothesis short_pub : forall a b : Gr, short (c_ser cpub (WPt a, WPt b)).
Hypothesis short_sec : forall x, 0 <= x < ord Gr -> short (c_ser csec (bn2bin x)).
Lemma key_pair_run e pub prv s pk x t : reliable e -> path pub <> path prv -> @gen_key_pair Gr (sy_coins s) = Ok ((pk, x), t) ->
  exists s', elgamal_key_pair cpub csec e pub prv s = (s', Ok tt) /\ sy_coins s' = t /\ saved (sy_world s') cpub pub (key_msg x) /\ same_except [path pub; path prv] (sy_world s) (sy_world s').
Proof.
  intros RE NP K. destruct (gen_key_pair_Ok _ _ _ _ K) as (-> & B). unfold elgamal_key_pair.
  assert (R1 : rand (@gen_key_pair Gr) s = (mkSys (sy_world s) t, Ok (key_of x, x))) by (unfold rand; rewrite K; auto).
  rewrite (sbind_run _ _ _ _ _ R1). cbn [fst snd]. rewrite ser_key_Ok by (apply pow_nz; auto).
  assert (TB : to_bytes x = Ok (bn2bin x)) by (unfold to_bytes; destruct (Z.ltb_spec x 0); [lia|auto]). rewrite TB.
  rewrite (sbind_run _ _ _ (mkSys (sy_world s) t) (key_msg x) eq_refl). rewrite (sbind_run _ _ _ (mkSys (sy_world s) t) (bn2bin x) eq_refl).
  destruct (write_reliable e cpub (key_msg x) pub (mkSys (sy_world s) t) RE) as (s1 & W1 & C1); [apply short_pub|].
  destruct (write_reliable e csec (bn2bin x) prv s1 RE) as (s2 & W2 & C2); [apply short_sec; lia|].
  exists s2. rewrite (sbind_run _ _ _ _ _ W1). split; [exact W2|]. split; [rewrite C2, C1; auto|].
  apply io_write_Ok in W1 as (W1 & X1 & _). apply io_write_Ok in W2 as (W2 & X2 & _). cbn [sy_world] in X1. split.
  - eapply saved_keep; eauto. intros [Q|[]]. congruence.
  - apply (same_except_app [path pub] [path prv] _ _ _ X1 X2).
Qed.
Lemma joint_run e f0 f1 out s x0 x1 : reliable e -> saved (sy_world s) cpub f0 (key_msg x0) -> saved (sy_world s) cpub f1 (key_msg x1) -> gpow (Gr := Gr) gen x0 <> gid -> gpow (Gr := Gr) gen x1 <> gid ->
  match joint_public_key cpub e [f0; f1] out s with
  | (s', Ok _) => gpow (Gr := Gr) gen (x0 + x1) <> gid /\ sy_coins s' = sy_coins s
  | (_, Err _) => gpow (Gr := Gr) gen (x0 + x1) = gid
  | _ => False
  end.
Proof.
  intros RE S0 S1 N0 N1. unfold joint_public_key. cbn [read_shares].
  destruct (read_reliable e cpub _ f0 s RE Fpub S0) as [a R0]. set (s1 := mkSys (mkWorld (files (sy_world s)) a) (sy_coins s)) in *.
  destruct (read_reliable e cpub _ f1 s1 RE Fpub S1) as [b R1]. set (s2 := mkSys (mkWorld (files (sy_world s1)) b) (sy_coins s1)) in *.
  assert (D0 : pure (deser_pubkey (key_msg x0)) s1 = (s1, Ok (key_of (Gr := Gr) x0))) by (rewrite deser_key by auto; auto).
  assert (D1 : pure (deser_pubkey (key_msg x1)) s2 = (s2, Ok (key_of (Gr := Gr) x1))) by (rewrite deser_key by auto; auto).
  assert (RS : (m <-- io (read_msg e cpub f0) ;; k <-- pure (deser_pubkey m) ;; ks <-- (m0 <-- io (read_msg e cpub f1) ;; k0 <-- pure (deser_pubkey m0) ;; ks <-- sret [] ;; sret (k0 :: ks)) ;; sret (k :: ks)) s
     = (s2, Ok [key_of (Gr := Gr) x0; key_of x1])).
  { rewrite (sbind_run _ _ _ _ _ R0), (sbind_run _ _ _ _ _ D0). assert (IN : (m0 <-- io (read_msg e cpub f1) ;; k0 <-- pure (deser_pubkey m0) ;; ks <-- sret [] ;; sret (k0 :: ks)) s1 = (s2, Ok [key_of (Gr := Gr) x1])).
    { rewrite (sbind_run _ _ _ _ _ R1), (sbind_run _ _ _ _ _ D1). reflexivity. }
    rewrite (sbind_run _ _ _ _ _ IN). reflexivity. }
  rewrite (sbind_run _ _ _ _ _ RS).
  pose proof (@shares_sum Gr [x1] x0) as SU. cbn [map fold_left] in SU. rewrite SU. rewrite (sbind_run _ _ _ s2 (key_of (x0 + x1)) eq_refl).
  destruct (geqb (gpow (Gr := Gr) gen (x0 + x1)) gid) eqn:Q.
  - apply geqb_spec in Q. unfold sbind, pure, sfail. destruct (ser_pubkey (key_of (x0 + x1))) as [m|c| |] eqn:SE; auto.
    + apply ser_key in SE as (_ & NZ). congruence.
    + unfold ser_pubkey, point_to_bytes in SE. cbn [key_of pk_g pk_y] in SE. destruct (geqb gen gid); cbn [obind] in SE; [discriminate|]. destruct (geqb _ gid); discriminate.
    + unfold ser_pubkey, point_to_bytes in SE. cbn [key_of pk_g pk_y] in SE. destruct (geqb gen gid); cbn [obind] in SE; [discriminate|]. destruct (geqb _ gid); discriminate.
  - assert (NZ : gpow (Gr := Gr) gen (x0 + x1) <> gid). { intros Y. apply geqb_spec in Y. congruence. }
    rewrite ser_key_Ok by auto. rewrite (sbind_run _ _ _ s2 (key_msg (x0 + x1)) eq_refl).
    destruct (write_reliable e cpub (key_msg (x0 + x1)) out s2 RE) as (s3 & W & C); [apply short_pub|]. rewrite W. split; auto.
Qed.
(** If no operation of the operating system fails and the messages are not too
    long, key generation succeeds, unless the two secrets drawn add up to the
    group order; then an error is returned (and no joint key is written). *)
Theorem C52_threshold_succeeds out e p q bits s pk0 x0 t0 pk1 x1 t1 n k0 k1 t2 :
  reliable e -> 0 < p -> 0 < q ->
  @gen_key_pair Gr (sy_coins s) = Ok ((pk0, x0), t0) -> @gen_key_pair Gr t0 = Ok ((pk1, x1), t1) -> threshold_keygen p q bits t1 = Ok ((n, k0, k1), t2) ->
  short (c_ser cthr (bn2bin n, bn2bin k0)) -> short (c_ser cthr (bn2bin n, bn2bin k1)) ->
  match generate_threshold_keys cpub csec cthr e (p0_dir out) (p1_dir out) p q bits s with
  | (_, Ok _) => x0 + x1 <> ord Gr
  | (_, Err _) => x0 + x1 = ord Gr
  | _ => False
  end.
Proof.
  intros RE PP QP K0 K1 KG SH0 SH1.
  destruct (gen_key_pair_Ok _ _ _ _ K0) as (_ & B0). destruct (gen_key_pair_Ok _ _ _ _ K1) as (_ & B1).
  assert (JS : gpow (Gr := Gr) gen (x0 + x1) = gid <-> x0 + x1 = ord Gr).
  { rewrite gen_pow_id_iff. split; [intros [k Q]; assert (k = 1) by nia; lia|intros ->; apply Z.divide_refl]. }
  unfold generate_threshold_keys.
  destruct (key_pair_run e (p0_dir out ++ slash :: elgamal_pub) (p0_dir out ++ slash :: elgamal_key) s pk0 x0 t0 RE ltac:(apart) K0) as (s1 & R1 & C1 & V1 & E1). rewrite (sbind_run _ _ _ _ _ R1).
  rewrite <- C1 in K1. destruct (key_pair_run e (p1_dir out ++ slash :: elgamal_pub) (p1_dir out ++ slash :: elgamal_key) s1 pk1 x1 t1 RE ltac:(apart) K1) as (s2 & R2 & C2 & V2 & E2). rewrite (sbind_run _ _ _ _ _ R2).
  apply (fun a b => saved_keep _ _ _ _ _ _ a E2 b) in V1; [|not_in].
  apply saved_path with (n' := p0_dir out ++ elgamal_pub) in V1; [|paths; reflexivity]. apply saved_path with (n' := p1_dir out ++ elgamal_pub) in V2; [|paths; reflexivity].
  pose proof (joint_run e _ _ (p0_dir out ++ shared_pub) s2 x0 x1 RE V1 V2 (pow_nz _ B0) (pow_nz _ B1)) as J1.
  unfold sbind at 1. revert J1. match goal with |- _ -> (let (_, _) := match ?t with _ => _ end in _) => let X := fresh in set (X := t); match goal with |- (let (_, _) := ?u in _) -> _ => change u with X end; subst X; destruct t as [s3 [[]|c| |]] eqn:Q1 end; intros J1; try tauto.
  destruct J1 as (NZ & C3). apply (joint_Ok cpub Fpub e _ _ _ _ _ x0 x1 V1 V2 (pow_nz _ B0) (pow_nz _ B1)) in Q1 as (_ & _ & X3).
  apply (fun a b => saved_keep _ _ _ _ _ _ a X3 b) in V1; [|not_in]. apply (fun a b => saved_keep _ _ _ _ _ _ a X3 b) in V2; [|not_in].
  pose proof (joint_run e _ _ (p1_dir out ++ shared_pub) s3 x0 x1 RE V1 V2 (pow_nz _ B0) (pow_nz _ B1)) as J2.
  unfold sbind at 1. revert J2. match goal with |- _ -> (let (_, _) := match ?t with _ => _ end in _) => let X := fresh in set (X := t); match goal with |- (let (_, _) := ?u in _) -> _ => change u with X end; subst X; destruct t as [s4 [[]|c| |]] eqn:Q2 end; intros J2; try tauto.
  destruct J2 as (_ & C4). rewrite <- C2, <- C3, <- C4 in KG.
  assert (NN : 0 <= n /\ 0 <= k0 /\ 0 <= k1).
  { clear - KG PP QP. unfold threshold_keygen in KG. apply bind_Ok in KG as (r1 & u1 & D1 & KG). apply bind_Ok in KG as (r2 & u2 & D2 & KG). apply bind_Ok in KG as (inv & u3 & D3 & KG).
    destruct (negb _); [discriminate|]. destruct (negb _); [discriminate|]. apply bind_Ok in KG as (z & u4 & D4 & KG). apply rand_less_than_range in D4. destruct (negb _); [discriminate|]. apply ret_Ok in KG as (KG & _). injection KG as Q1 Q2 Q3. split; [nia|]. split; lia. }
  unfold threshold_key_files. assert (R5 : rand (threshold_keygen p q bits) s4 = (mkSys (sy_world s4) t2, Ok (n, k0, k1))) by (unfold rand; rewrite KG; auto).
  rewrite (sbind_run _ _ _ _ _ R5). set (s5 := mkSys (sy_world s4) t2).
  assert (TB : forall x, 0 <= x -> to_bytes x = Ok (bn2bin x)) by (intros x GE; unfold to_bytes; destruct (Z.ltb_spec x 0); [lia|auto]). rewrite !TB by tauto.
  rewrite (sbind_run _ _ _ s5 (bn2bin n) eq_refl), (sbind_run _ _ _ s5 (bn2bin k0) eq_refl), (sbind_run _ _ _ s5 (bn2bin k1) eq_refl).
  destruct (write_reliable e cthr _ (p0_dir out ++ paillier_key) s5 RE SH0) as (s6 & W1 & _). rewrite (sbind_run _ _ _ _ _ W1).
  destruct (write_reliable e cthr _ (p1_dir out ++ paillier_key) s6 RE SH1) as (s7 & W2 & _). rewrite W2. tauto.
Qed.
End Keys.

(** ** Examples: a group of large prime order, primes 3 and 5, a codec that stores lists
    behind their length *)
Definition pack (l : bytes) : bytes := Z.of_nat (length l) :: l.
Definition unpack (s : bytes) : bytes * bytes := match s with [] => ([], []) | n :: r => (firstn (Z.to_nat n) r, skipn (Z.to_nat n) r) end.
Lemma unpack_pack l r : unpack (pack l ++ r) = (l, r).
Proof.
  unfold unpack, pack. cbn [app]. rewrite Nat2Z.id, firstn_app, firstn_all, Nat.sub_diag, skipn_app, skipn_all, Nat.sub_diag. cbn. rewrite app_nil_r. auto.
Qed.
Definition ex_sec : codec sec_msg := mkCodec (fun x => x) (fun x => x).
Definition ex_thr : codec thr_msg := mkCodec (fun m => pack (fst m) ++ snd m) unpack.
Definition ex_ppub : codec ppub_msg := mkCodec (fun m => snd m :: fst m) (fun s => match s with [] => ([], 0) | n :: r => (r, n) end).
Definition ex_psec : codec psec_msg :=
  mkCodec (fun m => snd m :: pack (fst (fst m)) ++ snd (fst m)) (fun s => match s with [] => ([], [], 0) | n :: r => (unpack r, n) end).
Lemma ex_codecs : faithful ex_sec /\ faithful ex_thr /\ faithful ex_ppub /\ faithful ex_psec.
Proof.
  split; [intros t; auto|]. split; [intros [a b]; apply unpack_pack|]. split; [intros [a b]; auto|]. intros [[a b] n]. unfold ex_psec. cbn [c_ser c_parse fst snd]. rewrite unpack_pack. auto.
Qed.

Definition point_code (w : wpoint exG) : Z := match w with WPt x => proj1_sig x | WBad => -1 end.
Definition point_of (z : Z) : wpoint exG := if z <? 0 then WBad else WPt (zin big_prime big_prime_prime z : exG).
Lemma point_of_code w : point_of (point_code w) = w.
Proof.
  destruct w as [x|]; [|reflexivity]. unfold point_of, point_code. pose proof (zp_small big_prime x) as Z1. destruct x as [x Hx]. cbn [proj1_sig] in *.
  assert (0 <= x) by (apply andb_prop in Hx as [H1 _]; apply Z.leb_le; auto). destruct (Z.ltb_spec x 0); [lia|]. f_equal. apply (zp_eq big_prime). exact Z1.
Qed.
Definition ex_pub : codec (pub_msg (Gr := exG)) :=
  mkCodec (fun m => [point_code (fst m); point_code (snd m)]) (fun s => (point_of (nth 0 s 0), point_of (nth 1 s 0))).
Lemma ex_pub_faithful : faithful ex_pub.
Proof. intros [a b]. unfold ex_pub. cbn [c_ser c_parse fst snd nth]. rewrite !point_of_code. auto. Qed.
Lemma ex_pub_short (a b : exG) : short (c_ser ex_pub (WPt a, WPt b)). Proof. reflexivity. Qed.
Definition ex_out : bytes := [111; 117; 116; slash].
Definition pk_eqb (a b : pubkey exG) : bool := geqb (pk_g a) (pk_g b) && geqb (pk_y a) (pk_y b).
(** both parties load the same public key, and their secrets add up to its exponent *)
Example ex_C52_threshold :
  match generate_threshold_keys ex_pub ex_sec ex_thr ex_env (p0_dir ex_out) (p1_dir ex_out) 3 5 4 (mkSys ex_fs (const_tape 2)) with
  | (s, Ok _) => match load_addition ex_pub ex_sec ex_thr ex_env (p0_dir ex_out) (sy_world s), load_addition ex_pub ex_sec ex_thr ex_env (p1_dir ex_out) (sy_world s) with
                 | (_, Ok (pk0, x0, n0, k0)), (_, Ok (pk1, x1, n1, k1)) =>
                     pk_eqb pk0 pk1 && geqb (pk_y pk0) (gpow gen (x0 + x1)) && (n0 =? 15) && (n1 =? 15) && ((k0 + k1) mod 15 =? 1) && ((k0 + k1) mod 8 =? 0) && (0 <? x0) && (0 <? x1)
                 | _, _ => false end
  | _ => false end = true.
Proof. vm_cast_no_check (eq_refl true). Qed.
Example ex_C52_paillier :
  match generate_paillier_keys ex_ppub ex_psec ex_env (p0_dir ex_out) (p1_dir ex_out) 3 5 7 11 (mkSys ex_fs (const_tape 2)) with
  | (s, Ok _) => match load_deletion ex_ppub ex_psec ex_env (p0_dir ex_out) (sy_world s), load_deletion ex_ppub ex_psec ex_env (p1_dir ex_out) (sy_world s) with
                 | (_, Ok (a, b, _, (n, _))), (_, Ok (c, d, _, (m, _))) => list_eqb [a; b; n; c; d; m] [3; 5; 77; 7; 11; 15]
                 | _, _ => false end
  | _ => false end = true.
Proof. vm_cast_no_check (eq_refl true). Qed.
Example ex_C52_elgamal :
  match generate_elgamal_keys ex_pub ex_sec ex_env (p0_dir ex_out) (p1_dir ex_out) (mkSys ex_fs ex_tape) with
  | (s, Ok _) => match load_original ex_pub ex_sec ex_env (p0_dir ex_out) (p1_dir ex_out) (sy_world s), load_original ex_pub ex_sec ex_env (p1_dir ex_out) (p0_dir ex_out) (sy_world s) with
                 | (_, Ok (k0, k1, x)), (_, Ok (l1, l0, y)) => pk_eqb k0 l0 && pk_eqb k1 l1 && geqb (pk_y k0) (gpow gen x) && geqb (pk_y k1) (gpow gen y) && negb (x =? y)
                 | _, _ => false end
  | _ => false end = true.
Proof. vm_cast_no_check (eq_refl true). Qed.

Print Assumptions C52_threshold_only.
Print Assumptions C52_threshold.
Print Assumptions C52_threshold_succeeds.
Print Assumptions C52_paillier.
Print Assumptions C52_elgamal.
