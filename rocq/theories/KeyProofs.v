(** Key files (KeyModel). *)
Require Import List Arith Lia ZArith Bool.
Import ListNotations.
From Verif Require Import Prelude Coins Group ElGamalModel ElGamalProofs BytesModel BytesProofs CipherModel PaillierModel FileModel FileSpec FileProofs PropsFile KeyModel.
Local Open Scope Z_scope.

(** ** names *)
Lemma path_app a b : hd slash b <> slash -> path (a ++ b) = path a ++ path b.
Proof.
  intros NB. induction a as [|c a IH]; auto. destruct a as [|d a].
  - cbn [app path]. destruct b as [|d b]; [cbn in NB; congruence|]. cbn [hd] in NB. apply Z.eqb_neq in NB. rewrite NB, andb_false_r. auto.
  - cbn [app path] in *. destruct ((c =? slash) && (d =? slash)); [auto|]. cbn [app]. rewrite IH. auto.
Qed.

Definition faithful {T} (c : codec T) : Prop := forall t, c_parse c (c_ser c t) = t.
(** the file [name] contains the message [t] *)
Definition saved {T} (w : world) (c : codec T) (name : bytes) (t : T) : Prop :=
  short (c_ser c t) /\ files w (path name) = Some (frame (c_ser c t)).
Lemma saved_keep {T} w w' (c : codec T) name t l : saved w c name t -> same_except l w w' -> ~ In (path name) l -> saved w' c name t.
Proof. intros (S1 & F) SE NI. split; auto. rewrite SE; auto. Qed.
Lemma saved_path {T} w (c : codec T) n n' t : path n = path n' -> saved w c n t -> saved w c n' t.
Proof. intros E (S1 & F). split; auto. rewrite <- E. auto. Qed.
Lemma same_except_app l l' w w' w'' : same_except l w w' -> same_except l' w' w'' -> same_except (l ++ l') w w''.
Proof. intros A B n NI. rewrite B, A; auto; intros H; apply NI; apply in_or_app; auto. Qed.
Lemma same_except_refl l w : same_except l w w. Proof. intros n _. auto. Qed.

Section IO.
Variable e : env.
Lemma write_msg_Ok {T} (c : codec T) t name w w' : write_msg e c t name w = (w', Ok tt) -> saved w' c name t /\ same_except [path name] w w'.
Proof.
  intros H. split.
  - unfold write_msg in H. apply write_proto_Ok in H. exact H.
  - unfold write_msg, write_proto_to_file in H. eapply only_scoped; [|exact H].
    apply only_bind; [apply only_open|]. intros _. apply only_bind; [apply only_record|]. intros _. apply only_close.
Qed.
Lemma read_msg_Ok {T} (c : codec T) t name w w' a : faithful c -> saved w c name t -> read_msg e c name w = (w', Ok a) -> a = t /\ forall n, files w' n = files w n.
Proof.
  intros FC (S1 & F) H. unfold read_msg in H. apply read_proto_calm in H. rewrite <- (app_nil_r (frame _)) in F.
  destruct (read_proto_frame (calm e) (c_parse c) (path name) (c_ser c t) [] w (calm_reliable e) S1 F) as [k Z]. rewrite Z in H. inversion H; subst. split; [apply FC|auto].
Qed.
Lemma read_msg_reliable {T} (c : codec T) t name w : reliable e -> faithful c -> saved w c name t -> exists k, read_msg e c name w = (mkWorld (files w) k, Ok t).
Proof.
  intros RE FC (S1 & F). unfold read_msg. rewrite <- (app_nil_r (frame _)) in F.
  destruct (read_proto_frame e (c_parse c) (path name) (c_ser c t) [] w RE S1 F) as [k Z]. exists k. rewrite Z, FC. auto.
Qed.
Lemma io_Ok {A} (m : SM world A) s s' a : io m s = (s', Ok a) -> exists w', m (sy_world s) = (w', Ok a) /\ s' = mkSys w' (sy_coins s).
Proof. unfold io, zoom. destruct (m (sy_world s)) as [w' o] eqn:E. intros H. inversion H; subst. eauto. Qed.
Lemma rand_Ok {A} (m : M A) s s' a : rand m s = (s', Ok a) -> exists t, m (sy_coins s) = Ok (a, t) /\ s' = mkSys (sy_world s) t.
Proof. unfold rand. destruct (m (sy_coins s)) as [[b t]| | |] eqn:E; intros H; inversion H; subst. eauto. Qed.
Lemma pure_Ok {S A} (o : outcome A) (s s' : S) a : pure o s = (s', Ok a) -> o = Ok a /\ s' = s.
Proof. unfold pure, sfail. intros H. inversion H. auto. Qed.
Lemma io_write_Ok {T} (c : codec T) t name s s' : io (write_msg e c t name) s = (s', Ok tt) ->
  saved (sy_world s') c name t /\ same_except [path name] (sy_world s) (sy_world s') /\ sy_coins s' = sy_coins s.
Proof. intros H. apply io_Ok in H as (w' & H & ->). apply write_msg_Ok in H. cbn [sy_world sy_coins]. tauto. Qed.
End IO.

Section Keys.
Context {Gr : group}.
Variables (cpub : codec (pub_msg (Gr := Gr))) (csec : codec sec_msg) (cthr : codec thr_msg) (cppub : codec ppub_msg) (cpsec : codec psec_msg).
Hypotheses (Fpub : faithful cpub) (Fsec : faithful csec) (Fthr : faithful cthr) (Fppub : faithful cppub) (Fpsec : faithful cpsec).

Definition key_msg (x : Z) : pub_msg (Gr := Gr) := (WPt gen, WPt (gpow gen x)).
Lemma ser_key x m : ser_pubkey (key_of (Gr := Gr) x) = Ok m -> m = key_msg x /\ gpow (Gr := Gr) gen x <> gid.
Proof.
  unfold ser_pubkey, key_of, point_to_bytes. cbn [pk_g pk_y]. destruct (geqb gen gid); cbn [obind]; [discriminate|]. destruct (geqb (gpow gen x) gid) eqn:E; cbn [obind]; [discriminate|].
  intros H. inversion H. split; auto. intros Q. apply geqb_spec in Q. congruence.
Qed.
Lemma deser_key x : gpow (Gr := Gr) gen x <> gid -> deser_pubkey (key_msg x) = Ok (key_of x).
Proof.
  intros NZ. unfold deser_pubkey, key_msg, create_point. cbn [fst snd].
  assert (E1 : geqb (@gen Gr) gid = false). { destruct (geqb gen gid) eqn:Q; auto. apply geqb_spec in Q. exfalso. exact (gen_nontrivial Gr Q). }
  assert (E2 : geqb (gpow (Gr := Gr) gen x) gid = false). { destruct (geqb (gpow gen x) gid) eqn:Q; auto. apply geqb_spec in Q. congruence. }
  rewrite E1, E2. auto.
Qed.
Lemma to_bytes_Ok x b : to_bytes x = Ok b -> b = bn2bin x /\ of_bytes b = x.
Proof. unfold to_bytes. destruct (Z.ltb_spec x 0); intros Q; inversion Q; subst. split; auto. apply bn2bin_spec; auto. Qed.

Lemma key_pair_Ok e pub prv s s' : path pub <> path prv -> elgamal_key_pair cpub csec e pub prv s = (s', Ok tt) ->
  exists x, 1 <= x < ord Gr /\ gpow (Gr := Gr) gen x <> gid /\ saved (sy_world s') cpub pub (key_msg x) /\ saved (sy_world s') csec prv (bn2bin x)
            /\ same_except [path pub; path prv] (sy_world s) (sy_world s').
Proof.
  intros NP H. unfold elgamal_key_pair in H. apply sbind_Ok in H as (s1 & [pk x] & H1 & H). apply rand_Ok in H1 as (t & H1 & ->). apply gen_key_pair_Ok in H1 as (-> & B). cbn [fst snd] in H.
  apply sbind_Ok in H as (s2 & pm & H1 & H). apply pure_Ok in H1 as (H1 & ->). apply ser_key in H1 as (-> & NZ).
  apply sbind_Ok in H as (s3 & sm & H1 & H). apply pure_Ok in H1 as (H1 & ->). apply to_bytes_Ok in H1 as (-> & _).
  apply sbind_Ok in H as (s4 & [] & H1 & H). apply io_write_Ok in H1 as (W1 & X1 & _). apply io_write_Ok in H as (W2 & X2 & _). cbn [sy_world] in X1.
  exists x. split; auto. split; auto. split.
  - eapply saved_keep; eauto. intros [Q|[]]. congruence.
  - split; auto. apply (same_except_app [path pub] [path prv] _ _ _ X1 X2).
Qed.
Lemma read_pub_Ok e fn s s' (x : Z) (k : pubkey Gr) s2 : saved (sy_world s) cpub fn (key_msg x) -> gpow (Gr := Gr) gen x <> gid ->
  forall m, io (read_msg e cpub fn) s = (s', Ok m) -> pure (deser_pubkey m) s' = (s2, Ok k) -> k = key_of x /\ s2 = s' /\ (forall n, files (sy_world s') n = files (sy_world s) n).
Proof.
  intros SV NZ m H1 H2. apply io_Ok in H1 as (w' & H1 & ->). apply (read_msg_Ok e cpub _ _ _ _ _ Fpub SV) in H1 as (-> & F). apply pure_Ok in H2 as (H2 & ->). rewrite deser_key in H2 by auto. inversion H2; subst. auto.
Qed.
Lemma saved_files {T} w w' (c : codec T) n t : (forall k, files w' k = files w k) -> saved w c n t -> saved w' c n t.
Proof. intros E (A & B). split; auto. rewrite E. auto. Qed.
Lemma joint_Ok e f0 f1 out s s' x0 x1 : saved (sy_world s) cpub f0 (key_msg x0) -> saved (sy_world s) cpub f1 (key_msg x1) -> gpow (Gr := Gr) gen x0 <> gid -> gpow (Gr := Gr) gen x1 <> gid ->
  joint_public_key cpub e [f0; f1] out s = (s', Ok tt) ->
  saved (sy_world s') cpub out (key_msg (x0 + x1)) /\ gpow (Gr := Gr) gen (x0 + x1) <> gid /\ same_except [path out] (sy_world s) (sy_world s').
Proof.
  intros S0 S1 N0 N1 H. unfold joint_public_key in H. apply sbind_Ok in H as (s1 & ks & HR & H). cbn [read_shares] in HR.
  apply sbind_Ok in HR as (a1 & m0 & R1 & HR). apply sbind_Ok in HR as (a2 & k0 & R2 & HR).
  destruct (read_pub_Ok e f0 s a1 x0 k0 a2 S0 N0 m0 R1 R2) as (-> & -> & E1).
  apply sbind_Ok in HR as (a3 & l & R3 & HR). apply sbind_Ok in R3 as (a4 & m1 & R4 & R3). apply sbind_Ok in R3 as (a5 & k1 & R5 & R3).
  destruct (read_pub_Ok e f1 a1 a4 x1 k1 a5 (saved_files _ _ _ _ _ E1 S1) N1 m1 R4 R5) as (-> & -> & E2).
  apply sbind_Ok in R3 as (a6 & l2 & R6 & R3). inversion R6; subst. inversion R3; subst. inversion HR; subst. clear R6 R3 HR.
  apply sbind_Ok in H as (b1 & k & HK & H). apply pure_Ok in HK as (HK & ->).
  pose proof (@shares_sum Gr [x1] x0) as SU. cbn [map fold_left] in SU. rewrite SU in HK. inversion HK; subst k.
  apply sbind_Ok in H as (b2 & m & HM & H). apply pure_Ok in HM as (HM & ->). apply ser_key in HM as (-> & NZ).
  apply io_write_Ok in H as (W & X & _). split; auto. split; auto. intros n NI. rewrite X by auto. rewrite E2, E1. auto.
Qed.
Lemma threshold_files_Ok e p q bits fn0 fn1 s s' : path fn0 <> path fn1 -> threshold_key_files cthr e p q bits fn0 fn1 s = (s', Ok tt) ->
  exists n k0 k1 t', threshold_keygen p q bits (sy_coins s) = Ok ((n, k0, k1), t') /\ 0 <= n /\ 0 <= k0 /\ 0 <= k1
    /\ saved (sy_world s') cthr fn0 (bn2bin n, bn2bin k0) /\ saved (sy_world s') cthr fn1 (bn2bin n, bn2bin k1) /\ same_except [path fn0; path fn1] (sy_world s) (sy_world s').
Proof.
  intros NP H. unfold threshold_key_files in H. apply sbind_Ok in H as (s1 & [[n k0] k1] & H1 & H). apply rand_Ok in H1 as (t & H1 & ->).
  assert (TB : forall x b (s : sys) s', pure (to_bytes x) s = (s', Ok b) -> b = bn2bin x /\ 0 <= x /\ s' = s).
  { intros x b u u' Q. apply pure_Ok in Q as (Q & ->). split; [apply to_bytes_Ok; auto|]. split; auto. unfold to_bytes in Q. destruct (Z.ltb_spec x 0); [discriminate|auto]. }
  apply sbind_Ok in H as (s2 & bn & B1 & H). apply TB in B1 as (-> & Q1 & ->). apply sbind_Ok in H as (s3 & b0 & B2 & H). apply TB in B2 as (-> & Q2 & ->).
  apply sbind_Ok in H as (s4 & b1 & B3 & H). apply TB in B3 as (-> & Q3 & ->). apply sbind_Ok in H as (s5 & [] & W1 & H).
  apply io_write_Ok in W1 as (W1 & X1 & _). apply io_write_Ok in H as (W2 & X2 & _). cbn [sy_world] in X1.
  exists n, k0, k1, t. split; [exact H1|]. split; [auto|]. split; [auto|]. split; [auto|]. split; [eapply saved_keep; eauto; intros [Q|[]]; congruence|]. split; [exact W2|]. apply (same_except_app [path fn0] [path fn1] _ _ _ X1 X2).
Qed.
End Keys.

(** ** which files change, whatever the outcome *)
Definition touches {A} (l : list bytes) (m : SM sys A) : Prop := forall s s' o, m s = (s', o) -> same_except l (sy_world s) (sy_world s').
Lemma touches_bind {A B} l (m : SM sys A) (f : A -> SM sys B) : touches l m -> (forall a, touches l (f a)) -> touches l (sbind m f).
Proof.
  intros Hm Hf s s' o H. unfold sbind in H. destruct (m s) as [s1 [a|c| |]] eqn:E1; try (inversion H; subst; eapply Hm; eauto; fail).
  intros n NI. rewrite (Hf a s1 s' o H n NI). apply (Hm s s1 _ E1 n NI).
Qed.
Lemma touches_rand {A} l (m : M A) : touches l (rand m).
Proof. intros s s' o H n _. unfold rand in H. destruct (m (sy_coins s)) as [[a t]| | |]; inversion H; subst; auto. Qed.
Lemma touches_pure {A} l (o : outcome A) : touches l (pure o).
Proof. intros s s' o' H n _. inversion H. auto. Qed.
Lemma touches_write {T} l e (c : codec T) t name : In (path name) l -> touches l (io (write_msg e c t name)).
Proof.
  intros HI s s' o H n NI. unfold io, zoom in H. destruct (write_msg e c t name (sy_world s)) as [w' o'] eqn:E1. inversion H; subst. cbn [sy_world].
  assert (X : same_except [path name] (sy_world s) w'); [|apply X; intros [<-|[]]; auto].
  unfold write_msg, write_proto_to_file in E1. eapply only_scoped; [|exact E1].
  apply only_bind; [apply only_open|]. intros _. apply only_bind; [apply only_record|]. intros _. apply only_close.
Qed.
Definition only_reads {A} (m : SM (handle * world) A) : Prop := forall h w h' w' o,
  (forall n, h <> Writing n) -> m (h, w) = ((h', w'), o) -> (forall n, h' <> Writing n) /\ forall n, files w' n = files w n.
Lemma reads_bind {A B} (m : SM (handle * world) A) (f : A -> SM (handle * world) B) : only_reads m -> (forall a, only_reads (f a)) -> only_reads (sbind m f).
Proof.
  intros X Y h w h' w' o Hh. unfold sbind. destruct (m (h, w)) as [[h1 w1] r] eqn:M1.
  destruct (X _ _ _ _ _ Hh M1) as [H1 S1]. destruct r; intros Z; try (inversion Z; subst; auto).
  destruct (Y _ _ _ _ _ _ H1 Z) as [HH S2]. split; auto. intros k. rewrite S2, S1; auto.
Qed.
Lemma reads_ret {A} (a : outcome A) : only_reads (sfail a).
Proof. intros h w h' w' o Hh X. inversion X; subst. auto. Qed.
Ltac chew_reads := intros h w h' w' o Hh X; destruct h as [|rest bad|nm|]; [|(try destruct bad)|exfalso; eapply Hh; eauto|]; cbn in X;
  repeat match type of X with
  | context[match fault ?e ?k with _ => _ end] => destruct (fault e k)
  | context[match files ?w ?k with _ => _ end] => destruct (files w k)
  | context[if ?b then _ else _] => destruct b
  end; inversion X; subst; (split; [intros; discriminate|auto]).
Lemma reads_open e n : only_reads (posix_open e n R). Proof. chew_reads. Qed.
Lemma reads_close e : only_reads (posix_close e). Proof. chew_reads. Qed.
Lemma reads_more e : only_reads (posix_has_more e). Proof. chew_reads. Qed.
Lemma reads_read e n : only_reads (posix_read e n). Proof. chew_reads. Qed.
Lemma reads_extract e : forall k acc hm, only_reads (extract_loop e k acc hm).
Proof.
  induction k; intros acc hm; cbn [extract_loop]; [apply (reads_ret (Ok _))|]. destruct hm; [|apply (reads_ret (Ok _))].
  apply reads_bind; [apply reads_read|]. intros b. destruct (_ <? 128); [apply (reads_ret (Ok _))|]. destruct k; [apply reads_ret|].
  apply reads_bind; [apply reads_more|]. intros. apply IHk.
Qed.
Lemma reads_scoped {A} e (m : SM (handle * world) A) w w' o : only_reads m -> scoped e m w = (w', o) -> forall n, files w' n = files w n.
Proof.
  intros X Y. unfold scoped in Y. destruct (m (Closed, w)) as [[h w1] r] eqn:M1. assert (NC : forall n, Closed <> Writing n) by discriminate.
  destruct (X _ _ _ _ _ NC M1) as [H1 S1].
  destruct r; try (inversion Y; subst; exact S1);
    (destruct h as [| |nm|]; [| |exfalso; eapply H1; eauto|]; cbn in Y; try (destruct (fault e (tick w1))); inversion Y; subst; auto).
Qed.
Lemma read_msg_files {T} e (c : codec T) name w w' o : read_msg e c name w = (w', o) -> forall n, files w' n = files w n.
Proof.
  unfold read_msg, read_proto_from_file. apply reads_scoped. apply reads_bind; [apply reads_open|]. intros _. apply reads_bind.
  - unfold record_read, extract_varint32. apply reads_bind; [|intros; apply reads_read]. apply reads_bind; [apply reads_more|]. intros. apply reads_bind; [apply reads_extract|]. intros. apply (reads_ret (Ok _)).
  - intros. apply reads_bind; [apply reads_close|]. intros. apply (reads_ret (Ok _)).
Qed.
Lemma touches_read {T} l e (c : codec T) name : touches l (io (read_msg e c name)).
Proof.
  intros s s' o H n _. unfold io, zoom in H. destruct (read_msg e c name (sy_world s)) as [w' o'] eqn:E1. inversion H; subst. cbn [sy_world]. eapply read_msg_files; eauto.
Qed.
Lemma touches_ret {A} l (a : A) : touches l (sret a). Proof. intros s s' o H n _. inversion H. auto. Qed.
Lemma touches_shares {Gr : group} l (cpub : codec (pub_msg (Gr := Gr))) e fns : touches l (read_shares cpub e fns).
Proof.
  induction fns; cbn [read_shares]; [apply touches_ret|]. apply touches_bind; [apply touches_read|]. intros m. apply touches_bind; [apply touches_pure|]. intros k. apply touches_bind; auto. intros. apply touches_ret.
Qed.
Ltac touch := repeat first [ apply touches_rand | apply touches_pure | apply touches_shares | apply touches_read | apply touches_ret | (apply touches_write; solve [cbn; auto 12]) | (apply touches_bind; [|intros]) ].
