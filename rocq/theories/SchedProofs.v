(** * Proofs for C59: every schedule of the two programs. *)
Require Import List Arith ZArith Bool Lia.
Import ListNotations.
From Verif Require Import Prelude Coins SchedModel.
Local Open Scope nat_scope.

Section Sched.
Context {CS SS Req Rep : Type}.
Variable k total : nat.
Variable cl_send : nat -> CS -> M (CS * Req).
Variable cl_recv : nat -> Rep -> CS -> outcome CS.
Variable sv_work : Req -> SS -> tape -> SS * outcome Rep.
Variables sv_publish sv_advance sv_reset : SS -> SS.
Variable sv_ready : SS -> bool.
Variable second : CS * SS -> M (CS * SS).
Local Notation step := (step k total cl_send cl_recv sv_work sv_publish sv_advance sv_ready sv_reset second).
Local Notation reachable := (reachable k total cl_send cl_recv sv_work sv_publish sv_advance sv_ready sv_reset second).
Local Notation steps := (steps k total cl_send cl_recv sv_work sv_publish sv_advance sv_ready sv_reset second).
Local Notation calls := (calls cl_send cl_recv sv_work sv_publish sv_advance).
Local Notation one_call := (one_call cl_send cl_recv sv_work sv_publish sv_advance).
Local Notation call := (call sv_work sv_publish sv_advance).
Local Notation one_day := (one_day k cl_send cl_recv sv_work sv_publish sv_advance sv_reset second).
Local Notation days := (days k cl_send cl_recv sv_work sv_publish sv_advance sv_reset second).
Local Notation world := (@world CS SS Req Rep).

Hypothesis k_pos : 0 < k.
Hypothesis ready_work : forall r s tp s' o, sv_work r s tp = (s', o) -> sv_ready s' = sv_ready s.
Hypothesis ready_advance : forall s, sv_ready (sv_advance s) = sv_ready s.

Variables (c0 : CS) (s0 : SS) (tp0 : tape).
Hypothesis ready_reset : forall s, sv_ready (sv_reset s) = false.
Hypothesis ready_publish : forall i j st tp c s tp' c1 r tp1 s1 p, i < total -> j < k -> days i (c0, s0) tp0 = Ok (st, tp) ->
  calls j (fst st, sv_reset (snd st)) tp = Ok ((c, s), tp') -> cl_send j c tp' = Ok ((c1, r), tp1) ->
  sv_work r s (evens tp1) = (s1, Ok p) -> sv_ready (sv_publish s1) = (S j =? k).

Definition at_day (i : nat) (st : CS * SS) (tp : tape) : Prop := days i (c0, s0) tp0 = Ok (st, tp).
Definition at_call (i j : nat) (c : CS) (s : SS) (tp : tape) : Prop :=
  exists st tp1, at_day i st tp1 /\ calls j (fst st, sv_reset (snd st)) tp1 = Ok ((c, s), tp).
Definition run_fails : Prop := forall v, days total (c0, s0) tp0 <> Ok v.

Lemma bind_eq {A B} (m : M A) (f : A -> M B) tp v tp1 : m tp = Ok (v, tp1) -> (x <- m ;; f x) tp = f v tp1.
Proof. intros H. unfold bind. rewrite H. reflexivity. Qed.
Lemma bind_not {A B} (m : M A) (f : A -> M B) tp : (forall v, m tp <> Ok v) -> forall v, (x <- m ;; f x) tp <> Ok v.
Proof. intros H v. unfold bind. destruct (m tp) as [[a t]| | |] eqn:E; try discriminate. exfalso. apply (H (a, t)). auto. Qed.

Lemma days_fail i n : (forall v, days i (c0, s0) tp0 <> Ok v) -> i <= n -> forall v, days n (c0, s0) tp0 <> Ok v.
Proof.
  intros H. induction n as [|n IH]; intros L v.
  - replace i with 0 in H by lia. apply H.
  - destruct (Nat.eq_dec i (S n)) as [->|NE]; [apply H|]. cbn [SchedModel.days]. apply bind_not. apply IH. lia.
Qed.
Lemma day_fails i st tp : i < total -> at_day i st tp -> (forall v, one_day st tp <> Ok v) -> run_fails.
Proof.
  intros L D F. unfold run_fails. apply (days_fail (S i)); [|lia]. intros v. cbn [SchedModel.days]. rewrite (bind_eq _ _ _ _ _ D). apply F.
Qed.
Lemma calls_fail i n st tp : (forall v, calls i st tp <> Ok v) -> i <= n -> forall v, calls n st tp <> Ok v.
Proof.
  intros H. induction n as [|n IH]; intros L v.
  - replace i with 0 in H by lia. apply H.
  - destruct (Nat.eq_dec i (S n)) as [->|NE]; [apply H|]. cbn [SchedModel.calls]. apply bind_not. apply IH. lia.
Qed.
Lemma call_fails i j c s tp : i < total -> j < k -> at_call i j c s tp -> (forall v, one_call j (c, s) tp <> Ok v) -> run_fails.
Proof.
  intros L1 L2 (st & tp1 & D & C) F. eapply day_fails; eauto. unfold SchedModel.one_day. apply bind_not.
  apply (calls_fail (S j)); [|lia]. intros v. cbn [SchedModel.calls]. rewrite (bind_eq _ _ _ _ _ C). apply F.
Qed.
Lemma second_fails i c s tp : i < total -> at_call i k c s tp -> (forall v, second (c, s) tp <> Ok v) -> run_fails.
Proof.
  intros L (st & tp1 & D & C) F. eapply day_fails; eauto. unfold SchedModel.one_day. intros v. rewrite (bind_eq _ _ _ _ _ C). apply F.
Qed.
Lemma call_ok r s tp s1 p : sv_work r s (evens tp) = (s1, Ok p) -> call r s tp = Ok ((sv_advance (sv_publish s1), p), odds tp).
Proof. intros H. unfold SchedModel.call, handle_all. rewrite H. reflexivity. Qed.
Lemma call_not r s tp s1 o : sv_work r s (evens tp) = (s1, o) -> (forall p, o <> Ok p) -> forall v, call r s tp <> Ok v.
Proof. intros H N v. unfold SchedModel.call, handle_all. rewrite H. destruct o; try discriminate. exfalso. eapply N; eauto. Qed.
Lemma at_call_next i j c s tp c1 r tp1 s1 p c2 : at_call i j c s tp -> cl_send j c tp = Ok ((c1, r), tp1) ->
  sv_work r s (evens tp1) = (s1, Ok p) -> cl_recv j p c1 = Ok c2 -> at_call i (S j) c2 (sv_advance (sv_publish s1)) (odds tp1).
Proof.
  intros (st & t & D & C) H1 H2 H3. exists st, t. split; auto. cbn [SchedModel.calls]. rewrite (bind_eq _ _ _ _ _ C).
  unfold SchedModel.one_call. cbn [fst snd]. rewrite (bind_eq _ _ _ _ _ H1). cbv beta iota. rewrite (bind_eq _ _ _ _ _ (call_ok _ _ _ _ _ H2)). cbv beta iota.
  unfold bind, lift. rewrite H3. reflexivity.
Qed.
Lemma at_day_next i c s tp c' s' tp' : at_call i k c s tp -> second (c, s) tp = Ok ((c', s'), tp') -> at_day (S i) (c', s') tp'.
Proof.
  intros (st & t & D & C) H. unfold at_day. cbn [SchedModel.days]. rewrite (bind_eq _ _ _ _ _ D). unfold SchedModel.one_day.
  rewrite (bind_eq _ _ _ _ _ C). auto.
Qed.

(** ** the invariant *)
(** the call of day [i] met no server *)
Definition missed (i : nat) (s : SS) (sp : spc) : Prop :=
  i < total /\ exists c' s' tp', at_day i (c', s') tp' /\ ((sp = SReset i /\ s = s') \/ (sp = SListen i /\ s = sv_reset s')).
Inductive inv : world -> Prop :=
| i_reset i c s tp : i <= total -> at_day i (c, s) tp -> inv (mkW c s (CSend i 0) HIdle (SReset i) tp)
| i_send i j c s tp : i < total -> j < k -> at_call i j c s tp -> inv (mkW c s (CSend i j) HIdle (SListen i) tp)
| i_work i j c s tp c1 r tp1 : i < total -> j < k -> at_call i j c s tp -> cl_send j c tp = Ok ((c1, r), tp1) ->
    inv (mkW c1 s (CWait i j) (HWork r) (SListen i) tp1)
| i_publish i j c s tp c1 r tp1 s1 p : i < total -> j < k -> at_call i j c s tp -> cl_send j c tp = Ok ((c1, r), tp1) ->
    sv_work r s (evens tp1) = (s1, Ok p) -> inv (mkW c1 s1 (CWait i j) (HPublish p) (SListen i) (odds tp1))
| i_advance i j c s tp c1 r tp1 s1 p sp : i < total -> j < k -> at_call i j c s tp -> cl_send j c tp = Ok ((c1, r), tp1) ->
    sv_work r s (evens tp1) = (s1, Ok p) -> sp = SListen i \/ (sp = SShutdown i /\ S j = k) ->
    inv (mkW c1 (sv_publish s1) (CWait i j) (HAdvance p) sp (odds tp1))
| i_reply i j c s tp c1 r tp1 s1 p sp : i < total -> j < k -> at_call i j c s tp -> cl_send j c tp = Ok ((c1, r), tp1) ->
    sv_work r s (evens tp1) = (s1, Ok p) -> sp = SListen i \/ (sp = SShutdown i /\ S j = k) ->
    inv (mkW c1 (sv_advance (sv_publish s1)) (CWait i j) (HReply (Ok p)) sp (odds tp1))
| i_reply_err i j c s tp c1 r tp1 s1 e : i < total -> j < k -> at_call i j c s tp -> cl_send j c tp = Ok ((c1, r), tp1) ->
    sv_work r s (evens tp1) = (s1, Err e) -> inv (mkW c1 s1 (CWait i j) (HReply (Err e)) (SListen i) (odds tp1))
| i_second i c s tp sp : i < total -> at_call i k c s tp -> sp = SListen i \/ sp = SShutdown i \/ sp = SSecond i ->
    inv (mkW c s (CSecond i) HIdle sp tp)
| i_client_done c s sp tp : at_day total (c, s) tp -> sp = SReset total \/ sp = SDone -> inv (mkW c s CDone HIdle sp tp)
| i_server_done c s cp tp : at_day total (c, s) tp -> cp = CSend total 0 \/ cp = CDone -> inv (mkW c s cp HIdle SDone tp)
| i_failed c s sp tp : run_fails -> (forall i, sp = SReset i -> i < total) -> sp <> SDone -> inv (mkW c s CFailed HIdle sp tp)
| i_missed i c s sp tp : missed i s sp -> inv (mkW c s CFailed HIdle sp tp).

Lemma at_call_inv i j c s tp : at_call i (S j) c s tp -> exists c1 s1 tp1 c2 r tp2 s2 p,
  at_call i j c1 s1 tp1 /\ cl_send j c1 tp1 = Ok ((c2, r), tp2) /\ sv_work r s1 (evens tp2) = (s2, Ok p)
  /\ cl_recv j p c2 = Ok c /\ s = sv_advance (sv_publish s2) /\ tp = odds tp2.
Proof.
  intros (st & t & D & C). cbn [SchedModel.calls] in C. apply bind_Ok in C as ((c1 & s1) & tp1 & C1 & C).
  unfold SchedModel.one_call in C. cbn [fst snd] in C. apply bind_Ok in C as ((c2 & r) & tp2 & C2 & C).
  apply bind_Ok in C as ((s3 & p) & tp3 & C3 & C). apply bind_Ok in C as (c3 & tp4 & C4 & C). apply ret_Ok in C as (C & C5).
  apply lift_Ok in C4 as (C4 & C6). inversion C; subst. unfold SchedModel.call, handle_all in C3.
  destruct (sv_work r s1 (evens tp2)) as [s2 [p2| | |]] eqn:W; try discriminate. inversion C3; subst.
  exists c1, s1, tp1, c2, r, tp2, s2, p. split; [exists st, t; auto|]. auto.
Qed.
Lemma ready_false i j c s tp : i < total -> j < k -> at_call i j c s tp -> sv_ready s = false.
Proof.
  intros L1 L2 AC. destruct j as [|j].
  - destruct AC as (st & t & D & C). cbn [SchedModel.calls] in C. apply ret_Ok in C as (C & _). inversion C. apply ready_reset.
  - apply at_call_inv in AC as (c1 & s1 & tp1 & c2 & r & tp2 & s2 & p & (st & t & D & C) & A2 & A3 & A4 & -> & _).
    rewrite ready_advance. assert (L3 : j < k) by lia. rewrite (ready_publish _ _ _ _ _ _ _ _ _ _ _ _ L1 L3 D C A2 A3). apply Nat.eqb_neq. lia.
Qed.
Lemma ready_true i c s tp : i < total -> at_call i k c s tp -> sv_ready s = true.
Proof.
  intros L1 AC. assert (exists j, k = S j) as (j & K) by (exists (pred k); lia). rewrite K in AC.
  apply at_call_inv in AC as (c1 & s1 & tp1 & c2 & r & tp2 & s2 & p & (st & t & D & C) & A2 & A3 & A4 & -> & _).
  rewrite ready_advance. assert (L3 : j < k) by lia. rewrite (ready_publish _ _ _ _ _ _ _ _ _ _ _ _ L1 L3 D C A2 A3). rewrite K. apply Nat.eqb_refl.
Qed.

Ltac cases := repeat match goal with H : _ \/ _ |- _ => destruct H | H : _ /\ _ |- _ => destruct H end; try discriminate;
  repeat match goal with H : SReset _ = SReset _ |- _ => injection H; clear H; intro H | H : SListen _ = SListen _ |- _ => injection H; clear H; intro H
    | H : SShutdown _ = SShutdown _ |- _ => injection H; clear H; intro H | H : SSecond _ = SSecond _ |- _ => injection H; clear H; intro H
    | H : CSend _ _ = CSend _ _ |- _ => injection H; clear H; intros H ? end; subst; try lia.
Lemma inv_step w w' : inv w -> step w w' -> inv w'.
Proof.
  intros V ST.
  destruct ST as [c s i j sp tp c' r tp' L (i' & EP) E|c s i j sp tp c' r tp' L NL E|c s i j sp tp L NE|c s cp r sp tp s' p E|c s cp r sp tp s' e E|c s cp r sp tp s' o E EO|c s cp p sp tp|c s cp p sp tp|c s i j p sp tp c' E|c s i j o sp tp N|c s cp h i tp L|c s cp h i tp E|c s cp i tp|c s i i' h tp c' s' tp' E|c s i i' h tp N|c s i j h sp tp L|c s cp h i tp L].
  - inversion V; subst; try discriminate; try lia.
    eapply i_work; eauto.
  - inversion V; subst; try lia.
    + apply (i_missed i). split; auto. exists c, s, tp. split; auto.
    + exfalso. eapply NL; eauto.
    + match goal with H : _ \/ _ |- _ => destruct H as [Q|Q]; inversion Q; lia end.
  - inversion V; subst; try lia.
    + apply i_failed; try discriminate.
      * assert (AC : at_call i 0 c (sv_reset s) tp). { exists (c, s), tp. split; auto. }
        eapply call_fails; eauto. unfold SchedModel.one_call. cbn [fst snd]. apply bind_not. auto.
      * intros i1 Q. inversion Q. subst. auto.
    + apply i_failed; try discriminate. eapply call_fails; eauto. unfold SchedModel.one_call. cbn [fst snd]. apply bind_not. auto.
    + match goal with H : _ \/ _ |- _ => destruct H as [Q|Q]; inversion Q; lia end.
  - inversion V; subst. eapply i_publish; eauto.
  - inversion V; subst. eapply i_reply_err; eauto.
  - inversion V; subst. apply i_failed; try discriminate.
    match goal with A : at_call _ _ _ _ _, B : cl_send _ _ _ = _ |- _ => eapply call_fails; [| |exact A|]; auto; unfold SchedModel.one_call; cbn [fst snd];
      intros v; rewrite (bind_eq _ _ _ _ _ B); cbv beta iota; revert v end.
    apply bind_not. eapply call_not; eauto. destruct EO as [-> | ->]; discriminate.
  - inversion V; subst. eapply i_advance; eauto.
  - inversion V; subst. eapply i_reply; eauto.
  - inversion V; subst. unfold next_call.
    match goal with A : at_call _ _ _ _ _, B : cl_send _ _ _ = _, C : sv_work _ _ _ = _ |- _ => pose proof (at_call_next _ _ _ _ _ _ _ _ _ _ _ A B C E) as AC end.
    destruct (S j <? k) eqn:LT.
    + apply Nat.ltb_lt in LT. match goal with H : _ \/ _ |- _ => destruct H as [-> | (-> & X)]; [eapply i_send; eauto|lia] end.
    + apply Nat.ltb_ge in LT. assert (EK : S j = k) by lia. rewrite EK in AC. eapply i_second; eauto. tauto.
  - inversion V; subst.
    + apply i_failed.
      * match goal with A : at_call _ _ _ _ _, B : cl_send _ _ _ = _, C : sv_work _ _ _ = _ |- _ => eapply call_fails; [| |exact A|]; auto; unfold SchedModel.one_call; cbn [fst snd];
          intros v; rewrite (bind_eq _ _ _ _ _ B); cbv beta iota; rewrite (bind_eq _ _ _ _ _ (call_ok _ _ _ _ _ C)); cbv beta iota end.
        revert v. apply bind_not. intros [c2 t2] Q. apply lift_Ok in Q as (Q & _). eapply N; eauto.
      * match goal with H : _ \/ _ |- _ => destruct H as [-> | (-> & _)]; discriminate end.
      * match goal with H : _ \/ _ |- _ => destruct H as [-> | (-> & _)]; discriminate end.
    + apply i_failed; try discriminate.
      match goal with A : at_call _ _ _ _ _, B : cl_send _ _ _ = _, C : sv_work _ _ _ = _ |- _ => eapply call_fails; [| |exact A|]; auto; unfold SchedModel.one_call; cbn [fst snd];
          intros v; rewrite (bind_eq _ _ _ _ _ B); cbv beta iota; revert v; apply bind_not; eapply call_not; [exact C|] end.
      discriminate.
  - inversion V; subst; cases.
    + apply i_send; auto. exists (c, s), tp. split; auto.
    + apply i_failed; auto; discriminate.
    + match goal with H : missed _ _ _ |- _ => destruct H as (LL & c' & s' & tp' & AD & [(Q1 & ->)|(Q1 & ->)]); inversion Q1; subst end.
      apply (i_missed i0). split; auto. exists c', s', tp'. split; auto.
  - inversion V; subst.
    + erewrite ready_false in E; eauto. discriminate.
    + erewrite ready_false in E; eauto. discriminate.
    + match goal with A : at_call _ _ _ _ _, C : sv_work _ _ _ = _ |- _ => apply ready_work in C; apply ready_false in A; auto; congruence end.
    + eapply i_advance; eauto. right. split.
      * match goal with H : _ \/ _ |- _ => destruct H as [Q|(Q & _)]; inversion Q; auto end.
      * match goal with A : at_call _ _ _ _ _, B : cl_send _ _ _ = _, C : sv_work _ _ _ = _ |- _ => destruct A as (st & t & D & A); erewrite ready_publish in E; [|idtac|idtac|exact D|exact A|exact B|exact C]; auto end.
        apply Nat.eqb_eq in E. auto.
    + eapply i_reply; eauto. right. split.
      * match goal with H : _ \/ _ |- _ => destruct H as [Q|(Q & _)]; inversion Q; auto end.
      * rewrite ready_advance in E.
        match goal with A : at_call _ _ _ _ _, B : cl_send _ _ _ = _, C : sv_work _ _ _ = _ |- _ => destruct A as (st & t & D & A); erewrite ready_publish in E; [|idtac|idtac|exact D|exact A|exact B|exact C]; auto end.
        apply Nat.eqb_eq in E. auto.
    + match goal with A : at_call _ _ _ _ _, C : sv_work _ _ _ = _ |- _ => apply ready_work in C; apply ready_false in A; auto; congruence end.
    + match goal with H : _ \/ _ |- _ => destruct H as [Q|[Q|Q]]; inversion Q; subst end. eapply i_second; eauto.
    + match goal with H : _ \/ _ |- _ => destruct H as [Q|Q]; inversion Q end.
    + apply i_failed; auto; discriminate.
    + match goal with H : missed _ _ _ |- _ => destruct H as (LL & c' & s' & tp' & AD & [(Q1 & ->)|(Q1 & ->)]); inversion Q1; subst end.
      rewrite ready_reset in E. discriminate.
  - inversion V; subst; cases.
    + eapply i_second; eauto.
    + apply i_failed; auto; discriminate.
    + match goal with H : missed _ _ _ |- _ => destruct H as (LL & c' & s' & tp' & AD & [(Q1 & ->)|(Q1 & ->)]); inversion Q1 end.
  - inversion V; subst; cases.
    apply i_reset; [lia|]. eapply at_day_next; eauto.
  - inversion V; subst. apply i_failed; try discriminate. eapply second_fails; eauto.
  - inversion V; subst; try lia.
    + assert (i = total) by lia. subst i. apply i_client_done; auto.
    + apply i_client_done; auto.
  - inversion V; subst; cases.
    + assert (i = total) by lia. subst i. apply i_server_done; auto.
    + apply i_server_done; auto.
    + match goal with H : forall i, _ -> i < total |- _ => specialize (H _ eq_refl); lia end.
    + match goal with H : missed _ _ _ |- _ => destruct H as (LL & c' & s' & tp' & AD & [(Q1 & ->)|(Q1 & ->)]); inversion Q1; lia end.
Qed.

Local Notation w0 := (initial c0 s0 tp0).
Lemma inv_reachable w : reachable w0 w -> inv w.
Proof.
  induction 1 as [|w w' _ IH ST]; [|eapply inv_step; eauto]. apply i_reset; [lia|]. reflexivity.
Qed.
Lemma serial w : reachable w0 w -> w_cpc w = CDone \/ w_spc w = SDone -> days total (c0, s0) tp0 = Ok ((w_c w, w_s w), w_coins w).
Proof.
  intros R D. apply inv_reachable in R. inversion R; subst; cbn [w_cpc w_spc w_c w_s w_coins] in *; cases; auto; try congruence.
  unfold missed in *. cases. destruct H0 as (c' & s' & tp' & _ & [(? & _)|(? & _)]); discriminate.
Qed.
Lemma server_done w : reachable w0 w -> w_spc w = SDone -> w_cpc w = CDone \/ w_cpc w = CSend total 0.
Proof.
  intros R D. apply inv_reachable in R. inversion R; subst; cbn [w_cpc w_spc w_c w_s w_coins] in *; cases; auto; try congruence.
  unfold missed in *. cases. destruct H0 as (c' & s' & tp' & _ & [(? & _)|(? & _)]); discriminate.
Qed.
(** what the handler thread works on *)
Lemma right_day w : reachable w0 w -> w_hpc w <> HIdle -> exists i j, i < total /\ j < k /\ w_cpc w = CWait i j
  /\ (w_spc w = SListen i \/ (w_spc w = SShutdown i /\ exists p, w_hpc w = HAdvance p \/ w_hpc w = HReply (Ok p)))
  /\ forall r, w_hpc w = HWork r -> exists c tp, at_call i j c (w_s w) tp /\ cl_send j c tp = Ok ((w_c w, r), w_coins w).
Proof.
  intros R D. apply inv_reachable in R. inversion R; subst; cbn [w_cpc w_spc w_c w_s w_coins w_hpc] in *; try congruence; exists i, j; (split; [auto|]); (split; [auto|]); (split; [auto|]).
  - split; auto. intros r0 Q. inversion Q; subst. eauto.
  - split; auto. intros r0 Q. discriminate.
  - split; [|intros r0 Q; discriminate]. cases; auto. right. split; auto. eauto.
  - split; [|intros r0 Q; discriminate]. cases; auto. right. split; auto. eauto.
  - split; auto. intros r0 Q. discriminate.
Qed.
Lemma failure_means w : reachable w0 w -> w_cpc w = CFailed -> w_hpc w = HIdle /\ w_spc w <> SDone /\
  (run_fails \/ exists i, missed i (w_s w) (w_spc w)).
Proof.
  intros R D. apply inv_reachable in R. inversion R; subst; cbn [w_cpc w_spc w_c w_s w_coins w_hpc] in *; cases; try congruence.
  - auto.
  - split; auto. split; [|right; eauto]. destruct H as (_ & c' & s' & tp' & _ & [(-> & _)|(-> & _)]); discriminate.
Qed.
(** no way on *)
Lemma stuck w : reachable w0 w -> (forall w', ~ step w w') ->
  (w_cpc w = CDone /\ w_spc w = SDone)
  \/ (w_cpc w = CFailed /\ w_hpc w = HIdle /\
      ((exists i, w_spc w = SListen i /\ sv_ready (w_s w) = false) \/ (exists i, w_spc w = SSecond i) \/ w_spc w = SFailed)).
Proof.
  intros R N. apply inv_reachable in R. inversion R; subst; cbn [w_cpc w_spc w_c w_s w_coins w_hpc].
  - exfalso. destruct (Nat.eq_dec i total) as [->|NE]; [eapply N; apply s_server_done; lia|]. eapply N. apply s_start. lia.
  - exfalso. destruct (cl_send j c tp) as [[[c1 r] tp1]| | |] eqn:E; [eapply N; eapply s_call; eauto| | |];
      eapply N; eapply s_call_error; auto; intros v; rewrite E; discriminate.
  - exfalso. destruct (sv_work r s (evens tp1)) as [s1 o] eqn:E. destruct o as [p|e| |].
    + eapply N; eapply s_work; eauto.
    + eapply N; eapply s_work_error; eauto.
    + eapply N; eapply s_work_crash; eauto.
    + eapply N; eapply s_work_crash; eauto.
  - exfalso. eapply N; apply s_publish.
  - exfalso. eapply N; apply s_advance.
  - exfalso. destruct (cl_recv j p c1) as [c2| | |] eqn:E; [eapply N; eapply s_reply; eauto| | |]; eapply N; eapply s_reply_error; intros p' c' Q; inversion Q; subst; rewrite E; discriminate.
  - exfalso. eapply N; eapply s_reply_error. discriminate.
  - exfalso. destruct H1 as [-> |[-> | ->]].
    + eapply N. apply s_poll. eapply ready_true; eauto.
    + eapply N. apply s_join.
    + destruct (second (c, s) tp) as [[[c1 s1] tp1]| | |] eqn:E; [eapply N; eapply s_meet; eauto| | |]; eapply N; eapply s_meet_error; intros v; rewrite E; discriminate.
  - destruct H0 as [-> | ->]; auto. exfalso. eapply N. apply s_server_done. lia.
  - destruct H0 as [-> | ->]; auto. exfalso. eapply N. apply s_client_done. lia.
  - right. split; auto. split; auto. destruct sp as [i|i|i|i| |].
    + exfalso. eapply N. apply s_start. auto.
    + destruct (sv_ready s) eqn:E; [exfalso; eapply N; apply s_poll; auto|]. left. eauto.
    + exfalso. eapply N. apply s_join.
    + eauto.
    + congruence.
    + auto.
  - right. split; auto. split; auto. destruct H as (LL & c' & s' & tp' & AD & [(-> & ->)|(-> & ->)]).
    + exfalso. eapply N. apply s_start. auto.
    + left. exists i. rewrite ready_reset. auto.
Qed.

(** ** every schedule is finite *)
Definition mc (p : cpc) : nat :=
  match p with
  | CSend i j => (total - i) * (2 * k + 4) + 2 * (k - j) + 2
  | CWait i j => (total - i) * (2 * k + 4) + 2 * (k - j) + 1
  | CSecond i => (total - i) * (2 * k + 4) + 1
  | CDone | CFailed => 0
  end.
Definition mh (h : hpc (Req := Req) (Rep := Rep)) : nat :=
  match h with HIdle => 0 | HWork _ => 4 | HPublish _ => 3 | HAdvance _ => 2 | HReply _ => 1 end.
Definition ms (p : spc) : nat :=
  match p with
  | SReset i => (total - i) * 4 + 1 | SListen i => (total - i) * 4 | SShutdown i => (total - i) * 4 - 1 | SSecond i => (total - i) * 4 - 2
  | SDone | SFailed => 0
  end.
Definition measure (w : world) : nat := 5 * mc (w_cpc w) + mh (w_hpc w) + ms (w_spc w).
(** in range *)
Definition in_range (w : world) : Prop :=
  match w_spc w with SReset i => i <= total | SListen i | SShutdown i | SSecond i => i < total | _ => True end /\
  match w_cpc w with CWait i j => j < k /\ i < total | CSecond i => i < total | _ => True end.
Lemma steps_down w w' : inv w -> in_range w -> step w w' -> measure w' < measure w.
Proof.
  intros V (RS & RC) ST.
  destruct ST as [c s i j sp tp c' r tp' L (i' & EP) E|c s i j sp tp c' r tp' L NL E|c s i j sp tp L NE|c s cp r sp tp s' p E|c s cp r sp tp s' e E|c s cp r sp tp s' o E EO|c s cp p sp tp|c s cp p sp tp|c s i j p sp tp c' E|c s i j o sp tp N|c s cp h i tp L|c s cp h i tp E|c s cp i tp|c s i i' h tp c' s' tp' E|c s i i' h tp N|c s i j h sp tp L|c s cp h i tp L];
    unfold measure; cbn [w_cpc w_hpc w_spc mc mh ms] in *; try lia.
  all: try (generalize ((total - i) * (2 * k + 4)) as X; lia).
  - unfold next_call. destruct RC as (RJ & RI). 
    destruct (S j <? k) eqn:LT; [apply Nat.ltb_lt in LT|apply Nat.ltb_ge in LT]; cbn [mc]; generalize ((total - i) * (2 * k + 4)) as X; lia.
  - replace (total - i) with (S (total - S i)) by lia. replace (total - i') with (S (total - S i')) by lia. cbn [Nat.mul].
    generalize ((total - S i) * (2 * k + 4)) as X. lia.
Qed.
Lemma range_step w w' : inv w -> in_range w -> step w w' -> in_range w'.
Proof.
  intros V (RS & RC) ST.
  destruct ST as [c s i j sp tp c' r tp' L (i' & EP) E|c s i j sp tp c' r tp' L NL E|c s i j sp tp L NE|c s cp r sp tp s' p E|c s cp r sp tp s' e E|c s cp r sp tp s' o E EO|c s cp p sp tp|c s cp p sp tp|c s i j p sp tp c' E|c s i j o sp tp N|c s cp h i tp L|c s cp h i tp E|c s cp i tp|c s i i' h tp c' s' tp' E|c s i i' h tp N|c s i j h sp tp L|c s cp h i tp L];
    unfold in_range; cbn [w_cpc w_spc] in *; try (split; auto; lia).
  - split; auto. inversion V; subst; cases; try discriminate; auto.
  - unfold next_call. destruct (S j <? k); split; auto. tauto.
Qed.
Lemma bounded n : forall w w', inv w -> in_range w -> steps n w w' -> n + measure w' <= measure w.
Proof.
  induction n as [|n IH]; intros w w' V R S1; inversion S1; subst; [lia|].
  pose proof (steps_down w w1 V R H0). specialize (IH w1 w' (inv_step _ _ V H0) (range_step _ _ V R H0) H1). lia.
Qed.
Lemma bounded_all n w : steps n w0 w -> n <= 5 * (total * (2 * k + 4) + 2 * k + 2) + 4 * total + 1.
Proof.
  intros H. assert (V : inv w0) by (apply inv_reachable; constructor).
  assert (R : in_range w0) by (unfold in_range, initial; cbn; lia).
  pose proof (bounded n w0 w V R H) as B. unfold measure at 2 in B. unfold initial in B. cbn [w_cpc w_hpc w_spc mc mh ms] in B.
  rewrite !Nat.sub_0_r in B. lia.
Qed.

(** ** some schedule completes the run *)
Lemma reach_more w w1 w2 : reachable w w1 -> step w1 w2 -> reachable w w2.
Proof. intros. eapply r_step; eauto. Qed.
Lemma possible_calls n : forall i c s tp c' s' tp' w, n <= k -> i < total -> calls n (c, s) tp = Ok ((c', s'), tp') ->
  reachable w (mkW c s (CSend i 0) HIdle (SListen i) tp) ->
  reachable w (mkW c' s' (if n <? k then CSend i n else CSecond i) HIdle (SListen i) tp').
Proof.
  induction n as [|n IH]; intros i c s tp c' s' tp' w L1 L2 C R.
  - cbn [SchedModel.calls] in C. apply ret_Ok in C as (C & C'). inversion C; subst. replace (0 <? k) with true by (symmetry; apply Nat.ltb_lt; auto). auto.
  - cbn [SchedModel.calls] in C. apply bind_Ok in C as ((c1 & s1) & tp1 & C1 & C).
    assert (L3 : n <= k) by lia. pose proof (IH i c s tp c1 s1 tp1 w L3 L2 C1 R) as R1.
    replace (n <? k) with true in R1 by (symmetry; apply Nat.ltb_lt; lia).
    unfold SchedModel.one_call in C. cbn [fst snd] in C. apply bind_Ok in C as ((c2 & r) & tp2 & C2 & C).
    apply bind_Ok in C as ((s3 & p) & tp3 & C3 & C). apply bind_Ok in C as (c3 & tp4 & C4 & C). apply ret_Ok in C as (C & C5).
    apply lift_Ok in C4 as (C4 & C6). inversion C; subst. unfold SchedModel.call, handle_all in C3.
    destruct (sv_work r s1 (evens tp2)) as [s2 [p2| | |]] eqn:WK; try discriminate. inversion C3; subst.
    change (if S n <? k then CSend i (S n) else CSecond i) with (next_call k i n).
    eapply reach_more; [eapply reach_more; [eapply reach_more; [eapply reach_more; [eapply reach_more; [exact R1|eapply s_call; eauto]|eapply s_work; eauto]|apply s_publish]|apply s_advance]|eapply s_reply; eauto].
Qed.
Lemma possible_days n : forall c s tp, n <= total -> days n (c0, s0) tp0 = Ok ((c, s), tp) ->
  reachable w0 (mkW c s (CSend n 0) HIdle (SReset n) tp).
Proof.
  induction n as [|n IH]; intros c s tp L D.
  - cbn [SchedModel.days] in D. apply ret_Ok in D as (D & D'). inversion D; subst. constructor.
  - cbn [SchedModel.days] in D. apply bind_Ok in D as ((c1 & s1) & tp1 & D1 & D).
    assert (L3 : n <= total) by lia. pose proof (IH c1 s1 tp1 L3 D1) as R1.
    unfold SchedModel.one_day in D. cbn [fst snd] in D. apply bind_Ok in D as ((c2 & s2) & tp2 & D2 & D).
    assert (R2 : reachable w0 (mkW c1 (sv_reset s1) (CSend n 0) HIdle (SListen n) tp1)) by (eapply reach_more; [exact R1|apply s_start; lia]).
    assert (L4 : k <= k) by lia. assert (L5 : n < total) by lia.
    pose proof (possible_calls k n c1 (sv_reset s1) tp1 c2 s2 tp2 w0 L4 L5 D2 R2) as R3. rewrite Nat.ltb_irrefl in R3.
    assert (RD : sv_ready s2 = true). { apply (ready_true n c2 s2 tp2 L5). exists (c1, s1), tp1. auto. }
    eapply reach_more; [eapply reach_more; [eapply reach_more; [exact R3|apply s_poll; auto]|apply s_join]|eapply s_meet; eauto].
Qed.
Lemma possible c s tp : days total (c0, s0) tp0 = Ok ((c, s), tp) -> reachable w0 (mkW c s CDone HIdle SDone tp).
Proof.
  intros D. apply possible_days in D; [|lia]. eapply reach_more; [eapply reach_more; [exact D|apply s_server_done; lia]|apply s_client_done; lia].
Qed.
(** the server's data do not change while the main thread leaves its loop *)
Lemma stable w w' i : reachable w0 w -> step w w' -> w_spc w = SShutdown i -> w_s w' = w_s w \/ w_s w' = sv_advance (w_s w).
Proof.
  intros R ST E. apply inv_reachable in R. destruct ST; cbn [w_spc w_s] in *; auto; try discriminate; inversion R; subst; cases; discriminate.
Qed.
(** party zero between two days *)
Lemma between w i : reachable w0 w -> w_cpc w = CSend i 0 -> exists s tp, days i (c0, s0) tp0 = Ok ((w_c w, s), tp).
Proof.
  intros R D. apply inv_reachable in R. inversion R; subst; cbn [w_cpc w_spc w_c w_s w_coins w_hpc] in *; try discriminate.
  - inversion D; subst. eauto.
  - inversion D; subst. match goal with H : at_call _ _ _ _ _ |- _ => destruct H as ([c' s'] & tp1 & AD & AC) end.
    cbn [SchedModel.calls] in AC. apply ret_Ok in AC as (AC & _). inversion AC; subst. unfold at_day in AD. eauto.
  - match goal with H : CSend _ _ = _ \/ _ |- _ => idtac | H : _ \/ _ |- _ => destruct H as [Q|Q]; rewrite Q in *; inversion D; subst; eauto end.
Qed.
(** ... and a run that would succeed fails only by a call made too early *)
Lemma too_early w v : reachable w0 w -> w_cpc w = CFailed -> days total (c0, s0) tp0 = Ok v ->
  exists i s' tp', i < total /\ w_hpc w = HIdle /\ (exists c', days i (c0, s0) tp0 = Ok ((c', s'), tp')) /\
    ((w_spc w = SReset i /\ w_s w = s') \/ (w_spc w = SListen i /\ w_s w = sv_reset s')).
Proof.
  intros R D OK. destruct (failure_means _ R D) as (HI & _ & [F|(i & LL & c' & s' & tp' & AD & X)]); [exfalso; eapply F; eauto|].
  exists i, s', tp'. split; auto. split; auto. split; eauto.
Qed.
End Sched.
