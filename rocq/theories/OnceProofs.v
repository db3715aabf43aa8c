(** * Proofs about OnceModel: every interleaving does what the programs do one
    after the other. *)
Require Import List Arith ZArith Bool Lia.
Import ListNotations.
From Verif Require Import Prelude Coins OnceModel.
Local Open Scope nat_scope.

Section Prog.
Context {Req Rep : Type}.
Lemma prog_ind {C} (P : client_prog Req Rep C -> Prop) :
  (forall c, P (Return c)) ->
  (forall r k, (forall rep tp p tp', k rep tp = Ok (p, tp') -> P p) -> P (Call r k)) -> forall p, P p.
Proof.
  intros H0 H1. fix IH 1. intros [c|r k]; [apply H0|]. apply H1. intros rep tp p tp' E. destruct (k rep tp) as [[p0 t0]| | |]; try discriminate E. injection E as E1 _. rewrite <- E1. apply IH.
Qed.
(** a serial run continued *)
Lemma serial_and_then {A B SV} (handle : Req -> SV -> tape -> SV * outcome Rep) (f : A -> M (client_prog Req Rep B)) :
  forall p s tp, (match and_then p f tp with Ok (q, tp') => serial handle q s tp' | Err e => Err e | Abort => Abort | UB => UB end) =
  match serial handle p s tp with
  | Ok (a, s', tp') => match f a tp' with Ok (q, tp2) => serial handle q s' tp2 | Err e => Err e | Abort => Abort | UB => UB end
  | Err e => Err e | Abort => Abort | UB => UB end.
Proof.
  induction p as [c|r k IH] using prog_ind; intros s tp; cbn [and_then serial]; [reflexivity|].
  destruct (handle r s (even_coins tp)) as [s' [rep| | |]]; auto.
  destruct (k rep (odd_coins tp)) as [[p' tp']| | |] eqn:E; auto. apply (IH rep (odd_coins tp) p' tp' E).
Qed.
(** Run as a whole against Run day by day *)
Lemma serial_days {C SV} (handle : Req -> SV -> tape -> SV * outcome Rep) (finished : C -> bool) (day : C -> M (client_prog Req Rep C))
  (both : C * SV -> M (C * SV)) :
  (forall c s tp, both (c, s) tp = match day c tp with
     | Ok (p, tp1) => match serial handle p s tp1 with Ok (c', s', tp2) => Ok ((c', s'), tp2) | Err e => Err e | Abort => Abort | UB => UB end
     | Err e => Err e | Abort => Abort | UB => UB end) ->
  forall n c s tp, AddModel.run_days finished both n (c, s) tp = match all_days finished day n c tp with
     | Ok (p, tp1) => match serial handle p s tp1 with Ok (c', s', tp2) => Ok ((c', s'), tp2) | Err e => Err e | Abort => Abort | UB => UB end
     | Err e => Err e | Abort => Abort | UB => UB end.
Proof.
  intros HB. induction n as [|n IH]; intros c s tp; cbn [AddModel.run_days all_days fst]; [reflexivity|].
  destruct (finished c); [reflexivity|]. unfold bind. rewrite HB. destruct (day c tp) as [[p tp1]| | |]; auto.
  pose proof (serial_and_then handle (all_days finished day n) p s tp1) as X.
  destruct (and_then p (all_days finished day n) tp1) as [[q tp2]| | |].
  - rewrite X. destruct (serial handle p s tp1) as [[[c' s'] tp3]| | |]; auto. rewrite IH. destruct (all_days finished day n c' tp3) as [[q' tp4]| | |]; auto.
  - destruct (serial handle p s tp1) as [[[c' s'] tp3]| | |]; auto; try congruence. rewrite IH. destruct (all_days finished day n c' tp3) as [[q' tp4]| | |]; auto; try congruence. rewrite <- X; auto.
  - destruct (serial handle p s tp1) as [[[c' s'] tp3]| | |]; auto; try congruence. rewrite IH. destruct (all_days finished day n c' tp3) as [[q' tp4]| | |]; auto; try congruence. rewrite <- X; auto.
  - destruct (serial handle p s tp1) as [[[c' s'] tp3]| | |]; auto; try congruence. rewrite IH. destruct (all_days finished day n c' tp3) as [[q' tp4]| | |]; auto; try congruence. rewrite <- X; auto.
Qed.
End Prog.

Section Threads.
Context {Req Rep C SV : Type}.
Variable work : Req -> SV -> tape -> SV * outcome (Rep * bool).
Variable advance : SV -> SV.
Variable ready : SV -> bool.
Hypothesis closed : forall r s tp, ready s = true -> exists e, work r s tp = (s, Err e).
Hypothesis early : forall r s tp s' v, work r s tp = (s', Ok v) -> ready s' = false.
Notation world := (OnceModel.world Req Rep C SV).
Notation step := (OnceModel.step (C := C) work advance ready).
Notation reachable := (OnceModel.reachable (C := C) work advance ready).
Notation handle := (handle_all work advance).
Notation prog := (client_prog Req Rep C).
Notation ser := (serial (C := C) handle).

Lemma closed_handle r s tp : ready s = true -> exists e, handle r s tp = (s, Err e).
Proof. intros R. destruct (closed r s tp R) as (e & E). exists e. unfold handle_all. rewrite E. reflexivity. Qed.
Lemma ser_closed p s tp c s' tp' : ready s = true -> ser p s tp = Ok (c, s', tp') -> p = Return c /\ s' = s /\ tp' = tp.
Proof.
  intros R. destruct p as [c0|r k]; cbn [serial]; [intros E; inversion E; auto|]. destruct (closed_handle r s (even_coins tp) R) as (e & ->). discriminate.
Qed.

Variables (s0 : SV) (p0 : prog) (sp0 : spc SV) (tp0 : tape).
Hypothesis start : sp0 = SStart \/ sp0 = SListen.
Notation w0 := (initial s0 p0 sp0 tp0).
Definition whole : outcome (C * SV * tape) := ser p0 s0 tp0.
Definition cont (k : Rep -> tape -> outcome (prog * tape)) (p : Rep) (s : SV) (tp : tape) : outcome (C * SV * tape) :=
  match k p tp with Ok (p', tp') => ser p' s tp' | Err e => Err e | Abort => Abort | UB => UB end.
(** what is still to come *)
Definition follows (w : world) : Prop :=
  match w_cpc w, w_hpc w with
  | CNext p, HIdle => ser p (w_s w) (w_coins w) = whole
  | CWait k, HWork r => ser (Call r k) (w_s w) (w_coins w) = whole
  | CWait k, HFinish p => cont k p (advance (w_s w)) (w_coins w) = whole
  | CWait k, HReply (Ok p) => cont k p (w_s w) (w_coins w) = whole
  | CWait k, HReply (Err _) => exists e, whole = Err e
  | CDone c, HIdle => whole = Ok (c, w_s w, w_coins w)
  | CFailed, HIdle => (forall v, whole <> Ok v) \/ (sp0 = SStart /\ w_s w = s0)
  | _, _ => False
  end.
Definition server_ok (w : world) : Prop :=
  (forall p, w_hpc w = HFinish p -> ready (w_s w) = false) /\
  match w_spc w with
  | SStart => sp0 = SStart /\ w_s w = s0 /\ w_hpc w = HIdle
  | SListen => True
  | SPrint => ready (w_s w) = true
  | SShutdown pr | SDone pr => pr = w_s w /\ ready pr = true
  | SDied => (forall v, whole <> Ok v) /\ w_cpc w = CFailed
  end /\ (forall pr, w_spc w = SDone pr -> w_hpc w = HIdle).
Lemma inv_start : follows w0 /\ server_ok w0.
Proof. split; [reflexivity|]. unfold server_ok, initial. cbn [w_hpc w_spc w_s w_cpc]. repeat split; try discriminate. destruct start as [-> | ->]; auto. Qed.
Lemma not_ready_spc w : server_ok w -> ready (w_s w) = false -> w_spc w = SStart \/ w_spc w = SListen \/ w_spc w = SDied.
Proof. intros (_ & X & _) R. destruct (w_spc w); auto; try congruence; destruct X; congruence. Qed.
Lemma inv_step w w' : step w w' -> follows w -> server_ok w -> follows w' /\ server_ok w'.
Proof.
  intros T F K. inversion T; subst; clear T; unfold follows in F; cbn [w_cpc w_hpc w_s w_coins] in F; cbn [w_cpc w_hpc w_s w_coins w_spc] in *.
  - (* call *) split; [exact F|]. destruct K as (K1 & K2 & K3). split; [discriminate|]. cbn [w_spc w_s w_hpc w_cpc] in *.
    match goal with H : _ \/ _ |- _ => destruct H as [-> | ->] end; split; auto; discriminate.
  - (* refused *)
    destruct K as (K1 & K2 & K3). cbn [w_spc w_s w_hpc w_cpc] in *. split.
    + unfold follows. cbn [w_cpc w_hpc w_s]. destruct sp; try contradiction; [right; tauto| | | ]; left; rewrite <- F; cbn [serial]; try (destruct K2 as (KA & KB); subst printed;
        match goal with |- forall v, match handle ?r ?s ?t with _ => _ end <> _ => destruct (closed_handle r s t KB) as (e & ->) end; discriminate).
      destruct K2 as (K2 & _). intros v. rewrite <- F in K2. apply K2.
    + split; [discriminate|]. cbn [w_spc w_s w_hpc w_cpc]. split; auto. destruct sp; auto. destruct K2; split; auto.
  - (* work *)
    destruct cp; try contradiction. unfold follows. cbn [w_cpc w_hpc w_s w_coins]. cbn [serial] in F. unfold handle_all in F. rewrite H in F. split; [exact F|].
    assert (NR : ready s = false). { destruct (ready s) eqn:R; auto. destruct (closed r s (even_coins tp) R) as (e & E). rewrite E in H. discriminate. }
    pose proof (not_ready_spc _ K NR) as NS. cbn [w_spc] in NS. destruct K as (K1 & K2 & K3). cbn [w_spc w_s w_hpc w_cpc] in *.
    split; [discriminate|]. cbn [w_spc w_s w_hpc w_cpc]. destruct NS as [-> | [-> | ->]]; [destruct K2 as (_ & _ & K2); discriminate|split; auto; discriminate|destruct K2; discriminate].
  - destruct cp; try contradiction. unfold follows. cbn [w_cpc w_hpc w_s w_coins]. cbn [serial] in F. unfold handle_all in F. rewrite H in F. split; [exact F|].
    assert (NR : ready s = false). { destruct (ready s) eqn:R; auto. destruct (closed r s (even_coins tp) R) as (e & E). rewrite E in H. discriminate. }
    pose proof (not_ready_spc _ K NR) as NS. cbn [w_spc] in NS. destruct K as (K1 & K2 & K3). cbn [w_spc w_s w_hpc w_cpc] in *.
    split; [intros q _; cbn [w_s]; exact (early _ _ _ _ _ H)|]. cbn [w_spc w_s w_hpc w_cpc]. destruct NS as [-> | [-> | ->]]; [destruct K2 as (_ & _ & K2); discriminate|split; auto; discriminate|destruct K2; discriminate].
  - destruct cp; try contradiction. unfold follows. cbn [w_cpc w_hpc w_s w_coins]. cbn [serial] in F. unfold handle_all in F. rewrite H in F. split; [eexists; symmetry; exact F|].
    destruct (ready s) eqn:R.
    + destruct (closed r s (even_coins tp) R) as (e' & E). rewrite E in H. inversion H; subst. destruct K as (K1 & K2 & K3). cbn [w_spc w_s w_hpc w_cpc] in *.
      split; [discriminate|]. cbn [w_spc w_s w_hpc w_cpc]. split; [|intros pr Q; discriminate (K3 pr Q)]. destruct sp; auto. destruct K2 as (_ & _ & K2). discriminate.
    + pose proof (not_ready_spc _ K R) as NS. cbn [w_spc] in NS. destruct K as (K1 & K2 & K3). cbn [w_spc w_s w_hpc w_cpc] in *.
      split; [discriminate|]. cbn [w_spc w_s w_hpc w_cpc]. destruct NS as [-> | [-> | ->]]; [destruct K2 as (_ & _ & K2); discriminate|split; auto; discriminate|destruct K2; discriminate].
  - (* crash *)
    destruct cp; try contradiction. unfold follows. cbn [w_cpc w_hpc w_s w_coins]. cbn [serial] in F. unfold handle_all in F. rewrite H in F.
    assert (NW : forall v, whole <> Ok v) by (intros v; rewrite <- F; destruct H0 as [-> | ->]; discriminate).
    split; [left; exact NW|]. split; [discriminate|]. cbn [w_spc w_cpc]. split; [split; auto|discriminate].
  - (* finish *)
    destruct cp; try contradiction. split; [exact F|]. pose proof K as (KA & _). specialize (KA _ eq_refl). pose proof (not_ready_spc _ K KA) as NS. cbn [w_spc] in NS.
    destruct K as (K1 & K2 & K3). cbn [w_spc w_s w_hpc w_cpc] in *. split; [discriminate|]. cbn [w_spc w_s w_hpc w_cpc].
    destruct NS as [-> | [-> | ->]]; [destruct K2 as (_ & _ & K2); discriminate|split; auto; discriminate|destruct K2; discriminate].
  - (* reply *)
    unfold cont in F. rewrite H in F. split; [exact F|]. destruct K as (K1 & K2 & K3). cbn [w_spc w_s w_hpc w_cpc] in *. split; [discriminate|]. cbn [w_spc w_s w_hpc w_cpc].
    split; auto. destruct sp; auto; destruct K2; [tauto|discriminate].
  - split.
    + unfold follows. cbn [w_cpc w_hpc]. left. destruct o as [p|e| |]; try contradiction.
      * unfold cont in F. intros v. rewrite <- F. destruct (k p tp) as [[p' t']| | |] eqn:EK; try discriminate. exfalso. exact (H p _ eq_refl EK).
      * destruct F as (e' & ->). discriminate.
    + destruct K as (K1 & K2 & K3). cbn [w_spc w_s w_hpc w_cpc] in *. split; [discriminate|]. cbn [w_spc w_s w_hpc w_cpc].
      split; auto. destruct sp; auto; destruct K2; [tauto|split; auto].
  - (* return *)
    destruct h; try contradiction. unfold follows. cbn [w_cpc w_hpc w_s w_coins]. split; [symmetry; exact F|]. destruct K as (K1 & K2 & K3). cbn [w_spc w_s w_hpc w_cpc] in *. split; [discriminate|]. cbn [w_spc w_s w_hpc w_cpc].
    split; auto. destruct sp; auto. destruct K2. discriminate.
  - (* start *)
    split; [exact F|]. destruct K as (K1 & K2 & K3). cbn [w_spc w_s w_hpc w_cpc] in *. split; [exact K1|]. cbn [w_spc]. split; auto. discriminate.
  - split; [exact F|]. destruct K as (K1 & K2 & K3). cbn [w_spc w_s w_hpc w_cpc] in *. split; [exact K1|]. cbn [w_spc w_s]. split; auto. discriminate.
  - split; [exact F|]. destruct K as (K1 & K2 & K3). cbn [w_spc w_s w_hpc w_cpc] in *. split; [exact K1|]. cbn [w_spc w_s]. split; auto. discriminate.
  - split; [exact F|]. destruct K as (K1 & K2 & K3). cbn [w_spc w_s w_hpc w_cpc] in *. split; [exact K1|]. cbn [w_spc w_s w_hpc]. split; auto.
Qed.
Lemma inv w : reachable w0 w -> follows w /\ server_ok w.
Proof. induction 1 as [|w w' R [F K] T]; [apply inv_start|eapply inv_step; eauto]. Qed.

(** the client returned *)
Lemma once_serial w c : reachable w0 w -> w_cpc w = CDone c -> w_hpc w = HIdle /\ whole = Ok (c, w_s w, w_coins w).
Proof. intros R E. destruct (inv w R) as (F & _). unfold follows in F. rewrite E in F. destruct (w_hpc w); try contradiction. auto. Qed.
(** the report was printed *)
Lemma once_printed w pr : reachable w0 w -> w_spc w = SShutdown pr \/ w_spc w = SDone pr ->
  ready pr = true /\ w_s w = pr /\ forall c s' tp', whole = Ok (c, s', tp') -> pr = s'.
Proof.
  intros R E. destruct (inv w R) as (F & K1 & K2 & K3).
  assert (Q : pr = w_s w /\ ready pr = true) by (destruct E as [E|E]; rewrite E in K2; tauto). destruct Q as (Q1 & Q2). split; auto. split; auto.
  intros c s' tp' W. unfold follows in F. rewrite W in F. rewrite Q1 in Q2 |- *.
  destruct (w_cpc w) as [p|k|c1|] eqn:EC; destruct (w_hpc w) as [|r|p1|[p1| | |]] eqn:EH; try contradiction.
  - apply ser_closed in F as (_ & F & _); auto.
  - apply ser_closed in F as (F & _); auto. discriminate.
  - rewrite (K1 _ eq_refl) in Q2. discriminate.
  - unfold cont in F. destruct (k p1 (w_coins w)) as [[p2 t2]| | |]; try discriminate. apply ser_closed in F as (_ & F & _); auto.
  - destruct F as (e' & F). discriminate.
  - inversion F; auto.
  - destruct F as [F|(F & F2)]; [exfalso; eapply F; reflexivity|].
    rewrite F2 in *. symmetry. unfold whole in W. apply ser_closed in W as (_ & W & _); auto.
Qed.
Lemma once_final w w' pr : reachable w0 w -> w_spc w = SShutdown pr \/ w_spc w = SDone pr -> reachable w w' -> w_s w' = pr.
Proof.
  intros R E R'. assert (Q : reachable w0 w' /\ (w_spc w' = SShutdown pr \/ w_spc w' = SDone pr \/ w_spc w' = SDied)).
  { induction R' as [|w1 w2 R1 [IH1 IH2] T]; [tauto|]. split; [eapply r_step; eauto|]. inversion T; subst; cbn [w_spc] in *; try tauto; try (destruct IH2 as [X|[X|X]]; discriminate); try (destruct IH2 as [X|[X|X]]; inversion X; subst; auto).
    all: auto. }
  destruct Q as (R2 & [Q|[Q|Q]]); [apply (once_printed w' pr R2); auto..|].
  exfalso. clear R2. revert Q. induction R' as [|w1 w2 R1 IH T]; [destruct E; congruence|]. intros Q. inversion T; subst; cbn [w_spc] in *; subst; try discriminate; try (apply IH; reflexivity).
  assert (RR : reachable w0 (mkW s cp (HWork r) sp tp)) by (clear - R R1; induction R1; auto; eapply r_step; eauto).
  destruct (inv _ RR) as (F & K1 & K2 & K3). cbn [w_spc w_s w_hpc w_cpc] in *.
  assert (X : sp = SShutdown pr \/ sp = SDone pr \/ sp = SDied).
  { clear - R1 E. remember (mkW s cp (HWork r) sp tp) as w1 eqn:EW. assert (X : w_spc w1 = SShutdown pr \/ w_spc w1 = SDone pr \/ w_spc w1 = SDied).
    { clear EW. induction R1 as [|w1 w2 R1 IH T]; [tauto|]. inversion T; subst; cbn [w_spc] in *; try tauto; try (destruct IH as [X|[X|X]]; discriminate); try (destruct IH as [X|[X|X]]; inversion X; subst; auto). }
    rewrite EW in X. exact X. }
  destruct X as [-> | [-> | ->]].
  - destruct K2 as (-> & K2). destruct (closed r s (even_coins tp) K2) as (e & EE). match goal with H : work _ _ _ = _, H0 : _ \/ _ |- _ => rewrite EE in H; inversion H; subst; destruct H0; discriminate end.
  - specialize (K3 _ eq_refl). discriminate.
  - apply IH. reflexivity.
Qed.

Definition stuck (w : world) : Prop := forall w', ~ step w w'.
Definition ended (w : world) : Prop :=
  ((exists c, w_cpc w = CDone c) \/ w_cpc w = CFailed) /\ w_hpc w = HIdle /\
  ((w_spc w = SListen /\ ready (w_s w) = false) \/ (exists pr, w_spc w = SDone pr) \/ w_spc w = SDied).
Lemma progress w : follows w -> server_ok w -> ended w \/ exists w', step w w'.
Proof.
  intros F K. destruct w as [s cp h sp tp]. destruct sp as [| | |pr|pr|].
  - right. eexists. apply s_start.
  - destruct (ready s) eqn:R; [right; eexists; apply s_poll; exact R|].
    unfold follows in F. cbn [w_cpc w_hpc w_s w_coins] in F. destruct cp as [p|k|c|]; destruct h as [|r|p1|o]; try contradiction.
    + destruct p as [c|r k]; right; eexists; [apply s_return|apply s_call; auto].
    + right. destruct (work r s (even_coins tp)) as [s' [[p [|]]|e| |]] eqn:W; eexists; [eapply s_work_last; eauto|eapply s_work; eauto|eapply s_work_error; eauto|eapply s_work_crash; eauto..].
    + right. eexists. apply s_finish.
    + right. destruct o as [p|e| |]; try contradiction.
      * destruct (k p tp) as [[p' t']| | |] eqn:E; eexists; [eapply s_reply; eauto|apply s_reply_error; intros p2 v X; inversion X; subst; rewrite E; discriminate..].
      * eexists. apply s_reply_error. discriminate.
    + left. split; [left; eexists; reflexivity|]. split; auto.
    + left. split; [right; reflexivity|]. split; auto.
  - right. eexists. apply s_print.
  - unfold follows in F. cbn [w_cpc w_hpc w_s w_coins] in F. destruct h as [|r|p1|o].
    + right. eexists. apply s_join.
    + right. destruct (work r s (even_coins tp)) as [s' [[p [|]]|e| |]] eqn:W; eexists; [eapply s_work_last; eauto|eapply s_work; eauto|eapply s_work_error; eauto|eapply s_work_crash; eauto..].
    + right. eexists. apply s_finish.
    + destruct cp as [p|k|c|]; try contradiction. right. destruct o as [p|e| |]; try contradiction.
      * destruct (k p tp) as [[p' t']| | |] eqn:E; eexists; [eapply s_reply; eauto|apply s_reply_error; intros p2 v X; inversion X; subst; rewrite E; discriminate..].
      * eexists. apply s_reply_error. discriminate.
  - destruct K as (K1 & K2 & K3). cbn [w_spc w_s w_hpc w_cpc] in *. specialize (K3 _ eq_refl). subst h.
    unfold follows in F. cbn [w_cpc w_hpc w_s w_coins] in F. destruct cp as [p|k|c|]; try contradiction.
    + destruct p as [c|r k]; right; eexists; [apply s_return|apply s_refused; discriminate].
    + left. split; [left; eexists; reflexivity|]. split; auto. right. left. eexists; reflexivity.
    + left. split; [right; reflexivity|]. split; auto. right. left. eexists; reflexivity.
  - destruct K as (K1 & K2 & K3). cbn [w_spc w_s w_hpc w_cpc] in *. destruct K2 as (_ & ->). unfold follows in F. cbn [w_cpc w_hpc w_s w_coins] in F. destruct h; try contradiction.
    left. split; [right; reflexivity|]. split; auto.
Qed.
Lemma once_stuck w : reachable w0 w -> stuck w -> ended w.
Proof. intros R X. destruct (inv w R) as (F & K). destruct (progress w F K) as [E|(w' & T)]; auto. exfalso. exact (X _ T). Qed.
Lemma once_failed w : reachable w0 w -> w_cpc w = CFailed -> (forall v, whole <> Ok v) \/ (sp0 = SStart /\ w_s w = s0).
Proof. intros R E. destruct (inv w R) as (F & _). unfold follows in F. rewrite E in F. destruct (w_hpc w); try contradiction. exact F. Qed.
(** the server was started in time *)
Lemma once_outcome w c s' tp' : sp0 = SListen -> whole = Ok (c, s', tp') -> ready s' = true -> reachable w0 w -> stuck w ->
  w_cpc w = CDone c /\ w_hpc w = HIdle /\ w_spc w = SDone s' /\ w_s w = s'.
Proof.
  intros SP W RD R X. pose proof (once_stuck w R X) as (E1 & E2 & E3).
  destruct E1 as [(c1 & E1)|E1].
  - destruct (once_serial w c1 R E1) as (_ & Q). rewrite W in Q. inversion Q as [[Q1 Q2 Q3]]. subst c1. rewrite <- Q2.
    destruct E3 as [(E3 & E4)|[(pr & E3)|E3]].
    + rewrite <- Q2 in E4. congruence.
    + destruct (once_printed w pr R (or_intror E3)) as (_ & _ & P). rewrite (P _ _ _ W) in E3. auto.
    + destruct (inv w R) as (_ & _ & K & _). rewrite E3 in K. destruct K. congruence.
  - destruct (once_failed w R E1) as [Q|(Q & _)]; [exfalso; eapply Q; exact W|congruence].
Qed.

(** no infinite schedule *)
Notation terminates := (Acc (fun a b : world => step b a)).
Definition rank (sp : spc SV) : nat := match sp with SStart => 4 | SListen => 3 | SPrint => 2 | SShutdown _ => 1 | _ => 0 end.
(** steps of the main thread do not matter *)
Lemma acc_main s cp h tp : (forall sp w', step (mkW s cp h sp tp) w' -> terminates w' \/ (exists sp', w' = mkW s cp h sp' tp /\ rank sp' < rank sp)) ->
  forall sp, terminates (mkW s cp h sp tp).
Proof.
  intros X sp. remember (rank sp) as n eqn:EN. revert sp EN. induction n as [n IH] using lt_wf_ind. intros sp ->. constructor. intros w' T.
  destruct (X sp w' T) as [A|(sp' & -> & L)]; auto. eapply IH; eauto.
Qed.
Ltac main_step := right; eexists; split; [reflexivity|cbn [rank]; lia].
Lemma acc_end s cp tp : (exists c, cp = CDone c) \/ cp = CFailed -> forall sp, terminates (mkW s cp HIdle sp tp).
Proof. intros E. apply acc_main. intros sp w' T. inversion T; subst; try (destruct E as [(? & ?)|?]; discriminate); main_step. Qed.
Lemma acc_prog : forall p s tp sp, terminates (mkW s (CNext p) HIdle sp tp).
Proof.
  induction p as [c|r k IH] using prog_ind; intros s tp.
  - apply acc_main. intros sp w' T. inversion T; subst; try main_step. left. apply acc_end. eauto.
  - assert (A1 : forall o s tp sp, terminates (mkW s (CWait k) (HReply o) sp tp)).
    { clear s tp. intros o s tp. apply acc_main. intros sp w' T. inversion T; subst; try main_step; left; [eapply IH; eauto|apply acc_end; eauto]. }
    assert (A2 : forall p s tp sp, terminates (mkW s (CWait k) (HFinish p) sp tp)).
    { clear s tp. intros p s tp. apply acc_main. intros sp w' T. inversion T; subst; try main_step. left. apply A1. }
    assert (A3 : forall r s tp sp, terminates (mkW s (CWait k) (HWork r) sp tp)).
    { clear s tp r. intros r s tp. apply acc_main. intros sp w' T. inversion T; subst; try main_step; left; auto. apply acc_end. eauto. }
    apply acc_main. intros sp w' T. inversion T; subst; try main_step; left; auto. apply acc_end; eauto.
Qed.
Lemma acc_follows : forall w, follows w -> terminates w.
Proof.
  intros [s cp h sp tp] F. unfold follows in F. cbn [w_cpc w_hpc w_s w_coins] in F. destruct cp as [p|k|c|]; destruct h as [|r|p1|o]; try contradiction.
    - apply acc_prog.
    - pose proof (acc_prog (Call r k) s tp SListen) as A. inversion A as [A1]. specialize (A1 _ (s_call _ _ _ s r k SListen tp (or_introl eq_refl))).
      revert sp. apply acc_main. intros sp w' T. 
      assert (A2 : forall o s tp sp, terminates (mkW s (CWait k) (HReply o) sp tp)).
      { clear. intros o s tp. apply acc_main. intros sp w' T. inversion T; subst; try main_step; left; [apply acc_prog|apply acc_end; eauto]. }
      assert (A3 : forall p s tp sp, terminates (mkW s (CWait k) (HFinish p) sp tp)).
      { clear - A2. intros p s tp. apply acc_main. intros sp w' T. inversion T; subst; try main_step. left. apply A2. }
      inversion T; subst; try main_step; left; auto. apply acc_end. eauto.
    - revert sp. apply acc_main. intros sp w' T. inversion T; subst; try main_step. left. apply acc_main. clear. intros sp w' T. inversion T; subst; try main_step; left; [apply acc_prog|apply acc_end; eauto].
    - revert sp. apply acc_main. intros sp w' T. inversion T; subst; try main_step; left; [apply acc_prog|apply acc_end; eauto].
    - apply acc_end; eauto.
    - apply acc_end; eauto.
Qed.
Lemma once_terminates_from (f : nat -> world) : reachable w0 (f 0) -> ~ forall n, step (f n) (f (S n)).
Proof.
  intros R F. assert (A : forall w, terminates w -> forall n, f n <> w).
  { induction 1 as [w _ IH]. intros n E. subst w. apply (IH (f (S n)) (F n) (S n)). reflexivity. }
  apply (A (f 0)) with (n := 0); auto. apply acc_follows, (inv _ R).
Qed.
(** every schedule can be completed *)
Lemma once_completes w : reachable w0 w -> exists w', reachable w w' /\ reachable w0 w' /\ stuck w'.
Proof.
  assert (A : forall w, terminates w -> reachable w0 w -> exists w', reachable w w' /\ reachable w0 w' /\ stuck w').
  { clear w. induction 1 as [w _ IH]. intros R. destruct (inv w R) as (F & K). destruct (progress w F K) as [E|(w1 & T)].
    - exists w. split; [constructor|]. split; auto. intros w' T. destruct E as (E1 & E2 & E3). inversion T; subst; cbn [w_cpc w_hpc w_spc w_s] in *;
        try discriminate; try (destruct E1 as [(? & ?)|?]; discriminate); try (destruct E3 as [(? & ?)|[(? & ?)|?]]; congruence).
    - destruct (IH w1 T (r_step _ _ _ _ _ _ R T)) as (w' & R1 & R2 & X). exists w'. split; auto.
      clear - T R1. induction R1; [eapply r_step; [constructor|exact T]|eapply r_step; eauto]. }
  intros R. apply A; auto. apply acc_follows, (inv w R).
Qed.
(** the client called before the server was started *)
Lemma once_too_early r k : p0 = Call r k -> sp0 = SStart -> ready s0 = false -> exists w, reachable w0 w /\ stuck w /\ w_cpc w = CFailed /\ w_spc w = SListen.
Proof.
  intros -> -> R. exists (mkW s0 CFailed HIdle SListen tp0). split.
  - eapply r_step; [eapply r_step; [constructor|apply s_refused; discriminate]|apply s_start].
  - split; [|auto]. intros w' T. inversion T; subst. congruence.
Qed.
End Threads.
