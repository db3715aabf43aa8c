(** * C59: whatever the threads of the two programs do first, a deletion run
    computes what the programs compute one after the other. *)
Require Import List Arith ZArith Bool Lia.
Import ListNotations.
From Verif Require Import Prelude Coins Group PaillierModel TreeModel BytesModel CipherModel WireModel SyncModel TreeDelModel AddModel DelModel PsiModel SchedModel SchedProofs SchedRun.
From Verif Require Import PropsPaillier BigPrime AddSpec DelSpec PsiSpec PropsDel PropsPsi.
Local Open Scope nat_scope.

Section C59.
Context {Gr : group}.
Variable hash : Z -> list bool.
Variable circuit_input : Z -> outcome (list bool).
Variables (P0 P1 : pub) (V0 V1 : priv).
Lemma pos1 : 0 < 1. Proof. lia. Qed.
Lemma pos2 : 0 < 2. Proof. lia. Qed.

(** ** deletion *)
Section Deletion.
(** [total] days; both programs start with these states *)
Variables (total : nat) (c0 : dclient) (r0 : round * round) (s0 : dserver) (coins : tape).
Notation run_to := (d_reachable (Gr := Gr) hash circuit_input P0 P1 V0 V1 total (initial (c0, r0) s0 coins)).
Notation sequential k := (run_trace (del_day (Gr := Gr) hash circuit_input P0 P1 V0 V1) k (c0, s0, r0) coins).
Notation day_seq := (d_days (Gr := Gr) hash circuit_input P0 P1 V0 V1).

Lemma d_rw r s tp s' o : d_work (Gr := Gr) hash P0 V1 r s tp = (s', o) -> ds_finished s' = ds_finished s.
Proof.
  unfold d_work. destruct (ds_finished s) eqn:F; [intros E; inversion E; subst; auto|]. destruct r as [x| |]; try (intros E; inversion E; subst; auto; fail).
  destruct x; try (intros E; inversion E; subst; auto; fail). destruct (nth_error _ _); [|intros E; inversion E; subst; auto].
  destruct del_gen2 as [p' [[? ?]| | |]]; intros E; inversion E; auto.
Qed.
Lemma d_rp (i j : nat) (st : dzero * dserver) (tp : tape) (c : dzero) (s : dserver) (tp' : tape) (c1 : dzero) (r : client_msg Gr) (tp1 : tape) (s1 : dserver) (p : option (server_msg Gr)) :
  i < total -> j < 1 -> day_seq i ((c0, r0), s0) coins = Ok (st, tp) ->
  calls (d_send (Gr := Gr) hash P1 V0) (d_recv (Gr := Gr) V0) (d_work (Gr := Gr) hash P0 V1) d_publish d_advance j (fst st, ds_reset (snd st)) tp = Ok ((c, s), tp') ->
  d_send (Gr := Gr) hash P1 V0 j c tp' = Ok ((c1, r), tp1) -> d_work (Gr := Gr) hash P0 V1 r s (evens tp1) = (s1, Ok p) -> ds_finished (d_publish s1) = (S j =? 1).
Proof. intros _ LJ _ _ _ _. replace j with 0 by lia. reflexivity. Qed.
Local Notation inst L := (L _ _ _ _ 1 total (d_send (Gr := Gr) hash P1 V0) (d_recv (Gr := Gr) V0) (d_work (Gr := Gr) hash P0 V1) d_publish d_advance ds_reset ds_finished
    (d_second circuit_input P0 P1 V0 V1) pos1 d_rw (fun _ => eq_refl) (c0, r0) s0 coins (fun _ => eq_refl) d_rp).

Lemma d_seq_trace n a t : day_seq n ((c0, r0), s0) coins = Ok (a, t) ->
  exists trace, sequential n = Ok (trace, t) /\ last trace (c0, s0, r0) = d_flat a.
Proof.
  intros E. pose proof (d_days_trace (Gr := Gr) hash circuit_input P0 P1 V0 V1 n ((c0, r0), s0) coins) as X. rewrite E in X.
  change (d_flat (c0, r0, s0)) with (c0, s0, r0) in X. destruct (sequential n) as [[tr t']| | |]; try contradiction. destruct X as (X1 & ->). eauto.
Qed.
Lemma d_trace_seq n tr t : sequential n = Ok (tr, t) -> exists a, day_seq n ((c0, r0), s0) coins = Ok (a, t) /\ last tr (c0, s0, r0) = d_flat a.
Proof.
  intros E. pose proof (d_days_trace (Gr := Gr) hash circuit_input P0 P1 V0 V1 n ((c0, r0), s0) coins) as X.
  change (d_flat (c0, r0, s0)) with (c0, s0, r0) in X. rewrite E in X. destruct (day_seq n (c0, r0, s0) coins) as [[a t']| | |]; try contradiction. destruct X as (X1 & ->). eauto.
Qed.

(** If one of the programs returned OkStatus, the sequential run succeeds and
    ends with the same states and coins. *)
Theorem C59_deletion_serial : forall w, run_to w -> w_cpc w = CDone \/ w_spc w = SDone ->
  exists trace, sequential total = Ok (trace, w_coins w) /\ last trace (c0, s0, r0) = (fst (w_c w), w_s w, snd (w_c w)).
Proof.
  intros w R D. destruct (d_seq_trace _ _ _ ((inst (@serial)) w R D)) as (tr & T1 & T2). exists tr. split; auto.
Qed.
(** When party zero is about to start day [i] (counted from 0), it is in the state
    the sequential run has after [i] days. *)
Theorem C59_deletion_each_day : forall w i, run_to w -> w_cpc w = CSend i 0 ->
  exists trace coins' s, sequential i = Ok (trace, coins') /\ last trace (c0, s0, r0) = (fst (w_c w), s, snd (w_c w)).
Proof.
  intros w i R D. destruct ((inst (@between)) w i R D) as (s & tp & X). destruct (d_seq_trace _ _ _ X) as (tr & T1 & T2). exists tr, tp, s. split; auto.
Qed.
(** While the handler thread is in Handle, party zero waits in the call of the
    same day, and party one's main thread is in its loop for that day or, after
    the flag is set, in Shutdown; and both programs are at the same entry of
    their lists of data sets. *)
Theorem C59_deletion_right_day : forall w, run_to w -> w_hpc w <> HIdle -> dc_day c0 = ds_day s0 ->
  exists i, i < total /\ w_cpc w = CWait i 0 /\
  (w_spc w = SListen i \/ (w_spc w = SShutdown i /\ exists p, w_hpc w = HAdvance p \/ w_hpc w = HReply (Ok p))) /\
  forall r, w_hpc w = HWork r -> dc_day (fst (w_c w)) = ds_day (w_s w) /\ ds_day (w_s w) = i + ds_day s0 /\ ds_finished (w_s w) = false.
Proof.
  intros w R D DD. destruct ((inst (@right_day)) w R D) as (i & j & LI & LJ & E1 & E2 & E3). assert (j = 0) by lia. subst j. exists i. split; auto. split; auto. split; auto.
  intros r HW. destruct (E3 r HW) as (c & tp & (st & tp1 & AD & AC) & SD). cbn [calls] in AC. apply ret_Ok in AC as (AC & _). inversion AC as [[AC1 AC2]].
  destruct st as [[c' r'] s']. apply (d_days_days (Gr := Gr)) in AD as (A1 & A2). cbn [fst snd] in *.
  assert (Q : dc_day (fst (w_c w)) = dc_day c').
  { rewrite AC1 in SD. unfold d_send in SD. cbn [fst snd] in SD. destruct (nth_error _ _); [|discriminate]. apply bind_Ok in SD as ([p1 m1] & t3 & _ & SD). apply ret_Ok in SD as (SD & _).
    inversion SD as [[S1 S2]]. rewrite S1; reflexivity. }
  rewrite Q, AC2. cbn [ds_reset ds_day ds_finished]. split; [lia|]. split; [lia|auto].
Qed.
(** A schedule that cannot go on has either completed both programs or left
    party one waiting for a party zero that has failed. *)
Theorem C59_deletion_stuck : forall w, run_to w -> (forall w', ~ d_step (Gr := Gr) hash circuit_input P0 P1 V0 V1 total w w') ->
  (w_cpc w = CDone /\ w_spc w = SDone) \/
  (w_cpc w = CFailed /\ w_hpc w = HIdle /\
    ((exists i, w_spc w = SListen i /\ ds_finished (w_s w) = false) \/ (exists i, w_spc w = SSecond i) \/ w_spc w = SFailed)).
Proof. exact (inst (@stuck)). Qed.
(** If the sequential run succeeds, party zero fails only because a call was made
    when party one had not yet started its server of that day: party one has
    completed the days before, and waits on that day. *)
Theorem C59_deletion_failure : forall w trace coins', run_to w -> sequential total = Ok (trace, coins') -> w_cpc w = CFailed ->
  exists i tr t c s r, i < total /\ w_hpc w = HIdle /\ sequential i = Ok (tr, t) /\ last tr (c0, s0, r0) = (c, s, r) /\
    ((w_spc w = SReset i /\ w_s w = s) \/ (w_spc w = SListen i /\ w_s w = ds_reset s)).
Proof.
  intros w tr t R T D. destruct (d_trace_seq _ _ _ T) as (a & A & _).
  destruct ((inst (@too_early)) w _ R D A) as (i & s' & tp' & LI & HI & (c' & AD) & X). destruct (d_seq_trace _ _ _ AD) as (tr1 & T1 & T2).
  exists i, tr1, tp', (fst c'), s', (snd c'). auto 10.
Qed.
(** No schedule goes on for ever. *)
Theorem C59_deletion_bounded : forall n w, d_steps (Gr := Gr) hash circuit_input P0 P1 V0 V1 total n (initial (c0, r0) s0 coins) w -> n <= 34 * total + 21.
Proof. intros n w R. pose proof ((inst (@bounded_all)) n w R). lia. Qed.
(** A sequential run that succeeds is the result of some schedule. *)
Theorem C59_deletion_possible : forall trace coins', sequential total = Ok (trace, coins') ->
  exists w, run_to w /\ w_cpc w = CDone /\ w_spc w = SDone /\ last trace (c0, s0, r0) = (fst (w_c w), w_s w, snd (w_c w)).
Proof.
  intros tr t T. destruct (d_trace_seq _ _ _ T) as ([c s] & A & L).
  exists (mkW c s CDone HIdle SDone t). split; [|auto].
  exact (possible 1 total (d_send (Gr := Gr) hash P1 V0) (d_recv (Gr := Gr) V0) (d_work (Gr := Gr) hash P0 V1) d_publish d_advance ds_reset ds_finished
    (d_second circuit_input P0 P1 V0 V1) pos1 (fun _ => eq_refl) (c0, r0) s0 coins d_rp c s t A).
Qed.
End Deletion.

(** ** deletion-psi *)
Section Psi.
Variables (total : nat) (c0 : pclient) (di0 : day_info) (s0 : pserver) (mid0 : tree entry) (coins : tape).
Notation run_to := (p_reachable (Gr := Gr) hash circuit_input P0 P1 V0 V1 total (initial (c0, di0) (s0, mid0) coins)).
Notation sequential k := (run_trace (psi_day2 (Gr := Gr) hash circuit_input P0 P1 V0 V1) k (c0, s0, di0) coins).
Notation day_seq := (p_days (Gr := Gr) hash circuit_input P0 P1 V0 V1).

Lemma p_rw r s tp s' o : p_work (Gr := Gr) hash P0 V1 r s tp = (s', o) -> p_ready s' = p_ready s.
Proof.
  destruct s as [s mid]. unfold p_work, p_ready. cbn [fst]. destruct (ps_finished s) eqn:F; [intros E; inversion E; subst; auto|]. destruct r as [x| |]; try (intros E; inversion E; subst; auto; fail).
  destruct x; try (intros E; inversion E; subst; auto; fail). destruct (nth_error _ _) as [[? ?]|]; [|intros E; inversion E; subst; auto].
  destruct psi_gen2 as [p' [[? ?]| | |]]; intros E; inversion E; auto.
Qed.
Lemma p_ra s : p_ready (p_advance s) = p_ready s.
Proof. destruct s as [s mid]. unfold p_ready, p_advance. cbn [fst]. destruct (ps_finished s) eqn:F; auto. Qed.
(** the halves of the day *)
Lemma p_first j c s tp c' s' mid' tp' : j < 2 ->
  calls (p_send (Gr := Gr) hash P1 V0) (p_recv (Gr := Gr) V0) (p_work (Gr := Gr) hash P0 V1) p_publish p_advance j (c, p_reset s) tp = Ok ((c', (s', mid')), tp') ->
  ps_first s' = (j =? 1) /\ ps_day s' = ps_day (fst s) /\ pc_day (fst c') = pc_day (fst c).
Proof.
  intros L. destruct s as [s mid]. destruct c as [c di]. assert (j = 0 \/ j = 1) as [-> | ->] by lia; cbn [calls].
  - intros E. apply ret_Ok in E as (E & _). inversion E; subst. auto.
  - intros E. apply bind_Ok in E as (st & t & E1 & E). apply ret_Ok in E1 as (Q1 & Q2). subst st t.
    unfold p_reset in E. cbn [fst snd] in E. unfold one_call in E. cbn [fst snd] in E.
    apply bind_Ok in E as ([c1 r] & t1 & E1 & E). apply bind_Ok in E as ([[s1 mid1] p] & t2 & E2 & E). apply bind_Ok in E as (c2 & t3 & E3 & E). apply ret_Ok in E as (E & _). inversion E; subst.
    apply lift_Ok in E3 as (E3 & _). cbn [Nat.eqb fst].
    unfold call in E2. pose proof (p_handle_same (Gr := Gr) hash P0 V1 r (ps_reset s) mid (evens t1)) as HS. destruct (handle_all _ _ _ _ _ _) as [[s2 mid2] o].
    destruct o as [r2| | |]; try discriminate. inversion E2; subst. symmetry in HS.
    split; [eapply psi_handle_first; exact HS|]. split.
    + unfold psi_handle in HS. cbn [ps_reset ps_finished ps_data ps_day ps_first] in HS. destruct r as [x| |]; try discriminate. destruct x; try discriminate.
      destruct (nth_error _ _) as [[? ?]|]; try discriminate. destruct psi_gen2 as [? [[? ?]| | |]]; try discriminate. inversion HS. reflexivity.
    + unfold p_recv in E3. apply obind_Ok in E3 as (c3 & E3 & E4). apply pc_handle_keeps in E3 as (_ & E3). cbn [Nat.eqb] in E4. inversion E4; subst. cbn [fst]. rewrite E3.
      unfold p_send in E1. cbn [Nat.eqb fst snd] in E1. destruct (nth_error _ _) as [[? ?]|]; try discriminate. apply bind_Ok in E1 as ([? ?] & ? & _ & E1). apply ret_Ok in E1 as (E1 & _). inversion E1; subst. reflexivity.
Qed.
Lemma p_rp (i j : nat) (st : pzero * pone) (tp : tape) (c : pzero) (s : pone) (tp' : tape) (c1 : pzero) (r : client_msg Gr) (tp1 : tape) (s1 : pone) (p : option (server_msg Gr)) :
  i < total -> j < 2 -> day_seq i ((c0, di0), (s0, mid0)) coins = Ok (st, tp) ->
  calls (p_send (Gr := Gr) hash P1 V0) (p_recv (Gr := Gr) V0) (p_work (Gr := Gr) hash P0 V1) p_publish p_advance j (fst st, p_reset (snd st)) tp = Ok ((c, s), tp') ->
  p_send (Gr := Gr) hash P1 V0 j c tp' = Ok ((c1, r), tp1) -> p_work (Gr := Gr) hash P0 V1 r s (evens tp1) = (s1, Ok p) -> p_ready (p_publish s1) = (S j =? 2).
Proof.
  intros _ LJ _ C _ W. destruct s as [s mid]. destruct (p_first _ _ _ _ _ _ _ _ LJ C) as (F & _).
  unfold p_work in W. destruct (ps_finished s); [inversion W|]. destruct r as [x| |]; try (inversion W; fail). destruct x; try (inversion W; fail).
  destruct (nth_error _ _) as [[? ?]|]; [|inversion W]. destruct psi_gen2 as [p' [[? ?]| | |]]; inversion W; subst. unfold p_publish, p_ready. cbn [ps_first]. rewrite F.
  assert (j = 0 \/ j = 1) as [-> | ->] by lia; reflexivity.
Qed.
Local Notation inst L := (L _ _ _ _ 2 total (p_send (Gr := Gr) hash P1 V0) (p_recv (Gr := Gr) V0) (p_work (Gr := Gr) hash P0 V1) p_publish p_advance p_reset p_ready
    (p_second circuit_input P0 P1 V0 V1) pos2 p_rw p_ra (c0, di0) (s0, mid0) coins (fun _ => eq_refl) p_rp).

Lemma p_seq_trace n a t : day_seq n ((c0, di0), (s0, mid0)) coins = Ok (a, t) ->
  exists trace, sequential n = Ok (trace, t) /\ last trace (c0, s0, di0) = p_flat a.
Proof.
  intros E. pose proof (p_days_trace (Gr := Gr) hash circuit_input P0 P1 V0 V1 n ((c0, di0), (s0, mid0)) coins) as X. rewrite E in X.
  change (p_flat (c0, di0, (s0, mid0))) with (c0, s0, di0) in X. destruct (sequential n) as [[tr t']| | |]; try contradiction. destruct X as (X1 & ->). eauto.
Qed.
Lemma p_trace_seq n tr t : sequential n = Ok (tr, t) -> exists a, day_seq n ((c0, di0), (s0, mid0)) coins = Ok (a, t) /\ last tr (c0, s0, di0) = p_flat a.
Proof.
  intros E. pose proof (p_days_trace (Gr := Gr) hash circuit_input P0 P1 V0 V1 n ((c0, di0), (s0, mid0)) coins) as X.
  change (p_flat (c0, di0, (s0, mid0))) with (c0, s0, di0) in X. rewrite E in X. destruct (day_seq n (c0, di0, (s0, mid0)) coins) as [[a t']| | |]; try contradiction. destruct X as (X1 & ->). eauto.
Qed.

Theorem C59_psi_serial : forall w, run_to w -> w_cpc w = CDone \/ w_spc w = SDone ->
  exists trace, sequential total = Ok (trace, w_coins w) /\ last trace (c0, s0, di0) = (fst (w_c w), fst (w_s w), snd (w_c w)).
Proof.
  intros w R D. destruct (p_seq_trace _ _ _ ((inst (@serial)) w R D)) as (tr & T1 & T2). exists tr. split; auto.
Qed.
Theorem C59_psi_each_day : forall w i, run_to w -> w_cpc w = CSend i 0 ->
  exists trace coins' s, sequential i = Ok (trace, coins') /\ last trace (c0, s0, di0) = (fst (w_c w), s, snd (w_c w)).
Proof.
  intros w i R D. destruct ((inst (@between)) w i R D) as (s & tp & X). destruct (p_seq_trace _ _ _ X) as (tr & T1 & T2). exists tr, tp, (fst s). split; auto.
Qed.
(** As for deletion; in the [j]-th call of the day (0: deletions, 1: additions)
    party one is in the same half of the day. *)
Theorem C59_psi_right_day : forall w, run_to w -> w_hpc w <> HIdle -> pc_day c0 = ps_day s0 ->
  exists i j, i < total /\ j < 2 /\ w_cpc w = CWait i j /\
  (w_spc w = SListen i \/ (w_spc w = SShutdown i /\ exists p, w_hpc w = HAdvance p \/ w_hpc w = HReply (Ok p))) /\
  forall r, w_hpc w = HWork r -> let s := fst (w_s w) in
    pc_day (fst (w_c w)) = ps_day s /\ ps_day s = i + ps_day s0 /\ ps_first s = (j =? 1).
Proof.
  intros w R D DD. destruct ((inst (@right_day)) w R D) as (i & j & LI & LJ & E1 & E2 & E3). exists i, j. split; auto. split; auto. split; auto. split; auto.
  intros r HW. destruct (E3 r HW) as (c & tp & (st & tp1 & AD & AC) & SD). destruct (w_s w) as [s1 mid1]. cbn zeta. cbn [fst].
  destruct st as [[c' di'] [s' mid']]. apply (p_days_days (Gr := Gr)) in AD as (A1 & A2). cbn [fst snd] in *.
  destruct (p_first _ _ _ _ _ _ _ _ LJ AC) as (F1 & F2 & F3). cbn [fst] in *.
  assert (Q : pc_day (fst (w_c w)) = pc_day (fst c)).
  { unfold p_send in SD. destruct (nth_error _ _) as [[? ?]|]; [|discriminate]. apply bind_Ok in SD as ([p1 m1] & t3 & _ & SD). apply ret_Ok in SD as (SD & _).
    inversion SD as [[S1 S2]]. rewrite S1. cbn [fst]. destruct (j =? 0); reflexivity. }
  rewrite Q. split; [lia|]. split; [lia|auto].
Qed.
Theorem C59_psi_stuck : forall w, run_to w -> (forall w', ~ p_step (Gr := Gr) hash circuit_input P0 P1 V0 V1 total w w') ->
  (w_cpc w = CDone /\ w_spc w = SDone) \/
  (w_cpc w = CFailed /\ w_hpc w = HIdle /\
    ((exists i, w_spc w = SListen i /\ ps_finished (fst (w_s w)) = false) \/ (exists i, w_spc w = SSecond i) \/ w_spc w = SFailed)).
Proof. exact (inst (@stuck)). Qed.
Theorem C59_psi_failure : forall w trace coins', run_to w -> sequential total = Ok (trace, coins') -> w_cpc w = CFailed ->
  exists i tr t c s r, i < total /\ w_hpc w = HIdle /\ sequential i = Ok (tr, t) /\ last tr (c0, s0, di0) = (c, s, r) /\
    ((w_spc w = SReset i /\ fst (w_s w) = s) \/ (w_spc w = SListen i /\ fst (w_s w) = ps_reset s)).
Proof.
  intros w tr t R T D. destruct (p_trace_seq _ _ _ T) as (a & A & _).
  destruct ((inst (@too_early)) w _ R D A) as (i & s' & tp' & LI & HI & (c' & AD) & X). destruct (p_seq_trace _ _ _ AD) as (tr1 & T1 & T2).
  exists i, tr1, tp', (fst c'), (fst s'), (snd c'). split; auto. split; auto. split; auto. split; auto. destruct X as [(X1 & X2)|(X1 & X2)]; rewrite X2; auto.
Qed.
Theorem C59_psi_bounded : forall n w, p_steps (Gr := Gr) hash circuit_input P0 P1 V0 V1 total n (initial (c0, di0) (s0, mid0) coins) w -> n <= 44 * total + 31.
Proof. intros n w R. pose proof ((inst (@bounded_all)) n w R). lia. Qed.
Theorem C59_psi_possible : forall trace coins', sequential total = Ok (trace, coins') ->
  exists w, run_to w /\ w_cpc w = CDone /\ w_spc w = SDone /\ last trace (c0, s0, di0) = (fst (w_c w), fst (w_s w), snd (w_c w)).
Proof.
  intros tr t T. destruct (p_trace_seq _ _ _ T) as ([c s] & A & L).
  exists (mkW c s CDone HIdle SDone t). split; [|auto].
  exact (possible 2 total (p_send (Gr := Gr) hash P1 V0) (p_recv (Gr := Gr) V0) (p_work (Gr := Gr) hash P0 V1) p_publish p_advance p_reset p_ready
    (p_second circuit_input P0 P1 V0 V1) pos2 p_ra (c0, di0) (s0, mid0) coins p_rp c s t A).
Qed.
End Psi.

(** ** the results *)
Variables p0 q0 p1 q1 : Z.
(** Under every schedule: after [i] lucky days party zero's result is the inner
    product (C20). *)
Theorem C59_deletion_result : forall total stash node d0 d1 coins w i,
  keys hash p0 q0 p1 q1 P0 P1 V0 V1 -> length d1 = length d0 -> proper_signed (p1 * q1) d0 -> proper_signed (p0 * q0) d1 -> i < length d0 ->
  let '(c, s, r) := del_start stash node d0 d1 in
  d_reachable (Gr := Gr) hash circuit_input P0 P1 V0 V1 total (initial (c, r) s coins) w -> w_cpc w = CSend (S i) 0 \/ (w_cpc w = CDone /\ total = S i) ->
  exists trace coins', run_trace (del_day (Gr := Gr) hash circuit_input P0 P1 V0 V1) (S i) (c, s, r) coins = Ok (trace, coins') /\
    ((forall j st, j <= i -> nth_error trace j = Some st -> lucky_day circuit_input p0 q0 p1 q1 d0 d1 j st) ->
     dc_result (fst (w_c w)) = (inner (upto (S i) d0) (upto (S i) d1) mod 2 ^ 64)%Z).
Proof.
  intros total stash node d0 d1 coins w i K L PR0 PR1 LE. destruct (del_start stash node d0 d1) as [[c s] r] eqn:ST. intros R D.
  assert (X : exists tr t s1, run_trace (del_day (Gr := Gr) hash circuit_input P0 P1 V0 V1) (S i) (c, s, r) coins = Ok (tr, t) /\ last tr (c, s, r) = (fst (w_c w), s1, snd (w_c w))).
  { destruct D as [D|(D & ET)]; [exact (C59_deletion_each_day _ _ _ _ _ _ _ R D)|]. destruct (C59_deletion_serial _ _ _ _ _ _ R (or_introl D)) as (tr & T & LT). rewrite ET in T. eauto. }
  destruct X as (tr & t & s1 & T & LT). exists tr, t. split; auto. intros GD.
  rewrite <- ST in T. pose proof (C20_inner_product (Gr := Gr) hash circuit_input p0 q0 p1 q1 P0 P1 V0 V1 stash node d0 d1 (S i) coins tr t K L PR0 PR1 LE T) as (X1 & X2).
  specialize (X2 i (fst (w_c w)) s1 (snd (w_c w))). rewrite <- LT in X2. specialize (X2 (last_nth tr i (c, s, r) X1)). apply X2. auto.
Qed.
(** ... and party zero's set is the intersection (C22). *)
Theorem C59_psi_result : forall total stash node h0 h1 d0 d1 coins w i mid,
  psi_setting hash p0 q0 p1 q1 P0 P1 V0 V1 h0 h1 d0 d1 -> i < length h0 -> (forall j, j < S i -> no_return j h0 h1) ->
  let '(c, s, di) := psi_start stash node d0 d1 in
  p_reachable (Gr := Gr) hash circuit_input P0 P1 V0 V1 total (initial (c, di) (s, mid) coins) w -> w_cpc w = CSend (S i) 0 \/ (w_cpc w = CDone /\ total = S i) ->
  exists trace coins', run_trace (psi_day2 (Gr := Gr) hash circuit_input P0 P1 V0 V1) (S i) (c, s, di) coins = Ok (trace, coins') /\
    ((forall j st, j <= i -> nth_error trace j = Some st -> lucky_psi_day circuit_input p0 q0 p1 q1 d0 d1 j st) ->
     same_set (pc_set (fst (w_c w))) (both (current (S i) h0) (current (S i) h1))).
Proof.
  intros total stash node h0 h1 d0 d1 coins w i mid SET LE NR. destruct (psi_start stash node d0 d1) as [[c s] r] eqn:ST. intros R D.
  assert (X : exists tr t s1, run_trace (psi_day2 (Gr := Gr) hash circuit_input P0 P1 V0 V1) (S i) (c, s, r) coins = Ok (tr, t) /\ last tr (c, s, r) = (fst (w_c w), s1, snd (w_c w))).
  { destruct D as [D|(D & ET)]; [exact (C59_psi_each_day _ _ _ _ _ _ _ _ R D)|]. destruct (C59_psi_serial _ _ _ _ _ _ _ R (or_introl D)) as (tr & T & LT). rewrite ET in T. eauto. }
  destruct X as (tr & t & s1 & T & LT). exists tr, t. split; auto. intros GD.
  rewrite <- ST in T. pose proof (C22_intersection (Gr := Gr) hash circuit_input p0 q0 p1 q1 P0 P1 V0 V1 h0 h1 d0 d1 stash node (S i) coins tr t SET LE NR T) as (X1 & X2).
  specialize (X2 i (fst (w_c w)) s1 (snd (w_c w))). rewrite <- LT in X2. specialize (X2 (last_nth tr i (c, s, r) X1)). apply X2. auto.
Qed.
End C59.

(** ** Examples: the two days of ex_C20 and of ex_C22 under some schedule *)
Lemma ex_lucky_ok o : ex_lucky o = true -> exists tr t, o = Ok (tr, t) /\ dc_result (fst (fst (last tr (del_start 1 1 exd0 exd1)))) = 0%Z.
Proof.
  unfold ex_lucky. destruct o as [[[|a [|b [|]]] t]| | |]; try discriminate. rewrite !andb_true_iff, !Z.eqb_eq. intros (_ & X). exists [a; b], t. auto.
Qed.
Notation exD := (del_start 1 1 exd0 exd1).
Notation ex_runs k tp := (let '(c, s, r) := exD in d_reachable (Gr := zmod_group 11 prime_11') ex_hash ex_circuit exk0P exk1P exk0V exk1V k (initial (c, r) s tp)).
Lemma ex_completes k tp : ex_lucky (ex_run k tp) = true -> exists w, ex_runs k tp w /\ w_cpc w = CDone /\ w_spc w = SDone /\ dc_result (fst (w_c w)) = 0%Z.
Proof.
  intros X. destruct (ex_lucky_ok _ X) as (tr & t & E & V). unfold ex_run in E. destruct exD as [[c s] r].
  destruct (C59_deletion_possible ex_hash ex_circuit exk0P exk1P exk0V exk1V k c r s tp tr t E) as (w & R & D1 & D2 & L).
  exists w. rewrite L in V. auto.
Qed.
Example ex_C59_deletion : exists w, ex_runs 2 PropsDel.ex_coins w /\ w_cpc w = CDone /\ w_spc w = SDone /\ dc_result (fst (w_c w)) = 0%Z.
Proof. exact (ex_completes 2 PropsDel.ex_coins ex_C20). Qed.
Lemma ex_psi_lucky_ok o : ex_psi_lucky o = true -> exists tr t, o = Ok (tr, t).
Proof. unfold ex_psi_lucky. destruct o as [[tr t]| | |]; try discriminate. eauto. Qed.
Notation ex_psi_runs d0 d1 tp := (let '(c, s, di) := psi_start 1 1 d0 d1 in
  p_reachable (Gr := zmod_group 11 prime_11') ex_hash ex_circuit exl0P exl1P exl0V exl1V 2 (initial (c, di) (s, tree_new 1 1) tp)).
Lemma ex_psi_completes d0 d1 tp : ex_psi_lucky (ex_psi_run d0 d1 tp) = true -> exists w, ex_psi_runs d0 d1 tp w /\ w_cpc w = CDone /\ w_spc w = SDone.
Proof.
  intros X. destruct (ex_psi_lucky_ok _ X) as (tr & t & E). unfold ex_psi_run in E. destruct (psi_start 1 1 d0 d1) as [[c s] di].
  destruct (C59_psi_possible ex_hash ex_circuit exl0P exl1P exl0V exl1V 2 c di s (tree_new 1 1) tp tr t E) as (w & R & D1 & D2 & _).
  exists w. auto.
Qed.
Example ex_C59_psi : exists w, ex_psi_runs exq0 exq1 ex_psi_coins w /\ w_cpc w = CDone /\ w_spc w = SDone.
Proof. exact (ex_psi_completes exq0 exq1 ex_psi_coins ex_C22). Qed.
(** a call made before the server was started: party zero fails, party one waits *)
Lemma ex_early k tp : ex_lucky (ex_run (S k) tp) = true -> exists w, ex_runs (S k) tp w /\ w_cpc w = CFailed /\ w_spc w = SListen 0 /\ ds_finished (w_s w) = false.
Proof.
  intros X. destruct (ex_lucky_ok _ X) as (tr & t & E & _). unfold ex_run in E. destruct exD as [[c s] r].
  cbn [run_trace] in E. apply bind_Ok in E as (st & t1 & E & _). unfold del_day, dc_run in E. cbn [fst snd] in E.
  apply bind_Ok in E as ([c1 s1] & t2 & E & _). destruct (nth_error (dc_data c) (dc_day c)) as [es|] eqn:N; [|discriminate].
  apply bind_Ok in E as ([p1 m1] & t3 & E & _).
  eexists (mkW _ (ds_reset s) CFailed HIdle (SListen 0) t3). split; [|auto].
  eapply r_step; [eapply r_step; [apply r_start|]|].
  - eapply s_refused; [lia|discriminate|]. unfold d_send. cbn [fst snd]. rewrite N. unfold bind. rewrite E. reflexivity.
  - apply s_start. lia.
Qed.
Example ex_C59_too_early : exists w, ex_runs 2 PropsDel.ex_coins w /\ w_cpc w = CFailed /\ w_spc w = SListen 0 /\ ds_finished (w_s w) = false.
Proof. exact (ex_early 1 PropsDel.ex_coins ex_C20). Qed.

Print Assumptions C59_deletion_serial.
Print Assumptions C59_deletion_each_day.
Print Assumptions C59_deletion_right_day.
Print Assumptions C59_deletion_stuck.
Print Assumptions C59_deletion_failure.
Print Assumptions C59_deletion_bounded.
Print Assumptions C59_deletion_possible.
Print Assumptions C59_psi_serial.
Print Assumptions C59_psi_each_day.
Print Assumptions C59_psi_right_day.
Print Assumptions C59_psi_stuck.
Print Assumptions C59_psi_failure.
Print Assumptions C59_psi_bounded.
Print Assumptions C59_psi_possible.
Print Assumptions C59_deletion_result.
Print Assumptions C59_psi_result.
