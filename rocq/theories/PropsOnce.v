(** * C60: whatever the threads of the two programs do first, an addition-only
    or original run computes what the programs compute one after the other,
    and the server prints the report of the completed run. *)
Require Import String.
Require Import List Arith ZArith Bool Lia Permutation Znumtheory.
Import ListNotations.
From Verif Require Import Prelude TreeModel TreeSpec TreeHistory Coins Group ElGamalModel BytesModel CipherModel PaillierModel PaillierProofs PropsPaillier WireModel SyncModel SyncSpec PropsSync AddModel AddSpec PropsAdd BigPrime.
From Verif Require Import OnceModel OnceProofs OnceRun.
From Verif Require OrigModel PropsOrig.
Local Open Scope nat_scope.

(** ** Specification *)
Section Spec.
Context {Req Rep C SV : Type}.
Variables (work : Req -> SV -> tape -> SV * outcome (Rep * bool)) (advance : SV -> SV) (ready : SV -> bool).
Variables (finished : C -> bool) (day : C -> M (client_prog Req Rep C)) (days : C -> nat).
(** the sequential programs, day by day *)
Variable both : C * SV -> M (C * SV).
Notation world := (OnceModel.world Req Rep C SV).
Notation reachable := (OnceModel.reachable (C := C) work advance ready).
(** the client has read its data and done its computations before the first
    call; the server's main thread is at [sp] *)
Definition run_to (sp : spc SV) (c0 : C) (s0 : SV) (coins : tape) (w : world) : Prop :=
  (sp = SStart \/ sp = SListen) /\ exists p coins1, all_days finished day (days c0) c0 coins = Ok (p, coins1) /\ reachable (initial s0 p sp coins1) w.
Definition cannot_go_on (w : world) : Prop := forall w', ~ step work advance ready w w'.
Definition printed (w : world) (report : SV) : Prop := w_spc w = SShutdown report \/ w_spc w = SDone report.
Definition sequentially (c0 : C) (s0 : SV) (coins : tape) : outcome ((C * SV) * tape) := run_days finished both (days c0) (c0, s0) coins.

(** If the client returned OkStatus, the sequential run succeeds and ends with
    the same states and coins. *)
Definition client_right : Prop := forall sp c0 s0 coins w c, run_to sp c0 s0 coins w -> w_cpc w = CDone c ->
  sequentially c0 s0 coins = Ok ((c, w_s w), w_coins w).
(** The server prints only after the last day, nothing it does later changes
    what it has printed, and what it has printed is the result of the
    sequential run if that one succeeds. *)
Definition report_right : Prop := forall sp c0 s0 coins w report, run_to sp c0 s0 coins w -> printed w report ->
  ready report = true /\ (forall w', reachable w w' -> w_s w' = report) /\
  (forall c s coins', sequentially c0 s0 coins = Ok ((c, s), coins') -> report = s).
(** A schedule that cannot go on: the client has returned, and the server has
    returned too, or died, or still waits for the rest of the days. *)
Definition no_deadlock : Prop := forall sp c0 s0 coins w, run_to sp c0 s0 coins w -> cannot_go_on w ->
  ((exists c, w_cpc w = CDone c) \/ w_cpc w = CFailed) /\ w_hpc w = HIdle /\
  ((w_spc w = SListen /\ ready (w_s w) = false) \/ (exists report, w_spc w = SDone report) \/ w_spc w = SDied).
(** If the sequential run succeeds and the server was started first, both
    programs return OkStatus with its result, whatever the schedule ... *)
Definition both_return (aligned : C -> SV -> Prop) : Prop := forall c0 s0 coins w c s coins', aligned c0 s0 ->
  sequentially c0 s0 coins = Ok ((c, s), coins') -> run_to SListen c0 s0 coins w -> cannot_go_on w ->
  w_cpc w = CDone c /\ w_hpc w = HIdle /\ w_spc w = SDone s /\ w_s w = s.
(** ... and there are such schedules: every schedule ends, and can be continued
    until it cannot go on. *)
Definition no_infinite_schedule : Prop := forall sp c0 s0 coins (f : nat -> world), run_to sp c0 s0 coins (f 0) -> ~ forall n, step work advance ready (f n) (f (S n)).
Definition completes : Prop := forall sp c0 s0 coins w, run_to sp c0 s0 coins w -> exists w', reachable w w' /\ run_to sp c0 s0 coins w' /\ cannot_go_on w'.
(** The client fails in a run that would succeed only by calling before the
    server is started; the server has done nothing then. *)
Definition only_too_early : Prop := forall sp c0 s0 coins w v, run_to sp c0 s0 coins w -> sequentially c0 s0 coins = Ok v -> w_cpc w = CFailed ->
  sp = SStart /\ w_s w = s0.
(** It can happen: a client with a call to make fails for good if it is started
    too early, and the server waits for ever. *)
Definition too_early_hangs : Prop := forall c0 s0 coins r k coins1, all_days finished day (days c0) c0 coins = Ok (Call r k, coins1) -> ready s0 = false ->
  exists w, run_to SStart c0 s0 coins w /\ cannot_go_on w /\ w_cpc w = CFailed /\ w_spc w = SListen.
Definition every_schedule (aligned : C -> SV -> Prop) : Prop :=
  client_right /\ report_right /\ no_deadlock /\ both_return aligned /\ no_infinite_schedule /\ completes /\ only_too_early /\ too_early_hangs.

(** *** proof *)
Hypothesis closed : forall r s tp, ready s = true -> exists e, work r s tp = (s, Err e).
Hypothesis early : forall r s tp s' v, work r s tp = (s', Ok v) -> ready s' = false.
Hypothesis same : forall c s tp, both (c, s) tp = as_day (handle_all work advance) (day c tp) s.
Variable aligned : C -> SV -> Prop.
Hypothesis ends : forall c0 s0 coins st coins', aligned c0 s0 -> run_days finished both (days c0) (c0, s0) coins = Ok (st, coins') -> ready (snd st) = true.
Lemma reachable_trans a b c : reachable a b -> reachable b c -> reachable a c.
Proof. intros R1 R2. induction R2; auto. eapply r_step; eauto. Qed.
Lemma as_whole c0 s0 coins p coins1 : all_days finished day (days c0) c0 coins = Ok (p, coins1) ->
  sequentially c0 s0 coins = match whole work advance s0 p coins1 with Ok (c, s, t) => Ok ((c, s), t) | Err e => Err e | Abort => Abort | UB => UB end.
Proof. intros E. unfold sequentially. rewrite (serial_days (handle_all work advance) finished day both same). rewrite E. reflexivity. Qed.
Lemma seq_whole c0 s0 coins p coins1 c s t : all_days finished day (days c0) c0 coins = Ok (p, coins1) ->
  sequentially c0 s0 coins = Ok ((c, s), t) -> whole work advance s0 p coins1 = Ok (c, s, t).
Proof. intros E. rewrite (as_whole _ _ _ _ _ E). destruct (whole _ _ _ _ _) as [[[c' s'] t']| | |]; intros X; inversion X; auto. Qed.
Lemma every_schedule_of : every_schedule aligned.
Proof.
  split; [|split; [|split; [|split; [|split; [|split; [|split]]]]]].
  - intros sp c0 s0 coins w c (SP & p & t1 & E & R) D. destruct (once_serial work advance ready closed early s0 p sp t1 SP w c R D) as (_ & W). rewrite (as_whole _ _ _ _ _ E), W. reflexivity.
  - intros sp c0 s0 coins w rep (SP & p & t1 & E & R) D. destruct (once_printed work advance ready closed early s0 p sp t1 SP w rep R D) as (P1 & P2 & P3). split; auto. split.
    + intros w' R'. exact (once_final work advance ready closed early s0 p sp t1 SP w w' rep R D R').
    + intros c s t X. exact (P3 _ _ _ (seq_whole _ _ _ _ _ _ _ _ E X)).
  - intros sp c0 s0 coins w (SP & p & t1 & E & R) D. exact (once_stuck work advance ready closed early s0 p sp t1 SP w R D).
  - intros c0 s0 coins w c s t AL X (SP & p & t1 & E & R) D.
    exact (once_outcome work advance ready closed early s0 p SListen t1 SP w c s t eq_refl (seq_whole _ _ _ _ _ _ _ _ E X) (ends _ _ _ _ _ AL X) R D).
  - intros sp c0 s0 coins f (SP & p & t1 & E & R) F.
    exact (once_terminates_from work advance ready closed early s0 p sp t1 SP f R F).
  - intros sp c0 s0 coins w (SP & p & t1 & E & R). destruct (once_completes work advance ready closed early s0 p sp t1 SP w R) as (w' & R1 & R2 & X). exists w'. split; auto. split; auto. split; auto. exists p, t1. auto.
  - intros sp c0 s0 coins w [[c s] t] (SP & p & t1 & E & R) X D. destruct (once_failed work advance ready closed early s0 p sp t1 SP w R D) as [W|W]; auto. exfalso. apply (W (c, s, t)). exact (seq_whole _ _ _ _ _ _ _ _ E X).
  - intros c0 s0 coins r k t1 E R0. destruct (once_too_early work advance ready s0 (Call r k) SStart t1 (or_introl eq_refl) r k eq_refl eq_refl R0) as (w & R & W). exists w. split; auto. split; auto. exists (Call r k), t1. auto.
Qed.
(** for the examples: the server can print before the client has the last reply *)
Lemma printed_first c0 s0 coins r k coins1 s1 p : all_days finished day (days c0) c0 coins = Ok (Call r k, coins1) ->
  work r s0 (even_coins coins1) = (s1, Ok (p, true)) -> ready (advance s1) = true ->
  exists w, run_to SListen c0 s0 coins w /\ printed w (advance s1) /\ w_cpc w = CWait k /\ w_hpc w = HReply (Ok p).
Proof.
  intros E W RD. exists (mkW (advance s1) (CWait k) (HReply (Ok p)) (SShutdown (advance s1)) (odd_coins coins1)). split.
  - split; auto. exists (Call r k), coins1. split; auto. eapply r_step; [eapply r_step; [eapply r_step; [eapply r_step; [eapply r_step; [constructor|apply s_call; auto]|apply s_work_last; exact W]|apply s_finish]|apply s_poll; exact RD]|apply s_print].
  - split; [left; reflexivity|]. auto.
Qed.
(** ... and a sequential run that succeeds is one of the schedules *)
Lemma returned c0 s0 coins c s coins' p coins1 : aligned c0 s0 -> all_days finished day (days c0) c0 coins = Ok (p, coins1) -> sequentially c0 s0 coins = Ok ((c, s), coins') ->
  exists w, run_to SListen c0 s0 coins w /\ w_cpc w = CDone c /\ w_spc w = SDone s.
Proof.
  intros AL E X. destruct every_schedule_of as (_ & _ & _ & B & _ & CM & _).
  assert (R : run_to SListen c0 s0 coins (initial s0 p SListen coins1)) by (split; auto; exists p, coins1; split; auto; constructor).
  destruct (CM _ _ _ _ _ R) as (w & _ & R' & ST). destruct (B _ _ _ _ _ _ _ AL X R' ST) as (B1 & _ & B2 & _). eauto.
Qed.
Lemma starts c0 s0 coins v : sequentially c0 s0 coins = Ok v -> exists p coins1, all_days finished day (days c0) c0 coins = Ok (p, coins1).
Proof. unfold sequentially. rewrite (serial_days (handle_all work advance) finished day both same). destruct (all_days _ _ _ _ _) as [[p t]| | |]; try discriminate. eauto. Qed.
End Spec.

(** ** The protocols *)
Section Addition.
Variables (Gr : group) (hash : Z -> list bool) (pk : pubkey Gr) (sk0 sk1 : Z).
Variables (csize : client_msg Gr -> Z) (ssize : server_msg Gr -> Z).
Variable dec_string : Z -> string.
Variables (n : Z) (pai0 pai1 : pub) (psk0 psk1 : Z).
(** both programs are on the same day of the same number of days *)
Definition aligned {A R EL} (c : client Gr A R) (s : server EL) : Prop := cl_total c = sv_total s /\ cl_day c = sv_day s.
Notation ca_work := (np_work csize ssize (ca_gen2 hash pk sk1)).
Notation psi_work := (np_work csize ssize (psi_gen2 hash pk sk1)).
Notation sum_work := (OnceModel.sum_work sk1 csize ssize (sum_gen2 hash pk sk1)).
Notation ss_work := (OnceModel.ss_work csize ssize (ss_gen2 hash pk sk1 pai1) (fun c p => thr_decrypt n psk1 c p)).
Ltac ends_by L := intros c0 s0 coins st coins' (AL1 & AL2) RD; eapply (days_end _ L); [exact RD|exact AL1|exact AL2|cbn [fst]; lia].
Theorem C60_cardinality : every_schedule ca_work sv_finish_day sv_finished cl_finished (ca_client hash pk sk0) (@cl_total Gr Z Z)
  (ca_day hash pk sk0 sk1 csize ssize) aligned.
Proof. apply every_schedule_of; [apply np_closed|apply np_early|intros; apply ca_same|]. ends_by (ca_next hash pk sk0 sk1 csize ssize). Qed.
Theorem C60_intersection : every_schedule psi_work sv_finish_day sv_finished cl_finished (psi_client hash pk sk0 dec_string) (@cl_total Gr Z (psi_out (Gr := Gr)))
  (psi_day hash pk sk0 sk1 csize ssize dec_string) aligned.
Proof. apply every_schedule_of; [apply np_closed|apply np_early|intros; apply psi_same|]. ends_by (psi_next hash pk sk0 sk1 csize ssize dec_string). Qed.
Theorem C60_sum : every_schedule sum_work sv_finish_day sv_finished cl_finished (sum_client hash pk sk0) (@cl_total Gr (Z * Z) (Z * Z))
  (sum_day hash pk sk0 sk1 csize ssize) aligned.
Proof. apply every_schedule_of; [apply sum_closed|apply sum_early|intros; apply sum_same|]. ends_by (sum_next hash pk sk0 sk1 csize ssize). Qed.
Theorem C60_shares : every_schedule ss_work sv_finish_day sv_finished cl_finished (ss_client hash pk sk0 n pai0 psk0) (@cl_total Gr (Z * Z) (list Z))
  (ss_day hash pk sk0 sk1 csize ssize n pai0 pai1 psk0 psk1) aligned.
Proof. apply every_schedule_of; [apply ss_closed|apply ss_early|intros; apply ss_same|]. ends_by (ss_next hash pk sk0 sk1 csize ssize n pai0 pai1 psk0 psk1). Qed.

(** ** ... and so the results hold for every schedule *)
Notation start_of o := (PropsAdd.initial Gr _ _ _ _ o).
Theorem C60_cardinality_result : forall stash node d0 d1 sp coins w c,
  setting Gr hash pk sk0 sk1 -> length d1 = length d0 -> proper (fun x => x) d0 -> proper (fun x => x) d1 ->
  let '(c0, s0) := PropsAdd.initial Gr stash node d0 d1 0%Z in
  run_to ca_work sv_finish_day sv_finished cl_finished (ca_client hash pk sk0) (@cl_total Gr Z Z) sp c0 s0 coins w -> w_cpc w = CDone c ->
  exists found, partly (common (fun x => x) (concat d0) (concat d1)) found (no_loss (cl_my c) (sv_my (w_s w))) /\ cl_out c = Z.of_nat (length found).
Proof.
  intros stash node d0 d1 sp coins w c ST L P0 P1. unfold PropsAdd.initial. intros R D. destruct C60_cardinality as (X & _). specialize (X _ _ _ _ _ _ R D).
  pose proof (C16_cardinality Gr hash pk sk0 sk1 csize ssize stash node d0 d1 (length d0) coins ST L P0 P1) as Y. unfold PropsAdd.initial in Y.
  unfold sequentially in X. change (cl_total (client_new stash node (length d0) d0 0%Z)) with (length d0) in X. rewrite X in Y. cbn [ends_well] in Y. destruct Y as (Y1 & _ & found & Y2 & Y3).
  rewrite Nat.min_id in Y1. rewrite Y1 in Y2. unfold upto in Y2. rewrite <- L in Y2 at 2. rewrite !firstn_all in Y2. eauto.
Qed.
Theorem C60_intersection_result : forall stash node d0 d1 sp coins w c,
  setting Gr hash pk sk0 sk1 -> length d1 = length d0 -> proper (fun x => x) d0 -> proper (fun x => x) d1 ->
  let '(c0, s0) := PropsAdd.initial Gr stash node d0 d1 (([], []) : psi_out (Gr := Gr)) in
  run_to psi_work sv_finish_day sv_finished cl_finished (psi_client hash pk sk0 dec_string) (@cl_total Gr Z (psi_out (Gr := Gr))) sp c0 s0 coins w -> w_cpc w = CDone c ->
  exists found, partly (common (fun x => x) (concat d0) (concat d1)) found (no_loss (cl_my c) (sv_my (w_s w))) /\ snd (cl_out c) = map dec_string found.
Proof.
  intros stash node d0 d1 sp coins w c ST L P0 P1. unfold PropsAdd.initial. intros R D. destruct C60_intersection as (X & _). specialize (X _ _ _ _ _ _ R D).
  pose proof (C17_intersection Gr hash pk sk0 sk1 csize ssize dec_string stash node d0 d1 (length d0) coins ST L P0 P1) as Y. unfold PropsAdd.initial in Y.
  unfold sequentially in X. match type of X with context [cl_total ?k] => change (cl_total k) with (length d0) in X end. rewrite X in Y. cbn [ends_well] in Y. destruct Y as (Y1 & _ & found & Y2 & Y3).
  rewrite Nat.min_id in Y1. rewrite Y1 in Y2. unfold upto in Y2. rewrite <- L in Y2 at 2. rewrite !firstn_all in Y2. eauto.
Qed.
Theorem C60_sum_result : forall stash node d0 d1 sp coins w c,
  setting Gr hash pk sk0 sk1 -> length d1 = length d0 -> proper fst d0 -> proper (fun x => x) d1 ->
  Forall (fun a => (0 <= snd a)%Z) (concat d0) -> (total (map snd (concat d0)) < ord Gr)%Z -> (Z.of_nat (length d0) < 2 ^ 31)%Z ->
  let '(c0, s0) := PropsAdd.initial Gr stash node d0 d1 (0%Z, 0%Z) in
  run_to sum_work sv_finish_day sv_finished cl_finished (sum_client hash pk sk0) (@cl_total Gr (Z * Z) (Z * Z)) sp c0 s0 coins w -> w_cpc w = CDone c ->
  exists found, partly (common fst (concat d0) (concat d1)) found (no_loss (cl_my c) (sv_my (w_s w))) /\
    fst (cl_out c) = Z.of_nat (length found) /\ snd (cl_out c) = total (map snd found).
Proof.
  intros stash node d0 d1 sp coins w c ST L P0 P1 NN TT DD. unfold PropsAdd.initial. intros R D. destruct C60_sum as (X & _). specialize (X _ _ _ _ _ _ R D).
  pose proof (C18_sum Gr hash pk sk0 sk1 csize ssize stash node d0 d1 (length d0) coins ST L P0 P1 NN TT DD) as Y. unfold PropsAdd.initial in Y.
  unfold sequentially in X. match type of X with context [cl_total ?k] => change (cl_total k) with (length d0) in X end. rewrite X in Y. cbn [ends_well] in Y. destruct Y as (Y1 & _ & (found & Y2 & Y3 & Y4) & _).
  rewrite Nat.min_id in Y1. rewrite Y1 in Y2. unfold upto in Y2. rewrite <- L in Y2 at 2. rewrite !firstn_all in Y2. eauto.
Qed.
(** party one's shares are those it prints *)
Theorem C60_shares_result : forall p q bits kt kt' stash node raw d1 sp coins w c report,
  setting Gr hash pk sk0 sk1 -> prime p -> prime q -> p <> q -> threshold_keygen p q bits kt = Ok ((n, psk0, psk1), kt') ->
  thr_object n pai0 -> thr_object n pai1 -> length d1 = length raw -> proper fst raw -> proper (fun x => x) d1 ->
  let '(c0, s0) := PropsAdd.initial Gr stash node (map (map ss_payload) raw) d1 [] in
  run_to ss_work sv_finish_day sv_finished cl_finished (ss_client hash pk sk0 n pai0 psk0) (@cl_total Gr (Z * Z) (list Z)) sp c0 s0 coins w ->
  w_cpc w = CDone c -> printed w report ->
  length (cl_out c) = length (sv_shares report) /\
  exists found, partly (map fst (common fst (concat raw) (concat d1))) found (no_loss (cl_my c) (sv_my report)) /\
    map (fun ab => ((fst ab + snd ab) mod n)%Z) (combine (cl_out c) (sv_shares report)) = found.
Proof.
  intros p q bits kt kt' stash node raw d1 sp coins w c report ST PP PQ NE KG T0 T1 L P0 P1. unfold PropsAdd.initial. intros R D PR. destruct C60_shares as (X & X' & _). specialize (X _ _ _ _ _ _ R D).
  destruct (X' _ _ _ _ _ _ R PR) as (_ & _ & X2). specialize (X2 _ _ _ X). rewrite <- X2 in X. clear X2.
  pose proof (C19_shares Gr hash pk sk0 sk1 csize ssize p q bits kt n psk0 psk1 kt' pai0 pai1 stash node raw d1 (length raw) coins ST PP PQ NE KG T0 T1 L P0 P1) as Y. cbv zeta in Y. unfold PropsAdd.initial in Y.
  unfold sequentially in X. match type of X with context [cl_total ?k] => change (cl_total k) with (length (map (map ss_payload) raw)) in X end. rewrite map_length in X, Y. rewrite X in Y. cbn [ends_well] in Y.
  destruct Y as (Y1 & _ & Y0 & found & Y2 & Y3). split; auto.
  rewrite Nat.min_id in Y1. rewrite Y1 in Y2. unfold upto in Y2. rewrite <- L in Y2 at 2. rewrite !firstn_all in Y2. eauto.
Qed.
End Addition.

Section Original.
Import OrigModel PropsOrig.
Variables (Gr : group) (hash : Z -> list bool) (H : Z -> Gr) (dec_string : Z -> string) (pk0 pk1 : pubkey Gr) (sk0 sk1 : Z).
Variables (csize : og_req Gr -> Z) (ssize : og_reply Gr -> Z).
Definition og_aligned (c : og_client) (s : og_server Gr) : Prop := oc_total c = og_total s /\ oc_day c = og_day s.
Notation work := (og_work hash H dec_string pk0 pk1 sk0 csize ssize).
Theorem C60_original : every_schedule work og_finish_day og_finished oc_finished (og_client_day hash H pk0 pk1 sk1) oc_total
  (og_day_run hash H dec_string pk0 pk1 sk0 sk1 csize ssize) og_aligned.
Proof.
  apply every_schedule_of; [apply og_closed|apply og_early|intros; apply og_same|].
  intros c0 s0 coins st coins' (AL1 & AL2) RD; eapply og_days_end; [exact RD|exact AL1|exact AL2|cbn [fst]; lia].
Qed.
(** the server, party zero, prints the intersection, whether or not party one has returned *)
Theorem C60_original_result : forall stash node d0 d1 sp coins w report v,
  og_setting Gr hash pk0 pk1 sk0 sk1 -> length d1 = length d0 -> proper (fun x => x) d0 -> proper (fun x => x) d1 -> no_collision Gr H d0 d1 ->
  let '(c0, s0) := og_initial Gr stash node d0 d1 in
  sequentially oc_finished oc_total (og_day_run hash H dec_string pk0 pk1 sk0 sk1 csize ssize) c0 s0 coins = Ok v ->
  run_to work og_finish_day og_finished oc_finished (og_client_day hash H pk0 pk1 sk1) oc_total sp c0 s0 coins w -> printed w report ->
  exists found, partly (common (fun x => x) (concat d0) (concat d1)) found (no_overflow (oc_tree (fst (fst v)))) /\ og_inter report = map dec_string found.
Proof.
  intros stash node d0 d1 sp coins w report v ST L P0 P1 NC. unfold og_initial. intros X R PR. destruct C60_original as (_ & X' & _).
  destruct (X' _ _ _ _ _ _ R PR) as (_ & _ & X2). destruct v as [[c s] t]. specialize (X2 _ _ _ X). subst s.
  pose proof (C23_original_intersection Gr hash H dec_string pk0 pk1 sk0 sk1 csize ssize stash node d0 d1 (length d0) coins ST L P0 P1 NC) as Y. unfold og_run, og_initial in Y.
  unfold sequentially in X. change (oc_total (oc_new stash node (length d0) d1)) with (length d0) in X. rewrite X in Y. cbn [ends_well] in Y. destruct Y as (_ & Y1 & found & Y2 & Y3).
  rewrite Nat.min_id in Y1. rewrite Y1 in Y2. unfold upto in Y2. rewrite <- L in Y2 at 2. rewrite !firstn_all in Y2. eauto.
Qed.
End Original.

(** ** Examples: cardinality; two days, then one day *)
Section Examples.
Local Open Scope Z_scope.
Notation ca_ex_work := (np_work zero_size zero_size (ca_gen2 ex_bits ex_pk 9)).
Notation ca_ex_run sp d0 d1 w := (run_to ca_ex_work sv_finish_day sv_finished cl_finished (ca_client ex_bits ex_pk 4) (@cl_total exG Z Z) sp
  (fst (PropsAdd.initial (E := ct exG) exG 2 2 d0 d1 0)) (snd (PropsAdd.initial (A := Z) (R := Z) exG 2 2 d0 d1 0)) ex_tape w).
Notation ex_seq := (sequentially cl_finished (@cl_total exG Z Z) (ca_day ex_bits ex_pk 4 9 zero_size zero_size)
  (fst (PropsAdd.initial (E := ct exG) exG 2 2 ex_d0 ex_d1 0)) (snd (PropsAdd.initial (A := Z) (R := Z) exG 2 2 ex_d0 ex_d1 0)) ex_tape).
Lemma ex_seq_ok : match ex_seq with Ok ((c, s), _) => (cl_out c =? 3) && (cl_day c =? 2)%nat | _ => false end = true.
Proof. vm_cast_no_check (eq_refl true). Qed.
Lemma of_seq (o : outcome ((client exG Z Z * server (ct exG)) * tape)) : match o with Ok ((c, s), _) => (cl_out c =? 3) && (cl_day c =? 2)%nat | _ => false end = true ->
  exists c s t, o = Ok ((c, s), t) /\ cl_out c = 3.
Proof. destruct o as [[[c s] t]| | |]; try discriminate. intros X. exists c, s, t. split; auto. lia. Qed.
Lemma ca_runs c0 s0 coins c s t : aligned exG c0 s0 ->
  sequentially cl_finished (@cl_total exG Z Z) (ca_day ex_bits ex_pk 4 9 zero_size zero_size) c0 s0 coins = Ok ((c, s), t) ->
  exists w, run_to ca_ex_work sv_finish_day sv_finished cl_finished (ca_client ex_bits ex_pk 4) (@cl_total exG Z Z) SListen c0 s0 coins w /\ w_cpc w = CDone c /\ w_spc w = SDone s.
Proof.
  intros AL E.
  destruct (starts ca_ex_work sv_finish_day cl_finished (ca_client ex_bits ex_pk 4) (@cl_total exG Z Z) _ (ca_same ex_bits ex_pk 4 9 zero_size zero_size) _ _ _ _ E) as (p & t1 & E1).
  eapply (returned ca_ex_work sv_finish_day sv_finished cl_finished (ca_client ex_bits ex_pk 4) (@cl_total exG Z Z) (ca_day ex_bits ex_pk 4 9 zero_size zero_size)
    (np_closed zero_size zero_size (ca_gen2 ex_bits ex_pk 9)) (np_early zero_size zero_size (ca_gen2 ex_bits ex_pk 9)) (ca_same ex_bits ex_pk 4 9 zero_size zero_size) (aligned exG)); [|exact AL|exact E1|exact E].
  intros c1 s1 coins1 st coins' (AL1 & AL2) RD. eapply (days_end _ (ca_next ex_bits ex_pk 4 9 zero_size zero_size)); [exact RD|exact AL1|exact AL2|cbn [fst]; lia].
Qed.
Example ex_C60_cardinality : exists w c s, ca_ex_run SListen ex_d0 ex_d1 w /\ w_cpc w = CDone c /\ cl_out c = 3 /\ w_spc w = SDone s.
Proof.
  destruct (of_seq ex_seq ex_seq_ok) as (c & s & t & E & O).
  destruct (ca_runs (fst (PropsAdd.initial (E := ct exG) exG 2 2 ex_d0 ex_d1 0)) (snd (PropsAdd.initial (A := Z) (R := Z) exG 2 2 ex_d0 ex_d1 0)) ex_tape c s t) as (w & R & W1 & W2).
  - split; reflexivity.
  - exact E.
  - exists w, c, s. auto.
Qed.
(** the server has printed its report and waits in Shutdown, the last reply is on its way *)
Definition ex_first (o : outcome (client_prog (client_msg exG) (option (server_msg exG)) (client exG Z Z) * tape)) : bool :=
  match o with
  | Ok (Call r _, t) => match ca_ex_work r (snd (PropsAdd.initial (A := Z) (R := Z) exG 2 2 [[3; 8]] [[8; 4]] 0)) (even_coins t) with
                        | (s, Ok (_, true)) => sv_finished (sv_finish_day s) | _ => false end
  | _ => false end.
Lemma ex_first_ok : ex_first (all_days cl_finished (ca_client ex_bits ex_pk 4) (@cl_total exG Z Z (fst (PropsAdd.initial (E := ct exG) exG 2 2 [[3; 8]] [[8; 4]] 0))) (fst (PropsAdd.initial (E := ct exG) exG 2 2 [[3; 8]] [[8; 4]] 0)) ex_tape) = true.
Proof. vm_cast_no_check (eq_refl true). Qed.
Lemma of_first o : ex_first o = true -> exists r k t s p, o = Ok (Call r k, t) /\
  ca_ex_work r (snd (PropsAdd.initial (A := Z) (R := Z) exG 2 2 [[3; 8]] [[8; 4]] 0)) (even_coins t) = (s, Ok (p, true)) /\ sv_finished (sv_finish_day s) = true.
Proof.
  unfold ex_first. destruct o as [[[c|r k] t]| | |]; try discriminate. destruct (np_work _ _ _ _ _ _) as [s [[p [|]]| | |]] eqn:W; try discriminate. intros X. exists r, k, t, s, p. auto.
Qed.
Example ex_C60_printed_first : exists w report k p, ca_ex_run SListen [[3; 8]] [[8; 4]] w /\ printed w report /\ w_cpc w = CWait k /\ w_hpc w = HReply (Ok p).
Proof.
  destruct (of_first _ ex_first_ok) as (r & k & t & s & p & E1 & E2 & E3).
  destruct (printed_first ca_ex_work sv_finish_day sv_finished cl_finished (ca_client ex_bits ex_pk 4) (@cl_total exG Z Z) _ _ _ _ _ _ _ _ E1 E2 E3) as (w & R & P & W1 & W2).
  exists w, (sv_finish_day s), k, p. auto.
Qed.
(** the client is started first: party one waits for ever *)
Example ex_C60_too_early : exists w, ca_ex_run SStart [[3; 8]] [[8; 4]] w /\ w_cpc w = CFailed /\ w_spc w = SListen.
Proof.
  destruct (of_first _ ex_first_ok) as (r & k & t & s & p & E1 & _).
  destruct (C60_cardinality exG ex_bits ex_pk 4 9 zero_size zero_size) as (_ & _ & _ & _ & _ & _ & _ & X).
  destruct (X _ (snd (PropsAdd.initial (A := Z) (R := Z) exG 2 2 [[3; 8]] [[8; 4]] 0)) _ _ _ _ E1 eq_refl) as (w & R & _ & W1 & W2). exists w. auto.
Qed.
End Examples.
Print Assumptions C60_cardinality.
Print Assumptions C60_intersection.
Print Assumptions C60_sum.
Print Assumptions C60_shares.
Print Assumptions C60_original.
Print Assumptions C60_cardinality_result.
Print Assumptions C60_intersection_result.
Print Assumptions C60_sum_result.
Print Assumptions C60_shares_result.
Print Assumptions C60_original_result.
