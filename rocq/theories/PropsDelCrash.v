(** * The deletion-psi run on generated data, and its programs, do not crash either,
    with the exception of C22_no_crash: a value of exactly 2^63 among those party
    zero opens (party_zero.cc:99-103).  Models: DelSetupModel.v (C56),
    DelProgModel.v (C69), NetModel.v (C71). *)
Require Import List Arith Lia ZArith Permutation Bool Znumtheory.
Import ListNotations.
From Verif Require Import Prelude NumTheory TreeModel TreeDelModel TreeSpec TreeHistory TreeDelSpec TreeDelProofs Coins Group ElGamalModel BytesModel BytesProofs ContextModel CipherModel PaillierModel PaillierProofs PropsPaillier WireModel SyncModel SyncSpec SyncProofs KindProofs PropsSync FlagModel CsvModel CsvSpec CsvProofs DataModel DataSpec DataProofs PropsData AddModel AddSpec AddRun PropsAdd DelModel DelSpec DelProofs DelRun BigPrime PropsDel PsiModel PsiSpec PsiSets PsiRun PropsPsi PropsPsiCrash SetupModel SetupProofs FileModel FileSpec FileProofs PropsFile KeyModel KeyProofs PropsKeys DeployModel DeployProofs DataDelProofs PropsDataDel DelSetupModel DelSetupProofs PropsDelSetup ProgModel ProgProofs PropsProg DelProgModel PropsDelProg.
From Verif Require NetModel PropsNet.
Local Open Scope Z_scope.

Section Run.
Context {Gr : group}.
Variables (hash : Z -> list bool) (circuit_input : Z -> outcome (list bool)).
Variables (p0 q0 p1 q1 : Z) (P0 P1 : pub) (V0 V1 : priv).
Notation n0 := (p0 * q0). Notation n1 := (p1 * q1).
Notation "'the_run' st k tp" := (run_trace (PsiModel.psi_day2 (Gr := Gr) hash circuit_input P0 P1 V0 V1) k st tp) (at level 10, st at level 9, k at level 9, tp at level 9).
(** [opens_2_63] on a day as in C22; the days count from the initial sets *)
Notation stopped l0 l1 k st coins s0 := (DelSpec.holds (pg_my (ps_party s0)) (upto 1 l1) -> stopped_by_2_63 (Gr := Gr) hash circuit_input P0 P1 V0 V1 (fun i day => lucky_psi_day circuit_input p0 q0 p1 q1 l0 l1 (S i) day) k st coins).
Lemma crash_of_facts stash node days daily start max_value d k tp2 tree0 tree1 D0 D1 h0 h1 l0 l1 a0 o0 a1 o1 :
  del_request hash p0 q0 p1 q1 P0 P1 V0 V1 stash node days daily start max_value -> 2 ^ 65 <= n0 -> 2 ^ 65 <= n1 -> Z.of_nat k <= days ->
  del_facts (Gr := Gr) hash stash node n0 n1 days start (u32 max_value) PSI d tree0 tree1 D0 D1 h0 h1 l0 l1 ->
  no_zero_element tree0 h0 -> no_zero_element tree1 h1 -> (forall x, returns (circuit_input x)) ->
  del_trees_for stash node import_del_zero (dd_trees d) = Ok (a0, o0) -> del_trees_for stash node import_del_one (dd_trees d) = Ok (a1, o1) ->
  let st := psi_start_with stash node (a0, o0) (a1, o1) (tl l0) (tl l1) in
  match the_run st k tp2 with
  | Ok _ | Err _ => True
  | Abort => False
  | UB => stopped l0 l1 k st tp2 (snd (fst st))
  end.
Proof.
  intros RQ N0 N1 LK F Z0 Z1 CI T0 T1 st.
  destruct RQ as ((HH & K0 & K1) & S1 & S2 & U1 & U2 & U3 & DP & SM & B0 & B1 & M0 & M1).
  assert (UM : uint32 (u32 max_value)) by (apply Z.mod_pos_bound; reflexivity).
  destruct (psi_facts hash circuit_input p0 q0 p1 q1 _ _ _ _ _ _ _ _ _ _ _ _ _ _ F UM Z0 Z1) as (PH0 & PH1 & LG0 & LG1 & DO0 & DO1 & NR & CN & SC).
  set (g0 := number_history (with_first tree0 h0)) in *. set (g1 := number_history (with_first tree1 h1)) in *.
  pose proof F as [A1 A2 A3 A4 A5 A6 A7 A8 A9 C1 C2 C3 C4 C5 C6 PS LO0 LO1 TR _ CH].
  destruct TR as (x0 & y0 & x1 & y1 & Q0 & Q1 & R0 & R1 & MI0 & MI1 & NEW).
  rewrite T0 in Q0. apply Ok_inj' in Q0. apply pair_equal_spec in Q0 as (E1 & E2). subst x0 y0. rewrite T1 in Q1. apply Ok_inj' in Q1. apply pair_equal_spec in Q1 as (E1 & E2). subst x1 y1.
  assert (NE0 : l0 <> []) by (rewrite C1; discriminate). assert (NE1 : l1 <> []) by (rewrite C2; discriminate).
  pose proof (pinv_deployed hash p0 q0 p1 q1 l0 l1 stash node a0 o0 a1 o1 NE0 NE1 R0 R1 MI0 MI1) as PI. cbv zeta in PI. fold st in PI.
  assert (L0 : length l0 = length g0) by (destruct DO0 as (FF & _); clear - FF; induction FF; cbn; lia).
  assert (L1 : length l1 = length g1) by (destruct DO1 as (FF & _); clear - FF; induction FF; cbn; lia).
  assert (PR0 : proper_signed n1 (halves l0)) by (apply (proper_halves (fun x => x) n1 l0 g0); auto).
  assert (PR1 : proper_signed n0 (halves l1)) by (apply (proper_halves (fun _ => 1) n0 l1 g1); auto; intros; lia).
  pose proof (never_2_63 g0 g1 l0 l1 PH0 PH1 (proj1 DO0) (proj1 DO1) ltac:(lia)) as BAD.
  pose proof (trace_crash (Gr := Gr) hash circuit_input HH p0 q0 p1 q1 P0 P1 V0 V1 K0 K1 l0 l1 PR0 PR1 ltac:(lia) N0 CI 1 BAD k 1
    (fst (fst st)) (snd (fst st)) (snd st) tp2 ltac:(lia) PI) as X.
  change (fst (fst st), snd (fst st), snd st) with st in X.
  destruct (the_run st k tp2) as [[tr tp']| | |]; auto. destruct X as (m & trace & tp' & day & LM & E & OP & N). intros HS. exists m, trace, tp', day. split; [exact LM|]. split; [exact E|]. split; [exact OP|].
  intros LU. apply N; [apply holds_first; auto|]. exact LU.
Qed.

(** C56.  Deletion-psi on the data of the setup program ends well or with an error,
    or crashes on a day on which party zero opens 2^63, and then that day or an
    earlier one was not lucky (or the initial tree does not hold the initial set). *)
Theorem C56_psi_no_crash : forall stash node days daily start max_value coins d coins1 k coins2,
  del_request hash p0 q0 p1 q1 P0 P1 V0 V1 stash node days daily start max_value -> 2 ^ 65 <= n0 -> 2 ^ 65 <= n1 -> (forall x, returns (circuit_input x)) ->
  del_generate (Gr := Gr) hash V0 V1 stash node days daily start max_value PSI coins = Ok (d, coins1) -> Z.of_nat k <= days ->
  exists tree0 tree1 h0 h1, generated d days start tree0 tree1 h0 h1 /\
  (no_zero_element tree0 h0 -> no_zero_element tree1 h1 ->
  let l0 := history_of (rows tree0) h0 in let l1 := history_of (rows tree1) h1 in
  (* a run of no days: the state the parties start with *)
  exists st, psi_deployed_run hash P0 P1 V0 V1 stash node circuit_input d 0 coins2 = Ok ((st, []), coins2) /\
  match psi_deployed_run hash P0 P1 V0 V1 stash node circuit_input d k coins2 with
  | Ok _ | Err _ => True
  | Abort => False
  | UB => stopped l0 l1 k st coins2 (snd (fst st))
  end).
Proof.
  intros stash node days daily start max_value tp d tp1 k tp2 RQ N0 N1 CI EG LK.
  pose proof (facts_generated (Gr := Gr) hash p0 q0 p1 q1 P0 P1 V0 V1 stash node days daily start max_value PSI tp RQ) as X. rewrite EG in X.
  destruct X as (t0 & t1 & D0 & D1 & h0 & h1 & l0 & l1 & F & G & EL0 & EL1). exists t0, t1, h0, h1. split; auto. intros Z0 Z1. cbv zeta. rewrite <- EL0, <- EL1.
  pose proof (df_load0 _ _ _ _ _ _ _ _ _ _ _ _ _ _ _ _ _ _ F) as LO0. pose proof (df_load1 _ _ _ _ _ _ _ _ _ _ _ _ _ _ _ _ _ _ F) as LO1.
  destruct (df_trees _ _ _ _ _ _ _ _ _ _ _ _ _ _ _ _ _ _ F) as (a0 & o0 & a1 & o1 & T0 & T1 & _).
  pose proof (crash_of_facts stash node days daily start max_value d k tp2 t0 t1 D0 D1 h0 h1 l0 l1 a0 o0 a1 o1 RQ N0 N1 LK F Z0 Z1 CI T0 T1) as X. cbv zeta in X.
  assert (E : forall j, psi_deployed_run hash P0 P1 V0 V1 stash node circuit_input d j tp2 = (trace <- run_trace (PsiModel.psi_day2 (Gr := Gr) hash circuit_input P0 P1 V0 V1) j (psi_start_with stash node (a0, o0) (a1, o1) (tl l0) (tl l1)) ;; ret (psi_start_with stash node (a0, o0) (a1, o1) (tl l0) (tl l1), trace)) tp2).
  { intros j. unfold psi_deployed_run. unfold bind at 1, lift at 1. rewrite LO1. unfold bind at 1, lift at 1. rewrite T1. unfold bind at 1, lift at 1. rewrite LO0. unfold bind at 1, lift at 1. rewrite T0. reflexivity. }
  rewrite !E. eexists. split; [reflexivity|]. unfold bind, ret. destruct (run_trace _ k _ tp2) as [[tr tp']| | |]; auto.
Qed.
End Run.

(** ** The programs *)
Section Programs.
Context {Gr : group}.
Variables (cppub : codec ppub_msg) (cpsec : codec psec_msg).
Variables (cpt : codec (tree_file pnode)) (cet : codec (tree_file (list (welem Gr)))).
Variable hash : Z -> list bool.
Variables stash node : nat.
Variable two_k_ary : bool.
Variable fuel : nat.
Hypotheses (Fppub : faithful cppub) (Fpsec : faithful cpsec) (Fpt : faithful cpt) (Fet : faithful cet).
Variables e0 e1 : env.
Hypotheses (R0 : reliable e0) (R1 : reliable e1).
Variable circuit_input : Z -> outcome (list bool).
Notation start_party := (start_del_party cppub cpsec cpt cet stash node two_k_ary fuel).

(** C69.  The same for the programs that read the files of the setup program: if
    the run crashes, both parties had started, and the run from the state they had
    read (trees, data and keys) came to a day on which party zero opened 2^63. *)
Theorem C69_psi_no_crash : forall p0 q0 p1 q1 V0 V1 e data out days daily start max sum sets s,
  del_setting hash stash node two_k_ary p0 q0 p1 q1 V0 V1 days daily start max -> 2 ^ 65 <= p0 * q0 -> 2 ^ 65 <= p1 * q1 -> (forall x, returns (circuit_input x)) ->
  del_set_up cppub cpsec cpt cet hash stash node two_k_ary p0 q0 p1 q1 e data out days daily start max PSI sum sets (sy_world s) ->
  exists tree0 tree1 h0 h1, sets_are sets days start tree0 tree1 h0 h1 /\
  (no_zero_element tree0 h0 -> no_zero_element tree1 h1 ->
  let l0 := history_of (rows tree0) h0 in let l1 := history_of (rows tree1) h1 in
  let n := Z.to_nat days in let import := 0 <? start in
  match snd (prog_deletion_psi cppub cpsec cpt cet hash stash node two_k_ary fuel circuit_input e0 e1 data out n import s) with
  | Ok _ | Err _ => True
  | Abort => False
  | UB => exists s1 s2 one zero,
      start_party e1 (p1_dir data) (p1_dir out) n import s = (s1, Ok one) /\
      start_party e0 (p0_dir data) (p0_dir out) n import s1 = (s2, Ok zero) /\
      let st := psi_start_with stash node (dp_trees zero) (dp_trees one) (dp_data zero) (dp_data one) in
      (DelSpec.holds (pg_my (ps_party (snd (fst st)))) (upto 1 l1) ->
       stopped_by_2_63 (Gr := Gr) hash circuit_input (dp_pub one) (dp_pub zero) (dp_priv zero) (dp_priv one)
         (fun i day => lucky_psi_day circuit_input p0 q0 p1 q1 l0 l1 (S i) day) n st (sy_coins s2))
  end).
Proof.
  intros p0 q0 p1 q1 V0 V1 e data out days daily start max sum sets s DS N0 N1 CI SU.
  destruct (del_deployment cppub cpsec cpt cet hash stash node two_k_ary Fpsec _ _ _ _ _ _ _ _ _ _ _ _ _ _ _ _ _ DS SU) as (d & t0 & t1 & D0 & D1 & h0 & h1 & l0 & l1 & SA & EL0 & EL1 & EX & C0 & C1 & F & RQ & HOLD).
  destruct DS as (HH & PV0 & PV1 & IS & IN & U1 & _). exists t0, t1, h0, h1. split; [auto|]. intros Z0 Z1. cbv zeta. rewrite <- EL0, <- EL1.
  pose proof (df_load0 _ _ _ _ _ _ _ _ _ _ _ _ _ _ _ _ _ _ F) as LO0. pose proof (df_load1 _ _ _ _ _ _ _ _ _ _ _ _ _ _ _ _ _ _ F) as LO1.
  destruct (df_trees _ _ _ _ _ _ _ _ _ _ _ _ _ _ _ _ _ _ F) as (a0 & o0 & a1 & o1 & T0 & T1 & _).
  pose proof (del_both cppub cpsec cpt cet stash node two_k_ary fuel Fppub Fpsec Fpt Fet e0 e1 R0 R1 (fun x0 x1 => ret (x0, x1))
    (fun o => match o with Ok (x0, x1) => started p0 q0 p1 q1 V0 V1 (a0, o0) (a1, o1) (tl l0) (tl l1) x0 x1 | Err _ => True | _ => False end)
    data out (Z.to_nat days) start (0 <? start) d p0 q0 p1 q1 V0 V1 (a0, o0) (a1, o1) (tl l0) (tl l1) s) as X.
  do 7 (specialize (X ltac:(auto))). specialize (X ltac:(left; auto)). specialize (X (fun _ => I) (fun x0 x1 _ H => H)). revert X.
  unfold prog_deletion_psi. unfold sbind.
  destruct (start_party e1 (p1_dir data) (p1_dir out) (Z.to_nat days) (0 <? start) s) as [s1 [x1|c| |]] eqn:E1; cbn [snd]; try tauto.
  destruct (start_party e0 (p0_dir data) (p0_dir out) (Z.to_nat days) (0 <? start) s1) as [s2 [x0|c| |]] eqn:E0; cbn [snd]; try tauto.
  unfold rand at 1. cbn [ret snd]. intros (Y0 & Y1 & Q0 & Q1 & Q2 & Q3 & Q4 & Q5).
  pose proof (crash_of_facts hash circuit_input p0 q0 p1 q1 (dp_pub x1) (dp_pub x0) V0 V1 stash node days daily start max d (Z.to_nat days) (sy_coins s2) t0 t1 D0 D1 h0 h1 l0 l1 a0 o0 a1 o1 (RQ _ _ Y0 Y1) N0 N1 ltac:(unfold uint32 in U1; lia) F Z0 Z1 CI T0 T1) as X. cbv zeta in X.
  unfold rand, bind, ret. rewrite <- Q2, <- Q3, <- Q4, <- Q5, <- Q0, <- Q1 in X.
  destruct (run_trace _ _ _ (sy_coins s2)) as [[tr tp']|c| |] eqn:ER; cbn [snd]; auto.
  exists s1, s2, x1, x0. auto.
Qed.
End Programs.

(** ** Over serialized messages *)
(** C71.  The same for the run whose calls are bytes; its state may then be stopped
    by nothing else than an error. *)
Theorem C71_deletion_psi_no_crash : forall (Gr : group) (enc : wpoint Gr -> bytes) (dec : bytes -> wpoint Gr) hash circuit_input p0 q0 p1 q1 P0 P1 V0 V1 h0 h1 d0 d1 stash node k coins,
  (forall w, dec (enc w) = w) -> psi_setting hash p0 q0 p1 q1 P0 P1 V0 V1 h0 h1 d0 d1 -> (k <= length h0)%nat -> (forall x, returns (circuit_input x)) ->
  let start := psi_start stash node d0 d1 in
  match run_trace (NetModel.psi_day_wired enc dec hash circuit_input P0 P1 V0 V1) k start coins with
  | Ok _ | Err _ => True
  | Abort => False
  | UB => stopped_by_2_63 (Gr := Gr) hash circuit_input P0 P1 V0 V1 (lucky_psi_day circuit_input p0 q0 p1 q1 d0 d1) k start coins
  end.
Proof.
  intros Gr enc dec hash ci p0 q0 p1 q1 P0 P1 V0 V1 h0 h1 d0 d1 stash node k coins ED SET LE CI start.
  rewrite (PropsNet.C71_deletion_psi Gr enc dec ED). destruct (PropsNet.none_too_large _); [|exact I]. eapply C22_no_crash; eauto.
Qed.

Print Assumptions C56_psi_no_crash.
Print Assumptions C69_psi_no_crash.
Print Assumptions C71_deletion_psi_no_crash.
