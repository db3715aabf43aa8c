(** * C76: the deletion deployments with limited stack.

    Programs: OwnStackModel.v. *)
Require Import String.
Require Import List Arith Lia ZArith Bool Znumtheory.
Import ListNotations.
From Verif Require Import ShapeSpec ShapeProofs PropsShape StackModel StackProofs StackPsi PropsStack Prelude NumTheory TreeModel TreeDelModel TreeHistory TreeDelSpec TreeDelProofs BytesProofs ContextModel PaillierProofs SyncProofs KindProofs CsvSpec CsvProofs DataProofs DelProofs BigPrime SetupProofs FileProofs DeployProofs DataDelProofs PropsDataDel ProgProofs TreeSpec Coins Group ElGamalModel BytesModel CipherModel PaillierModel PropsPaillier WireModel SyncModel SyncSpec PropsSync FlagModel CsvModel DataModel DataSpec PropsData AddModel AddSpec PropsAdd DelModel DelSpec DelRun PropsDel PsiSpec PsiSets PsiRun PropsPsi SetupModel PropsSetup FileModel FileSpec PropsFile KeyModel KeyProofs PropsKeys DeployModel PropsDeploy DelSetupModel DelSetupProofs PropsDelSetup ProtoModel ProtoCodec PropsProto PropsCodec OnceModel NetModel PropsNet ProgModel PropsProg DelProgModel PropsDelProg PropsPsiCrash PropsDelCrash PsiModel GcModel GcProofs GcCrash PropsGc OwnModel PropsOwn StackModel OwnStackModel.
Local Open Scope Z_scope.

(** ** Specification *)
(** the day's arrays fit: [n0], [n1] the moduli of the two parties, [room] the bytes
    of stack; the positions are those of the sender and of the receiver at each party *)
Definition day_fits_in (z : sizes) (n0 n1 : Z) (room0 room1 : nat) (day : dclient * dserver * (round * round)) : Prop :=
  let '(c, s, _) := day in
  (per_position z n1 * length (pt_x (dc_party c)) <= room0 /\ per_position z n0 * length (pt_y (dc_party c)) <= room0 /\
   per_position z n0 * length (pt_x (ds_party s)) <= room1 /\ per_position z n1 * length (pt_y (ds_party s)) <= room1)%nat.
Definition psi_day_fits_in (z : sizes) (n0 n1 : Z) (room0 room1 : nat) (day : pclient * pserver * day_info) : Prop :=
  let bytes_of n (groups : list (list Z)) := psi_bytes z n (length groups) (list_sum (map (@length _) groups)) in
  let '(c, s, _) := day in
  (bytes_of n1 (pg_x (pc_party c)) <= room0 /\ bytes_of n0 (pg_y (pc_party c)) <= room0 /\
   bytes_of n0 (pg_x (ps_party s)) <= room1 /\ bytes_of n1 (pg_y (ps_party s)) <= room1)%nat.

(** ** Proofs *)
Section Day.
Variables (z : sizes) (room0 room1 : nat).
Context {Gr : group}.
Variables (hash : Z -> list bool) (ci : Z -> outcome (list bool)) (P0 P1 : pub) (V0 V1 : priv).
Variable dh : client_msg Gr -> dserver -> tape -> dserver * outcome (option (server_msg Gr)).
Variable ph : client_msg Gr -> pserver -> tape -> pserver * outcome (option (server_msg Gr)).
Notation own := (del_day_own_by hash ci P0 P1 V0 V1 dh). Notation stk := (del_day_stack_by z room0 room1 hash ci P0 P1 V0 V1 dh).
Notation pown := (psi_day_own_by hash ci P0 P1 V0 V1 ph). Notation pstk := (psi_day_stack_by z room0 room1 hash ci P0 P1 V0 V1 ph).
Lemma by_cases st co : stk st co = own st co \/ stk st co = UB.
Proof.
  unfold del_day_stack_by, del_day_own_by. unfold dbind at 1 3 5. destruct (dc_run_by _ _ _ _ _ co) as [[[c s] co1]| | |]; auto.
  unfold dbind. destruct (del_circuits_cases z room0 room1 ci P0 P1 V0 V1 (dc_party c) (ds_party s) co1) as [(_ & ->)|(_ & [->| ->] & _)]; auto.
Qed.
Lemma by_fits st co st' co' : own st co = Ok (st', co') -> (day_fits z room0 room1 P0 P1 V0 V1 st' /\ stk st co = Ok (st', co')) \/ (~ day_fits z room0 room1 P0 P1 V0 V1 st' /\ stk st co = UB).
Proof.
  intros E. unfold del_day_own_by in E. apply dbind_Ok in E as ([c s] & co1 & E1 & E). apply dbind_Ok in E as ([[rs ors] rr] & co2 & E2 & E).
  apply dret_Ok in E as (-> & ->). unfold day_fits. cbn [fst snd dc_party]. unfold del_day_stack_by, dbind. rewrite E1.
  destruct (del_circuits_cases z room0 room1 ci P0 P1 V0 V1 (dc_party c) (ds_party s) co1) as [(F & EQ)|(F & _ & EQ)]; [left|right]; (split; [exact F|]).
  - rewrite EQ, E2. reflexivity.
  - rewrite (EQ _ E2). reflexivity.
Qed.
Lemma pby_cases st co : pstk st co = pown st co \/ pstk st co = UB.
Proof.
  destruct st as [[c s] di]. unfold psi_day_stack_by, psi_day_own_by. unfold dbind at 1 5 9. destruct (psi_run_own_by _ _ _ _ _ co) as [[[[c1 s1] [m0 m1]] co1]| | |]; auto.
  unfold dbind at 1 4 7. destruct (psi_circuits_cases z room0 room1 ci P0 P1 V0 V1 (pc_party c1) (ps_party s1) co1) as [(_ & ->)|(_ & [->| ->] & _)]; auto.
Qed.
Lemma pby_fits st co st' co' : pown st co = Ok (st', co') -> (pday_fits z room0 room1 P0 P1 V0 V1 st' /\ pstk st co = Ok (st', co')) \/ (~ pday_fits z room0 room1 P0 P1 V0 V1 st' /\ pstk st co = UB).
Proof.
  intros E. destruct st as [[c s] di]. unfold psi_day_own_by in E. apply dbind_Ok in E as ([[c1 s1] [m0 m1]] & co1 & E1 & E). apply dbind_Ok in E as ([[rs0 rs1] [r0 r1]] & co2 & E2 & E).
  assert (F : pday_fits z room0 room1 P0 P1 V0 V1 st' <-> psi_fits z room0 room1 P0 P1 V0 V1 (pc_party c1) (ps_party s1)).
  { apply dbind_Ok in E as (us & co3 & _ & E). apply dbind_Ok in E as (rs & co4 & _ & E). apply dret_Ok in E as (-> & _). reflexivity. }
  unfold psi_day_stack_by. rewrite (dbind_yes _ _ _ _ _ E1). cbv beta iota.
  destruct (psi_circuits_cases z room0 room1 ci P0 P1 V0 V1 (pc_party c1) (ps_party s1) co1) as [(G & EQ)|(G & _ & EQ)]; [left|right]; (split; [tauto|]).
  - rewrite E2 in EQ. rewrite (dbind_yes _ _ _ _ _ EQ). exact E.
  - unfold dbind at 1. rewrite (EQ _ E2). reflexivity.
Qed.
End Day.

Section C76.
Context {Gr : group}.
Variables (enc : wpoint Gr -> bytes) (dec : bytes -> wpoint Gr).
Hypothesis enc_dec : forall w, dec (enc w) = w.
Variables (cppub : codec ppub_msg) (cpsec : codec psec_msg).
Variables (cpt : codec (tree_file pnode)) (cet : codec (tree_file (list (welem Gr)))).
Variable hash : Z -> list bool.
Variables stash node : nat.
Variable two_k_ary : bool.
Variable fuel : nat.
Variable circuit_input : Z -> outcome (list bool).
Variables (z : sizes) (room0 room1 : nat).
Notation own_del e0 e1 := (prog_deletion_own enc dec cppub cpsec cpt cet hash stash node two_k_ary fuel e0 e1).
Notation own_psi e0 e1 := (prog_deletion_psi_own enc dec cppub cpsec cpt cet hash stash node two_k_ary fuel e0 e1).
Notation stack_del e0 e1 data out days trees := (prog_deletion_stack enc dec cppub cpsec cpt cet hash stash node two_k_ary fuel e0 e1 data out days trees circuit_input z room0 room1).
Notation stack_psi e0 e1 data out days trees := (prog_deletion_psi_stack enc dec cppub cpsec cpt cet hash stash node two_k_ary fuel e0 e1 data out days trees circuit_input z room0 room1).

(** C76.  The stack changes nothing but whether the programs survive: with C75,
    what they announce is right whatever there is. *)
Lemma same_start {A} e0 e1 data out days trees (d w : del_party -> del_party -> D A) : (forall zero o c, w zero o c = d zero o c \/ w zero o c = UB) -> forall f c,
  let start := both_start cppub cpsec cpt cet stash node two_k_ary fuel e0 e1 data out days trees in start w f c = start d f c \/ start w f c = UB.
Proof.
  intros E f c start. unfold start, both_start. destruct (start_del_party _ _ _ _ _ _ _ _ e1 _ _ _ _ _) as [s1 [one|k| |]]; auto. destruct (start_del_party _ _ _ _ _ _ _ _ e0 _ _ _ _ _) as [s0 [zero|k| |]]; auto.
  destruct (E zero one (mkC3 (c_rand c) (sy_coins s0) (sy_coins s1))) as [->| ->]; auto.
Qed.
Lemma same_bind {A B} (d w : D A) (f : A -> D B) c : (w c = d c \/ w c = UB) -> dbind w f c = dbind d f c \/ dbind w f c = UB.
Proof. unfold dbind. intros [->| ->]; auto. Qed.
Theorem C76_same : forall e0 e1 data out days trees w coins,
  (stack_del e0 e1 data out days trees w coins = own_del e0 e1 data out days trees circuit_input w coins \/ stack_del e0 e1 data out days trees w coins = UB) /\
  (stack_psi e0 e1 data out days trees w coins = own_psi e0 e1 data out days trees circuit_input w coins \/ stack_psi e0 e1 data out days trees w coins = UB).
Proof.
  intros. split; apply same_start; intros zero o c; cbv zeta; apply same_bind; apply run_cases; intros; [apply by_cases|apply pby_cases].
Qed.

Hypotheses (Fppub : faithful cppub) (Fpsec : faithful cpsec) (Fpt : faithful cpt) (Fet : faithful cet).
Variables e0 e1 : env.
Hypotheses (R0 : reliable e0) (R1 : reliable e1).
Lemma key_n p q P V : PropsPaillier.paillier_pair p q P V -> pp_n P = p * q /\ pv_n V = p * q.
Proof. intros K. destruct (pair_keyed _ _ _ _ K) as (_ & E & _). destruct K as (_ & f & H). apply priv_new_spec in H. tauto. Qed.
(** what the programs go on with *)
Lemma starts p0 q0 p1 q1 V0 V1 e data out days daily start max func sum sets w co (import : bool) :
  del_setting hash stash node two_k_ary p0 q0 p1 q1 V0 V1 days daily start max ->
  del_set_up cppub cpsec cpt cet hash stash node two_k_ary p0 q0 p1 q1 e data out days daily start max func sum sets w ->
  import = (0 <? start) \/ import = false ->
  match both_start cppub cpsec cpt cet stash node two_k_ary fuel e0 e1 data out (Z.to_nat days) import (fun x0 x1 => dret (x0, x1)) w co with
  | Ok (x0, x1) => PropsPaillier.paillier_pair p0 q0 (dp_pub x1) V0 /\ PropsPaillier.paillier_pair p1 q1 (dp_pub x0) V1 /\ dp_priv x0 = V0 /\ dp_priv x1 = V1
  | Err _ => True | _ => False end.
Proof.
  intros DS SU IM.
  destruct (del_deployment cppub cpsec cpt cet hash stash node two_k_ary Fpsec _ _ _ _ _ _ _ _ _ _ _ _ _ _ _ _ _ DS SU) as (d & t0 & t1 & D0 & D1 & h0 & h1 & l0 & l1 & SA & EL0 & EL1 & EX & C0 & C1 & F & RQ & HOLD).
  destruct DS as (HH & PV0 & PV1 & IS & IN & U1 & U2 & U3 & DP & SM & B0 & B1 & M0 & M1).
  pose proof (df_load0 _ _ _ _ _ _ _ _ _ _ _ _ _ _ _ _ _ _ F) as LO0. pose proof (df_load1 _ _ _ _ _ _ _ _ _ _ _ _ _ _ _ _ _ _ F) as LO1.
  destruct (df_trees _ _ _ _ _ _ _ _ _ _ _ _ _ _ _ _ _ _ F) as (a0 & o0 & a1 & o1 & T0 & T1 & TR).
  pose proof (fun t0 t1 H => own_both cppub cpsec cpt cet stash node two_k_ary fuel Fppub Fpsec Fpt Fet e0 e1 R0 R1 data out (Z.to_nat days) start import d p0 q0 p1 q1 V0 V1 t0 t1 (tl l0) (tl l1) w (fun x0 x1 => dret (x0, x1))
    (fun o => match o with Ok (x0, x1) => started p0 q0 p1 q1 V0 V1 t0 t1 (tl l0) (tl l1) x0 x1 | Err _ => True | _ => False end) co ltac:(auto) ltac:(auto) ltac:(auto) ltac:(auto) ltac:(auto) ltac:(auto) ltac:(auto) H (fun _ => I) (fun x0 x1 _ H => H)) as X.
  destruct IM as [IM|IM].
  - specialize (X (a0, o0) (a1, o1) (or_introl (conj IM (conj T0 T1)))). destruct (both_start _ _ _ _ _ _ _ _ _ _ _ _ _ _ _ _ _) as [[x0 x1]| | |]; auto. destruct X as (A & B & C & DD & _). auto.
  - specialize (X _ _ (or_intror (conj IM (conj eq_refl eq_refl)))). destruct (both_start _ _ _ _ _ _ _ _ _ _ _ _ _ _ _ _ _) as [[x0 x1]| | |]; auto. destruct X as (A & B & C & DD & _). auto.
Qed.
(** A deployment that succeeds with enough stack succeeds with less exactly if
    every day fits; otherwise it crashes, and there is no result. *)
Theorem C76_deletion_stack : forall p0 q0 p1 q1 V0 V1 e data out days daily start max func sum sets w coins (import : bool) first trace,
  del_setting hash stash node two_k_ary p0 q0 p1 q1 V0 V1 days daily start max ->
  del_set_up cppub cpsec cpt cet hash stash node two_k_ary p0 q0 p1 q1 e data out days daily start max func sum sets w ->
  import = (0 <? start) \/ import = false ->
  own_del e0 e1 data out (Z.to_nat days) import circuit_input w coins = Ok (first, trace) ->
  let fits := day_fits_in z (p0 * q0) (p1 * q1) room0 room1 in
  ((forall day, In day trace -> fits day) -> stack_del e0 e1 data out (Z.to_nat days) import w coins = Ok (first, trace)) /\
  ((exists day, In day trace /\ ~ fits day) -> stack_del e0 e1 data out (Z.to_nat days) import w coins = UB).
Proof.
  intros p0 q0 p1 q1 V0 V1 e data out days daily start max func sum sets w co import first trace DS SU IM E fits.
  pose proof (starts _ _ _ _ _ _ _ _ _ _ _ _ _ _ _ _ w co import DS SU IM) as X. revert X E. unfold prog_deletion_stack, prog_deletion_own, both_start.
  destruct (start_del_party _ _ _ _ _ _ _ _ e1 _ _ _ _ _) as [s1 [x1|k| |]]; try discriminate. destruct (start_del_party _ _ _ _ _ _ _ _ e0 _ _ _ _ _) as [s0 [x0|k| |]]; try discriminate.
  cbn [dret]. intros (Y0 & Y1 & -> & ->). cbv zeta. set (c := mkC3 _ _ _). unfold dbind, dret.
  destruct (run_own (del_day_own_by _ _ _ _ _ _ _) _ _ c) as [[tr c']| | |] eqn:ER; try discriminate. intros EQ. injection EQ as <- <-.
  destruct (key_n _ _ _ _ Y0) as (N1 & N2). destruct (key_n _ _ _ _ Y1) as (N3 & N4).
  assert (Q : forall x, day_fits z room0 room1 (dp_pub x1) (dp_pub x0) V0 V1 x <-> fits x).
  { intros [[cc ss] rr]. unfold fits, day_fits_in, day_fits, del_fits, del_need, per_position. cbn [fst snd]. rewrite N1, N2, N3, N4. split; intros (A & B & C & D); repeat split; lia. }
  destruct (run_fits _ _ _ _ (by_fits z room0 room1 hash circuit_input (dp_pub x1) (dp_pub x0) V0 V1 (wired enc dec (del_handle hash (dp_pub x1) V1))) _ _ _ _ _ ER) as [(F & ->)|(F & ->)]; split; intros H; auto.
  - destruct H as (x & IN & NF). rewrite Forall_forall in F. exfalso. apply NF, Q, F, IN.
  - exfalso. apply F. apply Forall_forall. intros x IN. apply Q, H, IN.
Qed.
Theorem C76_psi_stack : forall p0 q0 p1 q1 V0 V1 e data out days daily start max func sum sets w coins (import : bool) first trace,
  del_setting hash stash node two_k_ary p0 q0 p1 q1 V0 V1 days daily start max ->
  del_set_up cppub cpsec cpt cet hash stash node two_k_ary p0 q0 p1 q1 e data out days daily start max func sum sets w ->
  import = (0 <? start) \/ import = false ->
  own_psi e0 e1 data out (Z.to_nat days) import circuit_input w coins = Ok (first, trace) ->
  let fits := psi_day_fits_in z (p0 * q0) (p1 * q1) room0 room1 in
  ((forall day, In day trace -> fits day) -> stack_psi e0 e1 data out (Z.to_nat days) import w coins = Ok (first, trace)) /\
  ((exists day, In day trace /\ ~ fits day) -> stack_psi e0 e1 data out (Z.to_nat days) import w coins = UB).
Proof.
  intros p0 q0 p1 q1 V0 V1 e data out days daily start max func sum sets w co import first trace DS SU IM E fits.
  pose proof (starts _ _ _ _ _ _ _ _ _ _ _ _ _ _ _ _ w co import DS SU IM) as X. revert X E. unfold prog_deletion_psi_stack, prog_deletion_psi_own, both_start.
  destruct (start_del_party _ _ _ _ _ _ _ _ e1 _ _ _ _ _) as [s1 [x1|k| |]]; try discriminate. destruct (start_del_party _ _ _ _ _ _ _ _ e0 _ _ _ _ _) as [s0 [x0|k| |]]; try discriminate.
  cbn [dret]. intros (Y0 & Y1 & -> & ->). cbv zeta. set (c := mkC3 _ _ _). unfold dbind, dret.
  destruct (run_own (psi_day_own_by _ _ _ _ _ _ _) _ _ c) as [[tr c']| | |] eqn:ER; try discriminate. intros EQ. injection EQ as <- <-.
  destruct (key_n _ _ _ _ Y0) as (N1 & N2). destruct (key_n _ _ _ _ Y1) as (N3 & N4).
  assert (B : forall n g, psi_need z n g = psi_bytes z n (length g) (list_sum (map (@length _) g))) by (intros; unfold psi_bytes, psi_need; rewrite sum_concat; lia).
  assert (Q : forall x, pday_fits z room0 room1 (dp_pub x1) (dp_pub x0) V0 V1 x <-> fits x).
  { intros [[cc ss] rr]. unfold fits, psi_day_fits_in, pday_fits, psi_fits. cbn [fst snd]. rewrite !B, N1, N2, N3, N4. tauto. }
  destruct (run_fits _ _ _ _ (pby_fits z room0 room1 hash circuit_input (dp_pub x1) (dp_pub x0) V0 V1 (wired enc dec (PsiModel.psi_handle hash (dp_pub x1) V1))) _ _ _ _ _ ER) as [(F & ->)|(F & ->)]; split; intros H; auto.
  - destruct H as (x & IN & NF). rewrite Forall_forall in F. exfalso. apply NF, Q, F, IN.
  - exfalso. apply F. apply Forall_forall. intros x IN. apply Q, H, IN.
Qed.

(** Without --import: how much is enough, and how little is too little, in terms
    of the numbers of elements of the days, the stash and the node size. *)
Theorem C76_deletion_sizes : forall p0 q0 p1 q1 V0 V1 e data out days daily start max func sum sets w coins,
  del_setting hash stash node two_k_ary p0 q0 p1 q1 V0 V1 days daily start max ->
  del_set_up cppub cpsec cpt cet hash stash node two_k_ary p0 q0 p1 q1 e data out days daily start max func sum sets w ->
  exists tree0 tree1 h0 h1, sets_are sets days start tree0 tree1 h0 h1 /\
  let d0 := map (fun day => map as_number (DataSpec.written day)) h0 in let d1 := map (fun day => map as_number (DataSpec.written day)) h1 in
  forall first trace, own_del e0 e1 data out (Z.to_nat days) false circuit_input w coins = Ok (first, trace) ->
  ((forall j, (j < Z.to_nat days)%nat ->
      (per_position z (p1 * q1) * (length (nth j d0 []) * longest stash node (length (concat (firstn j d1)))) <= Nat.min room0 room1 /\
       per_position z (p0 * q0) * (length (nth j d1 []) * longest stash node (length (concat (firstn (S j) d0)))) <= Nat.min room0 room1)%nat) ->
   stack_del e0 e1 data out (Z.to_nat days) false w coins = Ok (first, trace)) /\
  (forall j, (j < Z.to_nat days)%nat ->
      (concat (firstn j d1) <> [] /\ Nat.min room0 room1 < per_position z (p1 * q1) * (length (nth j d0 []) * stash) \/
       concat (firstn (S j) d0) <> [] /\ Nat.min room0 room1 < per_position z (p0 * q0) * (length (nth j d1 []) * stash))%nat ->
   stack_del e0 e1 data out (Z.to_nat days) false w coins = UB).
Proof.
  intros p0 q0 p1 q1 V0 V1 e data out days daily start max func sum sets w co DS SU.
  destruct (del_deployment cppub cpsec cpt cet hash stash node two_k_ary Fpsec _ _ _ _ _ _ _ _ _ _ _ _ _ _ _ _ _ DS SU) as (d & t0 & t1 & D0 & D1 & h0 & h1 & l0 & l1 & SA & EL0 & EL1 & EX & C0 & C1 & F & RQ & HOLD).
  destruct DS as (HH & PV0 & PV1 & IS & IN & U1 & U2 & U3 & DP & SM & B0 & B1 & M0 & M1). exists t0, t1, h0, h1. split; [auto|]. cbv zeta.
  pose proof (df_load0 _ _ _ _ _ _ _ _ _ _ _ _ _ _ _ _ _ _ F) as LO0. pose proof (df_load1 _ _ _ _ _ _ _ _ _ _ _ _ _ _ _ _ _ _ F) as LO1.
  pose proof (df_proper _ _ _ _ _ _ _ _ _ _ _ _ _ _ _ _ _ _ F) as PS. pose proof (df_len0 _ _ _ _ _ _ _ _ _ _ _ _ _ _ _ _ _ _ F) as LH0. pose proof (df_len1 _ _ _ _ _ _ _ _ _ _ _ _ _ _ _ _ _ _ F) as LH1.
  assert (TL0 : tl l0 = map (fun day => map as_number (DataSpec.written day)) h0) by (rewrite EL0; reflexivity). assert (TL1 : tl l1 = map (fun day => map as_number (DataSpec.written day)) h1) by (rewrite EL1; reflexivity).
  rewrite <- TL0, <- TL1. destruct (PS _ B1 M1) as (PR0 & _). destruct (PS _ B0 M0) as (_ & PR1).
  assert (PT : forall n l, proper_signed n l -> proper_signed n (tl l)).
  { intros n [|a l] (X & Y); [split; auto|]. cbn [tl concat] in *. split; [apply Forall_app in X; apply X|]. unfold int_range in *. rewrite app_length in Y. lia. }
  assert (L0 : length (tl l0) = Z.to_nat days) by (rewrite TL0, map_length; auto). assert (L1 : length (tl l1) = length (tl l0)) by (rewrite L0, TL1, map_length; auto).
  pose proof (own_both cppub cpsec cpt cet stash node two_k_ary fuel Fppub Fpsec Fpt Fet e0 e1 R0 R1 data out (Z.to_nat days) start false d p0 q0 p1 q1 V0 V1 (tree_new stash node, tree_new stash node) (tree_new stash node, tree_new stash node) (tl l0) (tl l1) w (fun x0 x1 => dret (x0, x1))
    (fun o => match o with Ok (x0, x1) => started p0 q0 p1 q1 V0 V1 (tree_new stash node, tree_new stash node) (tree_new stash node, tree_new stash node) (tl l0) (tl l1) x0 x1 | Err _ => True | _ => False end) co ltac:(auto) ltac:(auto) ltac:(auto) ltac:(auto) ltac:(auto) ltac:(auto) ltac:(auto) ltac:(auto) (fun _ => I) (fun x0 x1 _ H => H)) as X.
  intros first trace E. revert X E. unfold prog_deletion_stack, prog_deletion_own, both_start.
  destruct (start_del_party _ _ _ _ _ _ _ _ e1 _ _ _ _ _) as [s1 [x1|k| |]]; try discriminate. destruct (start_del_party _ _ _ _ _ _ _ _ e0 _ _ _ _ _) as [s0 [x0|k| |]]; try discriminate.
  cbn [dret]. intros (Y0 & Y1 & E0 & E1 & E2 & E3 & E4 & E5). rewrite E0, E1, E2, E3, E4, E5. cbv zeta. set (c := mkC3 _ _ _).
  change (del_start_with (tree_new stash node, tree_new stash node) (tree_new stash node, tree_new stash node) (tl l0) (tl l1)) with (del_start stash node (tl l0) (tl l1)).
  unfold dbind, dret. destruct (run_own (del_day_own_by _ _ _ _ _ _ _) _ _ c) as [[tr c']| | |] eqn:ER; try discriminate. intros EQ. injection EQ as <- <-.
  pose proof (below_run _ _ (del_day_below Gr enc dec enc_dec hash circuit_input (dp_pub x1) (dp_pub x0) V0 V1) (Z.to_nat days) (del_start stash node (tl l0) (tl l1)) c) as B.
  destruct B as [B|B]; rewrite ER in B; [|discriminate]. symmetry in B.
  pose proof (proj2 (PT _ _ PR0)) as I0. pose proof (proj2 (PT _ _ PR1)) as I1.
  pose proof (run_fits _ _ _ _ (del_day_fits (Gr := Gr) z room0 room1 circuit_input hash (dp_pub x1) (dp_pub x0) V0 V1) _ _ _ _ _ B) as RD.
  pose proof (run_fits _ _ _ _ (by_fits z room0 room1 hash circuit_input (dp_pub x1) (dp_pub x0) V0 V1 (wired enc dec (del_handle hash (dp_pub x1) V1))) _ _ _ _ _ ER) as RW.
  split.
  - intros BD. assert (SS := C74_deletion_enough (Gr := Gr) hash HH circuit_input p0 q0 p1 q1 (dp_pub x1) (dp_pub x0) V0 V1 Y0 Y1 z room0 room1 stash node (tl l0) (tl l1) (Z.to_nat days) c tr c' L1 I0 I1 ltac:(lia) BD B).
    destruct RD as [(FF & _)|(_ & RD)]; [|rewrite RD in SS; discriminate]. destruct RW as [(_ & ->)|(NF & _)]; [reflexivity|contradiction].
  - intros j LJ BD. assert (SS := C74_deletion_crash (Gr := Gr) hash HH circuit_input p0 q0 p1 q1 (dp_pub x1) (dp_pub x0) V0 V1 Y0 Y1 z room0 room1 stash node (tl l0) (tl l1) (Z.to_nat days) c tr c' j L1 I0 I1 ltac:(lia) LJ BD B).
    destruct RD as [(_ & RD)|(NF & _)]; [rewrite RD in SS; discriminate|]. destruct RW as [(FF & _)|(_ & ->)]; [contradiction|reflexivity].
Qed.
Theorem C76_psi_sizes : forall p0 q0 p1 q1 V0 V1 e data out days daily start max func sum sets w coins,
  del_setting hash stash node two_k_ary p0 q0 p1 q1 V0 V1 days daily start max ->
  del_set_up cppub cpsec cpt cet hash stash node two_k_ary p0 q0 p1 q1 e data out days daily start max func sum sets w ->
  exists tree0 tree1 h0 h1, sets_are sets days start tree0 tree1 h0 h1 /\
  let d0 := map (fun day => map as_number (DataSpec.written day)) h0 in let d1 := map (fun day => map as_number (DataSpec.written day)) h1 in
  forall first trace, own_psi e0 e1 data out (Z.to_nat days) false circuit_input w coins = Ok (first, trace) ->
  ((forall j, (j < Z.to_nat days)%nat ->
      (psi_bytes z (p1 * q1) (length (nth j d0 [])) (length (nth j d0 []) * longest stash node (length (concat (firstn (S j) d1)))) <= Nat.min room0 room1 /\
       psi_bytes z (p0 * q0) (length (nth j d1 [])) (length (nth j d1 []) * longest stash node (length (concat (firstn (S j) d0)))) <= Nat.min room0 room1)%nat) ->
   stack_psi e0 e1 data out (Z.to_nat days) false w coins = Ok (first, trace)) /\
  (forall j, (j < Z.to_nat days)%nat ->
      (concat (firstn j d1) <> [] /\ Nat.min room0 room1 < psi_bytes z (p1 * q1) (length (nth j d0 [])) (length (nth j d0 []) * stash) \/
       concat (firstn j d0) <> [] /\ Nat.min room0 room1 < psi_bytes z (p0 * q0) (length (nth j d1 [])) (length (nth j d1 []) * stash))%nat ->
   stack_psi e0 e1 data out (Z.to_nat days) false w coins = UB).
Proof.
  intros p0 q0 p1 q1 V0 V1 e data out days daily start max func sum sets w co DS SU.
  destruct (del_deployment cppub cpsec cpt cet hash stash node two_k_ary Fpsec _ _ _ _ _ _ _ _ _ _ _ _ _ _ _ _ _ DS SU) as (d & t0 & t1 & D0 & D1 & h0 & h1 & l0 & l1 & SA & EL0 & EL1 & EX & C0 & C1 & F & RQ & HOLD).
  destruct DS as (HH & PV0 & PV1 & IS & IN & U1 & U2 & U3 & DP & SM & B0 & B1 & M0 & M1). exists t0, t1, h0, h1. split; [auto|]. cbv zeta.
  pose proof (df_load0 _ _ _ _ _ _ _ _ _ _ _ _ _ _ _ _ _ _ F) as LO0. pose proof (df_load1 _ _ _ _ _ _ _ _ _ _ _ _ _ _ _ _ _ _ F) as LO1.
  pose proof (df_proper _ _ _ _ _ _ _ _ _ _ _ _ _ _ _ _ _ _ F) as PS. pose proof (df_len0 _ _ _ _ _ _ _ _ _ _ _ _ _ _ _ _ _ _ F) as LH0. pose proof (df_len1 _ _ _ _ _ _ _ _ _ _ _ _ _ _ _ _ _ _ F) as LH1.
  assert (TL0 : tl l0 = map (fun day => map as_number (DataSpec.written day)) h0) by (rewrite EL0; reflexivity). assert (TL1 : tl l1 = map (fun day => map as_number (DataSpec.written day)) h1) by (rewrite EL1; reflexivity).
  rewrite <- TL0, <- TL1. destruct (PS _ B1 M1) as (PR0 & _). destruct (PS _ B0 M0) as (_ & PR1).
  assert (PT : forall n l, proper_signed n l -> proper_signed n (tl l)).
  { intros n [|a l] (X & Y); [split; auto|]. cbn [tl concat] in *. split; [apply Forall_app in X; apply X|]. unfold int_range in *. rewrite app_length in Y. lia. }
  assert (L0 : length (tl l0) = Z.to_nat days) by (rewrite TL0, map_length; auto). assert (L1 : length (tl l1) = length (tl l0)) by (rewrite L0, TL1, map_length; auto).
  pose proof (own_both cppub cpsec cpt cet stash node two_k_ary fuel Fppub Fpsec Fpt Fet e0 e1 R0 R1 data out (Z.to_nat days) start false d p0 q0 p1 q1 V0 V1 (tree_new stash node, tree_new stash node) (tree_new stash node, tree_new stash node) (tl l0) (tl l1) w (fun x0 x1 => dret (x0, x1))
    (fun o => match o with Ok (x0, x1) => started p0 q0 p1 q1 V0 V1 (tree_new stash node, tree_new stash node) (tree_new stash node, tree_new stash node) (tl l0) (tl l1) x0 x1 | Err _ => True | _ => False end) co ltac:(auto) ltac:(auto) ltac:(auto) ltac:(auto) ltac:(auto) ltac:(auto) ltac:(auto) ltac:(auto) (fun _ => I) (fun x0 x1 _ H => H)) as X.
  intros first trace E. revert X E. unfold prog_deletion_psi_stack, prog_deletion_psi_own, both_start.
  destruct (start_del_party _ _ _ _ _ _ _ _ e1 _ _ _ _ _) as [s1 [x1|k| |]]; try discriminate. destruct (start_del_party _ _ _ _ _ _ _ _ e0 _ _ _ _ _) as [s0 [x0|k| |]]; try discriminate.
  cbn [dret]. intros (Y0 & Y1 & E0 & E1 & E2 & E3 & E4 & E5). rewrite E0, E1, E2, E3, E4, E5. cbv zeta. set (c := mkC3 _ _ _).
  change (psi_start_with stash node (tree_new stash node, tree_new stash node) (tree_new stash node, tree_new stash node) (tl l0) (tl l1)) with (psi_start stash node (tl l0) (tl l1)).
  unfold dbind, dret. destruct (run_own (psi_day_own_by _ _ _ _ _ _ _) _ _ c) as [[tr c']| | |] eqn:ER; try discriminate. intros EQ. injection EQ as <- <-.
  pose proof (below_run _ _ (psi_day_below Gr enc dec enc_dec hash circuit_input (dp_pub x1) (dp_pub x0) V0 V1) (Z.to_nat days) (psi_start stash node (tl l0) (tl l1)) c) as B.
  destruct B as [B|B]; rewrite ER in B; [|discriminate]. symmetry in B.
  pose proof (proj2 (PT _ _ PR0)) as I0. pose proof (proj2 (PT _ _ PR1)) as I1.
  pose proof (run_fits _ _ _ _ (psi_day_fits (Gr := Gr) z room0 room1 circuit_input hash (dp_pub x1) (dp_pub x0) V0 V1) _ _ _ _ _ B) as RD.
  pose proof (run_fits _ _ _ _ (pby_fits z room0 room1 hash circuit_input (dp_pub x1) (dp_pub x0) V0 V1 (wired enc dec (PsiModel.psi_handle hash (dp_pub x1) V1))) _ _ _ _ _ ER) as RW.
  split.
  - intros BD. assert (SS := C74_psi_enough (Gr := Gr) hash HH circuit_input p0 q0 p1 q1 (dp_pub x1) (dp_pub x0) V0 V1 Y0 Y1 z room0 room1 stash node (tl l0) (tl l1) (Z.to_nat days) c tr c' I0 I1 BD B).
    destruct RD as [(FF & _)|(_ & RD)]; [|rewrite RD in SS; discriminate]. destruct RW as [(_ & ->)|(NF & _)]; [reflexivity|contradiction].
  - intros j LJ BD. assert (SS := C74_psi_crash (Gr := Gr) hash HH circuit_input p0 q0 p1 q1 (dp_pub x1) (dp_pub x0) V0 V1 Y0 Y1 z room0 room1 stash node (tl l0) (tl l1) (Z.to_nat days) c tr c' j I0 I1 LJ BD B).
    destruct RD as [(_ & RD)|(NF & _)]; [rewrite RD in SS; discriminate|]. destruct RW as [(FF & _)|(_ & ->)]; [contradiction|reflexivity].
Qed.
End C76.

(** ** Examples: the deployment of ex_C75 with 100 and with 3000 bytes of stack *)
Definition ex_stack_go (room : nat) (zero one : del_party) : D ((dclient * dserver * (round * round)) * list (dclient * dserver * (round * round))) :=
  let st := del_start_with (dp_trees zero) (dp_trees one) (dp_data zero) (dp_data one) in
  trace <~ run_own (del_day_stack_by (Gr := PropsAdd.exG) usual_sizes room room ex_hash ex_circuit (dp_pub one) (dp_pub zero) (dp_priv zero) (dp_priv one)
                      (wired (Gr := PropsAdd.exG) ex_enc ex_dec (del_handle (Gr := PropsAdd.exG) ex_hash (dp_pub one) (dp_priv one)))) 1 st ;;
  dret (st, trace).
Definition ex_stack_ends (room : nat) (s : sys) : Z :=
  match known_both (ex_stack_go room) true (sy_world s) ex_coins_own with Ok (_, [st]) => dc_result (fst (fst st)) | UB => 1000 | _ => 2000 end.
Definition ex_stack_program (rooms : list nat) : list Z :=
  match known_setup 1 20 SUM (mkSys ex_fs (PropsData.ex_coins 1)) with (s, Ok (sum, _)) => sum :: map (fun room => ex_stack_ends room s) rooms | _ => [] end.
Lemma ex_stack_is room w co : known_both (ex_stack_go room) true w co =
  prog_deletion_stack ex_enc ex_dec ex_ppub ex_psec ex_pt ex_et ex_hash 1 1 false 3 ex_env ex_env ex_data ex_out 1 true ex_circuit usual_sizes room room w co.
Proof. exact (known_both_ok (ex_stack_go room) true w co). Qed.
(** with 100 bytes the programs crash; with 3000 they announce what setup printed *)
Example ex_C76 : match ex_stack_program [100%nat; 3000%nat] with [sum; small; large] => (sum =? 16) && (small =? 1000) && (large =? 16) | _ => false end = true.
Proof. vm_cast_no_check (eq_refl true). Qed.

Print Assumptions C76_same.
Print Assumptions C76_deletion_stack.
Print Assumptions C76_psi_stack.
Print Assumptions C76_deletion_sizes.
Print Assumptions C76_psi_sizes.
