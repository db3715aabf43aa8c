(** * The two programs of a deletion protocol running side by side.

    deletion/run.cc:93-140 and 175-232, deletion-psi/run.cc:90-130 and 175-225.
    Party zero is one thread; party one has its main thread and the threads of
    the gRPC server, which run Handle.  All interleavings of the steps below are
    executions.  Per day, party zero makes [k] calls (deletion: 1, deletion-psi:
    2), each blocking until the reply, then meets party one in the garbled
    circuits; party one's main thread resets its flags, starts a server, spins on
    ProtocolFinished() (a volatile flag written by the handler thread), sleeps,
    shuts the server down and joins it, and meets party zero.  Sleeping takes
    any time.  Simplifications: one client; the garbled circuits and the socket
    between the main threads are one rendezvous; a server is either started or
    not (no partial start); Server::Shutdown without deadline refuses new calls
    and waits for those in progress (its documentation). *)
Require Import List Arith ZArith Bool.
Import ListNotations.
From Verif Require Import Prelude Coins Group PaillierModel TreeModel BytesModel CipherModel WireModel SyncModel TreeDelModel AddModel DelModel PsiModel.
Local Open Scope nat_scope.

Section Sched.
Context {CS SS Req Rep : Type}.
Variable k : nat.                                     (* calls per day *)
Variable total : nat.                                 (* --days *)
Variable cl_send : nat -> CS -> M (CS * Req).         (* up to the call, j-th of the day *)
Variable cl_recv : nat -> Rep -> CS -> outcome CS.    (* after the call *)
Variable sv_work : Req -> SS -> tape -> SS * outcome Rep.  (* Handle up to FinishDay *)
Variable sv_publish : SS -> SS.                       (* FinishDay, first assignment *)
Variable sv_advance : SS -> SS.                       (* FinishDay, second assignment *)
Variable sv_ready : SS -> bool.                       (* ProtocolFinished *)
Variable sv_reset : SS -> SS.                         (* start of a day *)
Variable second : CS * SS -> M (CS * SS).             (* the garbled circuits and what follows *)

(** party zero: before its [j]-th call of day [i]; waiting for the reply; before
    the circuits; returned OkStatus; returned an error or died *)
Inductive cpc := CSend (i j : nat) | CWait (i j : nat) | CSecond (i : nat) | CDone | CFailed.
(** the handler thread: computing; before the assignments of FinishDay; with a
    status to return *)
Inductive hpc := HIdle | HWork (r : Req) | HPublish (r : Rep) | HAdvance (r : Rep) | HReply (o : outcome Rep).
(** party one's main thread: before the reset of day [i]; spinning; in Shutdown;
    before the circuits; returned OkStatus; returned an error or died *)
Inductive spc := SReset (i : nat) | SListen (i : nat) | SShutdown (i : nat) | SSecond (i : nat) | SDone | SFailed.
Record world := mkW { w_c : CS; w_s : SS; w_cpc : cpc; w_hpc : hpc; w_spc : spc; w_coins : tape }.

Definition evens (tp : tape) : tape := fun i => tp (2 * i).
Definition odds (tp : tape) : tape := fun i => tp (2 * i + 1).
Definition next_call (i j : nat) : cpc := if S j <? k then CSend i (S j) else CSecond i.

Inductive step : world -> world -> Prop :=
(** party zero calls while the server accepts calls *)
| s_call c s i j sp tp c' r tp' : i < total -> (exists i', sp = SListen i') ->
    cl_send j c tp = Ok ((c', r), tp') ->
    step (mkW c s (CSend i j) HIdle sp tp) (mkW c' s (CWait i j) (HWork r) sp tp')
(** ... while it does not: UNAVAILABLE, Run returns an error *)
| s_refused c s i j sp tp c' r tp' : i < total -> (forall i', sp <> SListen i') ->
    cl_send j c tp = Ok ((c', r), tp') ->
    step (mkW c s (CSend i j) HIdle sp tp) (mkW c' s CFailed HIdle sp tp')
| s_call_error c s i j sp tp : i < total -> (forall v, cl_send j c tp <> Ok v) ->
    step (mkW c s (CSend i j) HIdle sp tp) (mkW c s CFailed HIdle sp tp)
(** the handler *)
| s_work c s cp r sp tp s' p : sv_work r s (evens tp) = (s', Ok p) ->
    step (mkW c s cp (HWork r) sp tp) (mkW c s' cp (HPublish p) sp (odds tp))
| s_work_error c s cp r sp tp s' e : sv_work r s (evens tp) = (s', Err e) ->
    step (mkW c s cp (HWork r) sp tp) (mkW c s' cp (HReply (Err e)) sp (odds tp))
| s_work_crash c s cp r sp tp s' o : sv_work r s (evens tp) = (s', o) -> o = Abort \/ o = UB ->
    step (mkW c s cp (HWork r) sp tp) (mkW c s' CFailed HIdle SFailed (odds tp))
| s_publish c s cp p sp tp : step (mkW c s cp (HPublish p) sp tp) (mkW c (sv_publish s) cp (HAdvance p) sp tp)
| s_advance c s cp p sp tp : step (mkW c s cp (HAdvance p) sp tp) (mkW c (sv_advance s) cp (HReply (Ok p)) sp tp)
(** the reply arrives *)
| s_reply c s i j p sp tp c' : cl_recv j p c = Ok c' ->
    step (mkW c s (CWait i j) (HReply (Ok p)) sp tp) (mkW c' s (next_call i j) HIdle sp tp)
| s_reply_error c s i j o sp tp : (forall p c', o = Ok p -> cl_recv j p c <> Ok c') ->
    step (mkW c s (CWait i j) (HReply o) sp tp) (mkW c s CFailed HIdle sp tp)
(** party one's main thread *)
| s_start c s cp h i tp : i < total -> step (mkW c s cp h (SReset i) tp) (mkW c (sv_reset s) cp h (SListen i) tp)
| s_poll c s cp h i tp : sv_ready s = true -> step (mkW c s cp h (SListen i) tp) (mkW c s cp h (SShutdown i) tp)
| s_join c s cp i tp : step (mkW c s cp HIdle (SShutdown i) tp) (mkW c s cp HIdle (SSecond i) tp)
(** both main threads *)
| s_meet c s i i' h tp c' s' tp' : second (c, s) tp = Ok ((c', s'), tp') ->
    step (mkW c s (CSecond i) h (SSecond i') tp) (mkW c' s' (CSend (S i) 0) h (SReset (S i')) tp')
| s_meet_error c s i i' h tp : (forall v, second (c, s) tp <> Ok v) ->
    step (mkW c s (CSecond i) h (SSecond i') tp) (mkW c s CFailed h SFailed tp)
| s_client_done c s i j h sp tp : total <= i -> step (mkW c s (CSend i j) h sp tp) (mkW c s CDone h sp tp)
| s_server_done c s cp h i tp : total <= i -> step (mkW c s cp h (SReset i) tp) (mkW c s cp h SDone tp).

Definition initial (c : CS) (s : SS) (tp : tape) : world := mkW c s (CSend 0 0) HIdle (SReset 0) tp.
Inductive reachable (w0 : world) : world -> Prop :=
| r_start : reachable w0 w0
| r_step w w' : reachable w0 w -> step w w' -> reachable w0 w'.
(** a schedule of [n] steps *)
Inductive steps : nat -> world -> world -> Prop :=
| n_none w : steps 0 w w
| n_step n w w1 w2 : step w w1 -> steps n w1 w2 -> steps (S n) w w2.

(** the same programs one after the other *)
Definition handle_all (r : Req) (s : SS) (tp : tape) : SS * outcome Rep :=
  match sv_work r s tp with
  | (s', Ok p) => (sv_advance (sv_publish s'), Ok p)
  | x => x
  end.
Definition call (r : Req) (s : SS) : M (SS * Rep) := fun tp =>
  match handle_all r s (evens tp) with
  | (s', Ok p) => Ok ((s', p), odds tp)
  | (_, Err _) => Err Internal | (_, Abort) => Abort | (_, UB) => UB
  end.
Definition one_call (j : nat) (st : CS * SS) : M (CS * SS) :=
  '(c1, r) <- cl_send j (fst st) ;;
  '(s1, p) <- call r (snd st) ;;
  c2 <- lift (cl_recv j p c1) ;;
  ret (c2, s1).
(** calls 0 .. n-1 *)
Fixpoint calls (n : nat) (st : CS * SS) : M (CS * SS) :=
  match n with
  | 0 => ret st
  | S m => st' <- calls m st ;; one_call m st'
  end.
Definition one_day (st : CS * SS) : M (CS * SS) :=
  st' <- calls k (fst st, sv_reset (snd st)) ;; second st'.
Fixpoint days (n : nat) (st : CS * SS) : M (CS * SS) :=
  match n with
  | 0 => ret st
  | S m => st' <- days m st ;; one_day st'
  end.
End Sched.
Arguments cpc : clear implicits.
Arguments spc : clear implicits.

(** ** deletion (CA, SUM) *)
Section Deletion.
Context {Gr : group}.
Variable hash : Z -> list bool.
Variable circuit_input : Z -> outcome (list bool).
Variables (P0 P1 : pub) (V0 V1 : priv).
(** the state of party zero and, for theorems, the sums of the last circuits *)
Definition dzero : Type := (dclient * (round * round))%type.
(** Run up to the call, deletion/party_zero.cc:43-45, 60-68 *)
Definition d_send (_ : nat) (z : dzero) : M (dzero * client_msg Gr) :=
  let c := fst z in
  match nth_error (dc_data c) (dc_day c) with
  | None => lift UB
  | Some es =>
      '(p1, m1) <- del_gen1 hash P1 V0 es (reset_gc (dc_party c)) ;;
      ret ((mkDC p1 (dc_data c) (dc_day c) (dc_total c) (dc_result c), snd z), C_party_zero (P0_I m1))
  end.
(** the rest of Run, party_zero.cc:46-49; no reply leaves the message unset *)
Definition d_recv (_ : nat) (p : option (server_msg Gr)) (z : dzero) : outcome dzero :=
  let! c := dc_handle V0 (match p with Some m => m | None => S_unset end) (fst z) in Ok (c, snd z).
(** Handle without FinishDay, deletion/party_one.cc:14-33 *)
Definition d_work (req : client_msg Gr) (s : dserver) (tp : tape) : dserver * outcome (option (server_msg Gr)) :=
  if ds_finished s then (s, Err InvalidArgument) else
  match req with
  | C_party_zero (P0_I m) =>
      match nth_error (ds_data s) (ds_day s) with
      | None => (s, UB)
      | Some es =>
          let '(p', o) := del_gen2 hash P0 V1 m es (ds_party s) tp in
          let s' := mkDS p' (ds_data s) (ds_day s) false in
          match o with
          | Ok (r, _) => (s', Ok (Some (S_party_one (P1_II r))))
          | Err c => (s', Err c) | Abort => (s', Abort) | UB => (s', UB)
          end
      end
  | _ => (s, Err InvalidArgument)
  end.
(** FinishDay, deletion/party_one.h:49-52 *)
Definition d_publish (s : dserver) : dserver := mkDS (ds_party s) (ds_data s) (ds_day s) true.
Definition d_advance (s : dserver) : dserver := mkDS (ds_party s) (ds_data s) (S (ds_day s)) (ds_finished s).
(** GarbledCircuit at both, the number sent by party one, UpdateResult: run.cc:117-124, 221-226 *)
Definition d_second (st : dzero * dserver) : M (dzero * dserver) :=
  let '((c, _), s) := st in
  '(rs, other_rs, rounds) <- del_circuits circuit_input P0 P1 V0 V1 (dc_party c) (ds_party s) ;;
  ret ((mkDC (dc_party c) (dc_data c) (dc_day c) (dc_total c) ((dc_result c + (rs + other_rs) mod 2 ^ 64) mod 2 ^ 64)%Z, rounds), s).
Definition d_reachable (total : nat) := reachable 1 total d_send d_recv d_work d_publish d_advance ds_finished ds_reset d_second.
Definition d_steps (total : nat) := steps 1 total d_send d_recv d_work d_publish d_advance ds_finished ds_reset d_second.
Definition d_step (total : nat) := step 1 total d_send d_recv d_work d_publish d_advance ds_finished ds_reset d_second.

(** ** deletion-psi *)
(** party zero, the tree between the halves of the day, and the sums of the
    circuits; party one and its tree between the halves (for theorems) *)
Definition pzero : Type := (pclient * day_info)%type.
Definition pone : Type := (pserver * tree entry)%type.
(** deletion-psi/party_zero.cc:51-53 and 57 *)
Definition p_send (j : nat) (z : pzero) : M (pzero * client_msg Gr) :=
  let c := if j =? 0 then pc_with (preset (pc_party (fst z))) (fst z) else fst z in
  match nth_error (pc_data c) (pc_day c) with
  | None => lift UB
  | Some (dels, adds) =>
      '(p1, m1) <- PsiModel.psi_gen1 hash P1 V0 (if j =? 0 then dels else adds) (pc_party c) ;;
      ret ((pc_with p1 c, snd z), C_party_zero (P0_I m1))
  end.
(** party_zero.cc:54-55, 58-61: Handle, and FinishDay after the second *)
Definition p_recv (j : nat) (p : option (server_msg Gr)) (z : pzero) : outcome pzero :=
  let! c := pc_handle V0 (match p with Some m => m | None => S_unset end) (fst z) in
  if j =? 0 then Ok (c, mkDay (pg_my (pc_party c)) (di_mid1 (snd z)) (di_rounds0 (snd z)) (di_rounds1 (snd z)))
  else Ok (mkPC (pc_party c) (pc_data c) (S (pc_day c)) (pc_total c) (pc_result c) (pc_set c), snd z).
(** Handle without FinishDay, deletion-psi/party_one.cc:14-33 *)
Definition p_work (req : client_msg Gr) (o : pone) (tp : tape) : pone * outcome (option (server_msg Gr)) :=
  let '(s, mid) := o in
  if ps_finished s then (o, Err InvalidArgument) else
  match req with
  | C_party_zero (P0_I m) =>
      match nth_error (ps_data s) (ps_day s) with
      | None => (o, UB)
      | Some (dels, adds) =>
          let '(p', o) := PsiModel.psi_gen2 hash P0 V1 m (if ps_first s then adds else dels) (ps_party s) tp in
          let s' := mkPS p' (ps_data s) (ps_day s) (ps_first s) false in
          match o with
          | Ok (r, _) => ((s', mid), Ok (Some (S_party_one (P1_II r))))
          | Err c => ((s', mid), Err c) | Abort => ((s', mid), Abort) | UB => ((s', mid), UB)
          end
      end
  | _ => (o, Err InvalidArgument)
  end.
(** FinishDay, deletion-psi/party_one.h:58-61: two assignments in the second
    half, one in the first *)
Definition p_publish (o : pone) : pone :=
  let '(s, mid) := o in
  if ps_first s then (mkPS (ps_party s) (ps_data s) (ps_day s) true true, mid)
  else (mkPS (ps_party s) (ps_data s) (ps_day s) true (ps_finished s), pg_my (ps_party s)).
Definition p_advance (o : pone) : pone :=
  let '(s, mid) := o in
  if ps_finished s then (mkPS (ps_party s) (ps_data s) (S (ps_day s)) (ps_first s) true, mid) else o.
Definition p_ready (o : pone) : bool := ps_finished (fst o).
Definition p_reset (o : pone) : pone := (ps_reset (fst o), snd o).
(** SecondPhase at both, run.cc:117-118, 216-217 *)
Definition p_second (st : pzero * pone) : M (pzero * pone) :=
  let '((c, di), (s, mid)) := st in
  '(rs0, rs1, (r0, r1)) <- psi_circuits circuit_input P0 P1 V0 V1 (pc_party c) (ps_party s) ;;
  us <- second_phase P0 V0 rs0 rs1 ;;
  rs <- lift (apply_updates us (pc_result c, pc_set c)) ;;
  ret ((mkPC (pc_party c) (pc_data c) (pc_day c) (pc_total c) (fst rs) (snd rs), mkDay (di_mid0 di) mid r0 r1), (s, mid)).
Definition p_reachable (total : nat) := reachable 2 total p_send p_recv p_work p_publish p_advance p_ready p_reset p_second.
Definition p_steps (total : nat) := steps 2 total p_send p_recv p_work p_publish p_advance p_ready p_reset p_second.
Definition p_step (total : nat) := step 2 total p_send p_recv p_work p_publish p_advance p_ready p_reset p_second.
End Deletion.
