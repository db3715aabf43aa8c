(** * The two programs of an addition-only or original run side by side.

    addition/run.cc:93-105 (party zero, one thread) and 143-181 (party one: the
    main thread and the threads of the gRPC server, which run Handle);
    original/run.cc:66-100 and 121-150, with the roles exchanged.  The client calls
    the server again and again during one Run; the server's main thread starts the
    server, spins on ProtocolFinished() (current_day is volatile and written by
    the handler thread), sleeps, prints the report, shuts the server down and
    joins it.  All interleavings of the steps below are executions.  Sleeping
    takes any time.  Simplifications: one client; a server is either started or
    not; Server::Shutdown without deadline refuses new calls and waits for those
    in progress (its documentation); printing is one step. *)
Require Import String.
Require Import List Arith ZArith Bool.
Import ListNotations.
From Verif Require Import Prelude Coins Group ElGamalModel PaillierModel TreeModel BytesModel CipherModel WireModel SyncModel AddModel.
From Verif Require OrigModel.
Local Open Scope nat_scope.

Definition even_coins (tp : tape) : tape := fun i => tp (2 * i).
Definition odd_coins (tp : tape) : tape := fun i => tp (2 * i + 1).

(** ** the client between its calls *)
Section Client.
Context {Req Rep : Type}.
(** what a client does next: return, or call (network/connection.h:22-41) and
    go on with the reply *)
Inductive client_prog (C : Type) : Type :=
| Return (c : C)
| Call (r : Req) (k : Rep -> tape -> outcome (client_prog C * tape)).
Arguments Return {C} c.
Arguments Call {C} r k.
(** one piece of code after another *)
Fixpoint and_then {A B} (p : client_prog A) (f : A -> M (client_prog B)) (tp : tape) : outcome (client_prog B * tape) :=
  match p with
  | Return a => f a tp
  | Call r k => Ok (Call r (fun rep tp1 =>
      match k rep tp1 with
      | Ok (p', tp2) => and_then p' f tp2
      | Err e => Err e | Abort => Abort | UB => UB
      end), tp)
  end.
(** Run: [while (!ProtocolFinished()) { day }], at most [n] iterations *)
Fixpoint all_days {C} (finished : C -> bool) (day : C -> M (client_prog C)) (n : nat) (c : C) : M (client_prog C) :=
  match n with
  | 0 => ret (Return c)
  | S m => if finished c then ret (Return c) else p <- day c ;; and_then p (all_days finished day m)
  end.
(** the program with every call answered at once by [handle]: client and server
    as one program *)
Fixpoint serial {C SV} (handle : Req -> SV -> tape -> SV * outcome Rep) (p : client_prog C) (s : SV) (tp : tape) : outcome (C * SV * tape) :=
  match p with
  | Return c => Ok (c, s, tp)
  | Call r k =>
      match handle r s (even_coins tp) with
      | (s', Ok rep) =>
          match k rep (odd_coins tp) with
          | Ok (p', tp') => serial handle p' s' tp'
          | Err e => Err e | Abort => Abort | UB => UB
          end
      | (_, Err _) => Err Internal
      | (_, Abort) => Abort | (_, UB) => UB
      end
  end.
End Client.
Arguments client_prog Req Rep C : clear implicits.
Arguments Return {Req Rep C} c.
Arguments Call {Req Rep C} r k.

(** ** the threads *)
Section Threads.
Context {Req Rep C SV : Type}.
Variable work : Req -> SV -> tape -> SV * outcome (Rep * bool).  (* Handle up to FinishDay; is it called? *)
Variable advance : SV -> SV.                                     (* FinishDay *)
Variable ready : SV -> bool.                                     (* ProtocolFinished *)

(** the client: about to do [p]; in a call; returned OkStatus; returned an error or died *)
Inductive cpc := CNext (p : client_prog Req Rep C) | CWait (k : Rep -> tape -> outcome (client_prog Req Rep C * tape)) | CDone (c : C) | CFailed.
(** a handler thread: computing; before FinishDay; with a status to return *)
Inductive hpc := HIdle | HWork (r : Req) | HFinish (p : Rep) | HReply (o : outcome Rep).
(** the server's main thread: before BuildAndStart; in the loop; after the loop;
    in Shutdown, having printed the report of that state; returned OkStatus; died *)
Inductive spc := SStart | SListen | SPrint | SShutdown (printed : SV) | SDone (printed : SV) | SDied.
Record world := mkW { w_s : SV; w_cpc : cpc; w_hpc : hpc; w_spc : spc; w_coins : tape }.

Inductive step : world -> world -> Prop :=
| s_call s r k sp tp : sp = SListen \/ sp = SPrint ->
    step (mkW s (CNext (Call r k)) HIdle sp tp) (mkW s (CWait k) (HWork r) sp tp)
(** not started yet, or shutting down: UNAVAILABLE, Run returns an error *)
| s_refused s r k sp tp : sp <> SListen -> sp <> SPrint ->
    step (mkW s (CNext (Call r k)) HIdle sp tp) (mkW s CFailed HIdle sp tp)
| s_work s cp r sp tp s' p : work r s (even_coins tp) = (s', Ok (p, false)) ->
    step (mkW s cp (HWork r) sp tp) (mkW s' cp (HReply (Ok p)) sp (odd_coins tp))
| s_work_last s cp r sp tp s' p : work r s (even_coins tp) = (s', Ok (p, true)) ->
    step (mkW s cp (HWork r) sp tp) (mkW s' cp (HFinish p) sp (odd_coins tp))
| s_work_error s cp r sp tp s' e : work r s (even_coins tp) = (s', Err e) ->
    step (mkW s cp (HWork r) sp tp) (mkW s' cp (HReply (Err e)) sp (odd_coins tp))
| s_work_crash s cp r sp tp s' o : work r s (even_coins tp) = (s', o) -> o = Abort \/ o = UB ->
    step (mkW s cp (HWork r) sp tp) (mkW s' CFailed HIdle SDied (odd_coins tp))
| s_finish s cp p sp tp : step (mkW s cp (HFinish p) sp tp) (mkW (advance s) cp (HReply (Ok p)) sp tp)
| s_reply s k p sp tp p' tp' : k p tp = Ok (p', tp') ->
    step (mkW s (CWait k) (HReply (Ok p)) sp tp) (mkW s (CNext p') HIdle sp tp')
| s_reply_error s k o sp tp : (forall p v, o = Ok p -> k p tp <> Ok v) ->
    step (mkW s (CWait k) (HReply o) sp tp) (mkW s CFailed HIdle sp tp)
| s_return s c h sp tp : step (mkW s (CNext (Return c)) h sp tp) (mkW s (CDone c) h sp tp)
| s_start s cp h tp : step (mkW s cp h SStart tp) (mkW s cp h SListen tp)
| s_poll s cp h tp : ready s = true -> step (mkW s cp h SListen tp) (mkW s cp h SPrint tp)
| s_print s cp h tp : step (mkW s cp h SPrint tp) (mkW s cp h (SShutdown s) tp)
| s_join s cp printed tp : step (mkW s cp HIdle (SShutdown printed) tp) (mkW s cp HIdle (SDone printed) tp).

Inductive reachable (w0 : world) : world -> Prop :=
| r_start : reachable w0 w0
| r_step w w' : reachable w0 w -> step w w' -> reachable w0 w'.
(** before any thread has done anything: the server is (not) started *)
Definition initial (s : SV) (p : client_prog Req Rep C) (sp : spc) (tp : tape) : world := mkW s (CNext p) HIdle sp tp.
(** Handle as one step *)
Definition handle_all (r : Req) (s : SV) (tp : tape) : SV * outcome Rep :=
  match work r s tp with
  | (s', Ok (p, last)) => (if last then advance s' else s', Ok p)
  | (s', Err e) => (s', Err e) | (s', Abort) => (s', Abort) | (s', UB) => (s', UB)
  end.
End Threads.
Arguments cpc : clear implicits.
Arguments hpc : clear implicits.
Arguments spc : clear implicits.
Arguments world : clear implicits.

(** ** the addition-only protocols *)
Section Addition.
Context {Gr : group}.
Variable hash : Z -> list bool.
Variable pk : pubkey Gr.
Variables sk0 sk1 : Z.
Variable csize : client_msg Gr -> Z.
Variable ssize : server_msg Gr -> Z.
Notation reply := (option (server_msg Gr)).
Notation prog := (client_prog (client_msg Gr) reply).
(** GetResponse after a call without reply: the empty message *)
Definition got (r : reply) : server_msg Gr := match r with Some m => m | None => S_unset end.

(** party one: Handle without FinishDay.  The counter of the reply precedes
    FinishDay, sink->Send follows it. *)
Section Server.
Context {EL : Type}.
Variable gen2 : msg12 Gr -> list Z -> ST (tree Z * tree EL) (msg12 Gr).
Definition worked : Type := (server EL * outcome (reply * bool))%type.
Definition flagged (last : bool) (x : server EL * outcome reply) : worked :=
  match x with (s, Ok r) => (s, Ok (r, last)) | (s, Err c) => (s, Err c) | (s, Abort) => (s, Abort) | (s, UB) => (s, UB) end.
(** PartyOneNoPayload::Handle, party_one.cc:19-45 *)
Definition np_work (req : client_msg Gr) (s : server EL) (tp : tape) : worked :=
  if sv_finished s then (s, Err InvalidArgument) else
  match req with
  | C_party_zero msg =>
      let s1 := add_comm (csize req) s in
      match msg with
      | P0_I m => flagged true (answer_i ssize gen2 m s1 tp (fun s => s))
      | _ => (s1, Err InvalidArgument)
      end
  | _ => (s, Err InvalidArgument)
  end.
(** PartyOneSum::Handle, party_one.cc:48-81 *)
Definition sum_work (req : client_msg Gr) (s : server EL) (tp : tape) : worked :=
  if sv_finished s then (s, Err InvalidArgument) else
  match req with
  | C_party_zero msg =>
      let s1 := add_comm (csize req) s in
      match msg with
      | P0_I m => flagged false (answer_i ssize gen2 m s1 tp (fun s => s))
      | P0_III_sum w =>
          match process_iii_sum sk1 w with
          | Ok r => let res := S_party_one (P1_IV r) in (add_comm (ssize res) s1, Ok (Some res, true))
          | Err c => (s1, Err c) | Abort => (s1, Abort) | UB => (s1, UB)
          end
      | _ => (s1, Err InvalidArgument)
      end
  | _ => (s, Err InvalidArgument)
  end.
(** PartyOneSecretShare::Handle, party_one.cc:83-115 *)
Definition ss_work (dec : Z -> Z -> outcome Z) (req : client_msg Gr) (s : server EL) (tp : tape) : worked :=
  if sv_finished s then (s, Err InvalidArgument) else
  match req with
  | C_party_zero msg =>
      let s1 := add_comm (csize req) s in
      match msg with
      | P0_I m => flagged false (answer_i ssize gen2 m s1 tp (fun s => s))
      | P0_III_ss ps =>
          let '(sh, o) := process_iii_ss dec ps (sv_shares s1) in
          let s2 := mkServer (sv_my s1) (sv_other s1) (sv_data s1) (sv_day s1) (sv_total s1) (sv_comm s1) sh in
          match o with
          | Ok _ => (s2, Ok (None, true))
          | Err c => (s2, Err c) | Abort => (s2, Abort) | UB => (s2, UB)
          end
      | _ => (s1, Err InvalidArgument)
      end
  | _ => (s, Err InvalidArgument)
  end.
End Server.

(** party zero: the body of PartyZeroNoPayload::Run, party_zero.cc:30-36 *)
Definition ca_client (c : client Gr Z Z) : M (prog (client Gr Z Z)) :=
  '(my, m1) <- ca_gen1 hash pk (today c) (cl_my c) (cl_other c) ;;
  let c1 := mkClient my (cl_other c) (cl_data c) (cl_day c) (cl_total c) (cl_out c) in
  ret (Call (C_party_zero (P0_I m1)) (fun r =>
    c2 <- lift (cl_handle (fun m => ca_process sk0 m c1) (fun _ => Err InvalidArgument) (Err InvalidArgument) false c1 (got r)) ;;
    ret (Return c2))).
Variable dec_string : Z -> string.
Definition psi_client (c : client Gr Z (psi_out (Gr := Gr))) : M (prog (client Gr Z (psi_out (Gr := Gr)))) :=
  '(my, m1) <- psi_gen1 hash pk (today c) (cl_my c) (cl_other c) ;;
  let c1 := mkClient my (cl_other c) (cl_data c) (cl_day c) (cl_total c)
              (record_points pk dec_string (today c) (fst (cl_out c)), snd (cl_out c)) in
  ret (Call (C_party_zero (P0_I m1)) (fun r =>
    c2 <- lift (cl_handle (fun m => psi_process sk0 m c1) (fun _ => Err InvalidArgument) (Err InvalidArgument) false c1 (got r)) ;;
    ret (Return c2))).
(** PartyZeroSum::Run, party_zero.cc:442-456; the second Handle *)
Definition sum_client_iv (c2 : client Gr (Z * Z) (Z * Z)) (r4 : server_msg Gr) : M (prog (client Gr (Z * Z) (Z * Z))) :=
  cl_handle
    (fun m => '(c3, w) <- sum_message_iii pk sk0 m c2 ;;
              ret (Call (C_party_zero (P0_III_sum w)) (fun _ => ret (Return c3))))
    (fun w => c3 <- lift (sum_process_iv pk sk0 w c2) ;; ret (Return c3))
    (lift (Err InvalidArgument)) true c2 r4.
Definition sum_client (c : client Gr (Z * Z) (Z * Z)) : M (prog (client Gr (Z * Z) (Z * Z))) :=
  '(my, m1) <- sum_gen1 hash pk (today c) (cl_my c) (cl_other c) ;;
  let c1 := mkClient my (cl_other c) (cl_data c) (cl_day c) (cl_total c) (cl_out c) in
  ret (Call (C_party_zero (P0_I m1)) (fun r =>
    cl_handle
      (fun m => '(c2, w) <- sum_message_iii pk sk0 m c1 ;;
                ret (Call (C_party_zero (P0_III_sum w)) (fun r4 => sum_client_iv c2 (got r4))))
      (fun w => c2 <- lift (sum_process_iv pk sk0 w c1) ;; sum_client_iv c2 (got r))
      (lift (Err InvalidArgument)) true c1 (got r))).
Variable n : Z.
Variables pai0 : pub.
Variable psk0 : Z.
(** PartyZeroSecretShare::Run, party_zero.cc:463-475 *)
Definition ss_client (c : client Gr (Z * Z) (list Z)) : M (prog (client Gr (Z * Z) (list Z))) :=
  '(my, m1) <- ss_gen1 hash pk pai0 (today c) (cl_my c) (cl_other c) ;;
  let c1 := mkClient my (cl_other c) (cl_data c) (cl_day c) (cl_total c) (cl_out c) in
  ret (Call (C_party_zero (P0_I m1)) (fun r =>
    cl_handle
      (fun m => '(c2, ps) <- ss_message_iii sk0 n pai0 psk0 m c1 ;;
                ret (Call (C_party_zero (P0_III_ss ps)) (fun _ => ret (Return c2))))
      (fun _ => ret (Return c1))
      (lift (Err InvalidArgument)) true c1 (got r))).
End Addition.

(** ** the original protocol: party zero serves *)
Section Original.
Import OrigModel.
Context {Gr : group}.
Variable hash : Z -> list bool.
Variable H : Z -> Gr.
Variable dec_string : Z -> string.
Variables (pk0 pk1 : pubkey Gr) (sk0 sk1 : Z).
Variables (csize : og_req Gr -> Z) (ssize : og_reply Gr -> Z).
Definition og_flagged (x : og_server Gr * outcome (option (og_reply Gr))) : og_server Gr * outcome (option (og_reply Gr) * bool) :=
  match x with (s, Ok r) => (s, Ok (r, false)) | (s, Err c) => (s, Err c) | (s, Abort) => (s, Abort) | (s, UB) => (s, UB) end.
(** Handle without FinishDay, party_zero.cc:19-43 *)
Definition og_work (req : og_req Gr) (s : og_server Gr) (tp : tape) : og_server Gr * outcome (option (og_reply Gr) * bool) :=
  if og_finished s then (s, Err InvalidArgument) else
  match req with
  | OQ_other => (s, Err InvalidArgument)
  | _ =>
      let s1 := og_add_comm (csize req) s in
      match req with
      | OQ_I m => og_flagged (og_message_ii hash H pk0 pk1 sk0 ssize m s1 tp)
      | OQ_III css => og_flagged (og_message_iv H dec_string sk0 ssize css s1 tp)
      | OQ_V ps =>
          let '(s2, o) := og_message_v dec_string ps s1 in
          match o with
          | Ok _ => (s2, Ok (None, true))
          | Err c => (s2, Err c) | Abort => (s2, Abort) | UB => (s2, UB)
          end
      | _ => (s1, Err InvalidArgument)
      end
  end.
Definition og_got (r : option (og_reply Gr)) : og_reply Gr := match r with Some m => m | None => OR_none end.
(** the body of PartyOne::Run, party_one.cc:24-34 *)
Definition og_client_day (c : og_client) : M (client_prog (og_req Gr) (option (og_reply Gr)) og_client) :=
  '(t, m1) <- oc_message_i hash H pk1 sk1 (nth (oc_day c) (oc_data c) []) (oc_tree c) ;;
  ret (Call (OQ_I m1) (fun r2 =>
    m3 <- oc_message_iii pk0 sk1 (og_got r2) ;;
    ret (Call (OQ_III m3) (fun r4 =>
      m5 <- lift (oc_message_v sk1 (og_got r4)) ;;
      ret (Call (OQ_V m5) (fun _ => ret (Return (mkOgC t (oc_data c) (S (oc_day c)) (oc_total c))))))))).
End Original.
