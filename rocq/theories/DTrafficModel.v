(** * The traffic report of the programs with deletions.

    deletion/party.h:97-116, deletion-psi/party.h (same text), the calls of
    AddComm in party_zero.cc and party_one.cc and the loops over the days in
    run.cc.  The parties themselves are those of DelModel and PsiModel; here
    they are run against an arbitrary peer.

    Not modelled: timers and printing.  The counter of the socket (emp::NetIO) is read
    as given by the environment; ByteSizeLong is an arbitrary function of the
    body of a message, and one tag byte and a length are added per wrapping
    field (all field numbers involved are 1, upsi.proto:146, 174, 183, 203). *)
Require Import List Arith ZArith Bool.
Import ListNotations.
From Verif Require Import Prelude TreeModel TreeDelModel Coins Group ElGamalModel BytesModel PaillierModel WireModel SyncModel AddModel ServerSpec DelModel.
From Verif Require PsiModel.
Local Open Scope Z_scope.

(** ** the counters *)
(** vector<uint64_t> comm_, comm_gc, party.h:33 *)
Record meter := mkMeter { mt_comm : list Z; mt_gc : list Z }.
(** the constructor, party.h:38: total_days zeros each *)
Definition meter_new (days : nat) : meter := mkMeter (repeat 0 days) (repeat 0 days).
(** AddComm, party.h:97-99 *)
Definition meter_add (day : nat) (size : Z) (m : meter) : meter :=
  mkMeter (set_nth day ((nth day (mt_comm m) 0 + size) mod 2 ^ 64) (mt_comm m)) (mt_gc m).
(** StoreCommGC, party.h:101-103 *)
Definition meter_store (day : nat) (counter : Z) (m : meter) : meter :=
  mkMeter (mt_comm m) (set_nth day (counter mod 2 ^ 64) (mt_gc m)).
(** PrintComm, party.h:105-116: the two numbers of every day, and the total.
    Without any day comm_gc[-1] is read. *)
Fixpoint meter_lines (last : Z) (comm gc : list Z) : list (Z * Z) :=
  match comm, gc with
  | c :: comm', g :: gc' => (c, (g - last) mod 2 ^ 64) :: meter_lines g comm' gc'
  | _, _ => []
  end.
Definition meter_print (m : meter) : outcome (list (Z * Z) * Z) :=
  match mt_comm m with
  | [] => UB
  | _ => Ok (meter_lines 0 (mt_comm m) (mt_gc m),
             (fold_left (fun total c => (total + c) mod 2 ^ 64) (mt_comm m) 0 + last (mt_gc m) 0) mod 2 ^ 64)
  end.

(** ** sizes *)
(** bytes of a base-128 number *)
Fixpoint varint_size (fuel : nat) (n : Z) : Z :=
  match fuel with O => 1 | S f => if n <? 128 then 1 else 1 + varint_size f (n / 128) end.
(** an embedded message of [n] bytes with a field number below 16 *)
Definition field_size (n : Z) : Z := 1 + varint_size 9 n + n.

(** ** party one *)
Section One.
Context {Gr : group}.
Variable body2 : msg12 Gr -> Z.
Context {S : Type}.
Variable handle : client_msg Gr -> S -> tape -> S * outcome (option (server_msg Gr)).
Variables (day : S -> nat) (finished : S -> bool) (reset : S -> S).
(** Handle with AddComm: GenerateMessageII counts its response, not the message
    around it, as its last step (deletion/party_one.cc:77, deletion-psi/party_one.cc:115);
    FinishDay comes later *)
Definition one_handle (q : client_msg Gr) (st : S * meter) (tp : tape) : (S * meter) * outcome (option (server_msg Gr)) :=
  match handle q (fst st) tp with
  | (s', Ok (Some (S_party_one (P1_II r)))) => ((s', meter_add (day (fst st)) (body2 r) (snd st)), Ok (Some (S_party_one (P1_II r))))
  | (s', o) => ((s', snd st), o)
  end.
Definition crashed (o : outcome (option (server_msg Gr))) : bool := match o with Abort | UB => true | _ => false end.
(** the loop of RunPartyOne, deletion/run.cc:184-228, deletion-psi/run.cc:183-219: the
    requests of every day, whether the circuits of the day go through, and the
    counter of the socket at the end of the day.  [None]: a crash, an error of the circuits, or
    the server waits for ever for the end of the day.  The answers are returned too, for use in theorems. *)
Fixpoint one_loop (i : nat) (days : list (list (client_msg Gr * tape) * bool * Z)) (st : S * meter)
  : option ((S * meter) * list (list (outcome (option (server_msg Gr))))) :=
  match days with
  | [] => Some (st, [])
  | (reqs, circuits_ok, counter) :: rest =>
      let '((s, m), outs) := serve one_handle reqs (reset (fst st), snd st) in
      if existsb crashed outs then None else
      if negb (finished s) then None else
      if negb circuits_ok then None else
      match one_loop (Datatypes.S i) rest (s, meter_store i counter m) with
      | Some (st', log) => Some (st', outs :: log)
      | None => None
      end
  end.
End One.

(** ** party zero *)
Section Zero.
Context {Gr : group}.
Variable hash : Z -> list bool.
Variable body1 : msg12 Gr -> Z.
(** ByteSizeLong of the whole ClientMessage *)
Definition request_size (m : msg12 Gr) : Z := field_size (field_size (body1 m)).
Variables (P1 : pub) (V0 : priv).
(** deletion: Run with SendMessageI (party_zero.cc:43-49, 60-71) against any answer
    of the call; the message sent is returned too *)
Definition zero_run (answer : outcome (server_msg Gr)) (st : dclient * meter) : M (dclient * meter * msg12 Gr) :=
  let '(c, mt) := st in
  match nth_error (dc_data c) (dc_day c) with
  | None => lift UB
  | Some es =>
      '(p1, m1) <- del_gen1 hash P1 V0 es (reset_gc (dc_party c)) ;;
      let mt1 := meter_add (dc_day c) (request_size m1) mt in
      r <- lift answer ;;
      c' <- lift (dc_handle V0 r (mkDC p1 (dc_data c) (dc_day c) (dc_total c) (dc_result c))) ;;
      ret (c', mt1, m1)
  end.
(** the loop of RunPartyZero, run.cc:98-128: for every day the answer to the
    call, the sum of the shares from the circuits, and the counter of the socket *)
Fixpoint zero_loop (i : nat) (days : list (outcome (server_msg Gr) * outcome Z * Z)) (st : dclient * meter)
  : M (dclient * meter * list (list (msg12 Gr))) :=
  match days with
  | [] => ret (st, [])
  | (answer, shares, counter) :: rest =>
      '(c, mt, m) <- zero_run answer st ;;
      v <- lift shares ;;
      let c' := mkDC (dc_party c) (dc_data c) (dc_day c) (dc_total c) ((dc_result c + v) mod 2 ^ 64) in
      '(st', log) <- zero_loop (Datatypes.S i) rest (c', meter_store i counter mt) ;;
      ret (st', [m] :: log)
  end.

(** deletion-psi: SendMessageI and Handle for one half of the day
    (party_zero.cc:53-55, 57-59, 120-131) *)
Import PsiModel.
Definition pzero_half (es : list entry) (answer : outcome (server_msg Gr)) (st : pclient * meter) : M (pclient * meter * msg12 Gr) :=
  let '(c, mt) := st in
  '(p1, m1) <- psi_gen1 hash P1 V0 es (pc_party c) ;;
  let mt1 := meter_add (pc_day c) (request_size m1) mt in
  r <- lift answer ;;
  c' <- lift (pc_handle V0 r (pc_with p1 c)) ;;
  ret (c', mt1, m1).
(** Run, party_zero.cc:50-64 *)
Definition pzero_run (answers : outcome (server_msg Gr) * outcome (server_msg Gr)) (st : pclient * meter) : M (pclient * meter * list (msg12 Gr)) :=
  let '(c, mt) := st in
  match nth_error (pc_data c) (pc_day c) with
  | None => lift UB
  | Some (dels, adds) =>
      '(c2, mt2, m1) <- pzero_half dels (fst answers) (pc_with (preset (pc_party c)) c, mt) ;;
      '(c3, mt3, m2) <- pzero_half adds (snd answers) (c2, mt2) ;;
      ret (mkPC (pc_party c3) (pc_data c3) (Datatypes.S (pc_day c3)) (pc_total c3) (pc_result c3) (pc_set c3), mt3, [m1; m2])
  end.
(** the loop of RunPartyZero, run.cc:100-123; [updates] are the values of the second phase *)
Fixpoint pzero_loop (i : nat) (days : list ((outcome (server_msg Gr) * outcome (server_msg Gr)) * outcome (list Z) * Z)) (st : pclient * meter)
  : M (pclient * meter * list (list (msg12 Gr))) :=
  match days with
  | [] => ret (st, [])
  | (answers, updates, counter) :: rest =>
      '(c, mt, ms) <- pzero_run answers st ;;
      us <- lift updates ;;
      rs <- lift (apply_updates us (pc_result c, pc_set c)) ;;
      let c' := mkPC (pc_party c) (pc_data c) (pc_day c) (pc_total c) (fst rs) (snd rs) in
      '(st', log) <- pzero_loop (Datatypes.S i) rest (c', meter_store i counter mt) ;;
      ret (st', ms :: log)
  end.
End Zero.
