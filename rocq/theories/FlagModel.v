(** * Flags (utils.cc:13-41) and the RPC sink (network/service.cc). *)
Require Import List String Bool.
Import ListNotations.
From Verif Require Import Prelude.
Local Open Scope string_scope.

(** utils.h:72 *)
Inductive functionality := PSI | CA | SUM | SS | DEL.
(** AbslParseFlag, utils.cc:13-25: returns the flag value after the call, the
    error text (if written) and the boolean result. *)
Definition parse_flag (text : string) (func : functionality) : functionality * option string * bool :=
  if text =? "PSI" then (PSI, None, true)
  else if text =? "CA" then (CA, None, true)
  else if text =? "SUM" then (SUM, None, true)
  else if text =? "SS" then (SS, None, true)
  else if text =? "DEL" then (DEL, None, true)
  else (func, Some "unknown functionality", false).
(** AbslUnparseFlag, utils.cc:27-41 (the default branch is for values outside the enum). *)
Definition unparse_flag (f : functionality) : string :=
  match f with PSI => "PSI" | CA => "CA" | SUM => "SUM" | SS => "SS" | DEL => "DEL" end.

(** ** ServerSink and UPSIService::Handle, network/service.cc:10-61 *)
(** absl status of a call; [SOther] = any other absl code *)
Inductive status := SOk | SErr (c : code) | SOther.
(** grpc status codes produced by ConvertStatus *)
Inductive grpc := GOk | GInvalidArgument | GInternal | GUnknown.
(** ConvertStatus, service.cc:11-25; NotFound is not special-cased. *)
Definition convert_status (s : status) : grpc :=
  match s with
  | SOk => GOk
  | SErr InvalidArgument => GInvalidArgument
  | SErr Internal => GInternal
  | _ => GUnknown
  end.

Section Sink.
Context {Msg : Type}.
(** struct ServerSink: the response buffer ([None] = default, i.e. untouched)
    and message_sent_ *)
Record sink := mkSink { s_msg : option Msg; s_sent : bool }.
(** ServerSink::Send, service.cc:33-43 *)
Definition sink_send (m : Msg) (s : sink) : status * sink :=
  if negb (s_sent s) then (SOk, mkSink (Some m) true)
  else (SErr InvalidArgument, s).

(** an arbitrary server handler: sends messages, looks at the statuses, returns *)
Inductive handler := HRet (s : status) | HSend (m : Msg) (k : status -> handler).
(** run of a handler: final status, sink, and the log of sends *)
Fixpoint run_handler (h : handler) (s : sink) : status * sink * list (Msg * status) :=
  match h with
  | HRet st => (st, s, [])
  | HSend m k => let '(st, s') := sink_send m s in
                 let '(r, s'', log) := run_handler (k st) s' in
                 (r, s'', (m, st) :: log)
  end.
(** UPSIService::Handle, service.cc:53-61 *)
Definition service_handle (h : handler) : grpc * option Msg :=
  let '(st, s, _) := run_handler h (mkSink None false) in (convert_status st, s_msg s).
End Sink.
Arguments sink : clear implicits. Arguments handler : clear implicits.
