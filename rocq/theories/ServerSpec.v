(** * Specification of what a server does with a sequence of requests.

    Independent of the model of the servers: a server is any function from a
    request, a state and coins to a state and an outcome. *)
Require Import List Arith.
Import ListNotations.
From Verif Require Import Prelude Coins.

Section Serve.
Context {Q R S : Type}.
Variable handle : Q -> S -> tape -> S * outcome R.
(** Requests arriving one after the other, each with its own coins; after an
    abort or undefined behaviour there is no server any more. *)
Fixpoint serve (reqs : list (Q * tape)) (s : S) : S * list (outcome R) :=
  match reqs with
  | [] => (s, [])
  | (q, tp) :: rest =>
      match handle q s tp with
      | (s', Ok r) => let '(s'', os) := serve rest s' in (s'', Ok r :: os)
      | (s', Err c) => let '(s'', os) := serve rest s' in (s'', Err c :: os)
      | (s', Abort) => (s', [Abort])
      | (s', UB) => (s', [UB])
      end
  end.
(** every request is refused and nothing changes *)
Definition refuses_everything (s : S) : Prop :=
  forall reqs, serve reqs s = (s, map (fun _ => Err InvalidArgument) reqs).
(** one request is refused; [same] says what stayed the same *)
Definition rejects (same : S -> S -> Prop) (q : Q) (s : S) : Prop :=
  forall tp, exists s', handle q s tp = (s', Err InvalidArgument) /\ same s s'.
End Serve.

(** Which batches a server has inserted into its own tree.  [first q]: the
    request carries the first message of a day; [completes q r]: this reply ends
    the day.  Every first message with a reply inserts the batch of the current
    day, once; a failed one inserts it or not; nothing else inserts anything. *)
Section Inserted.
Context {Q R : Type}.
Variable first : Q -> bool.
Variable completes : Q -> R -> bool.
Inductive inserted : nat -> list (Q * outcome R) -> list nat -> Prop :=
| ins_nil d : inserted d [] []
| ins_first d q r rest log : first q = true ->
    inserted (if completes q r then S d else d) rest log -> inserted d ((q, Ok r) :: rest) (d :: log)
| ins_failed d q o rest log : first q = true -> (forall r, o <> Ok r) -> inserted d rest log -> inserted d ((q, o) :: rest) (d :: log)
| ins_refused d q o rest log : (forall r, o <> Ok r) -> inserted d rest log -> inserted d ((q, o) :: rest) log
| ins_other d q r rest log : first q = false ->
    inserted (if completes q r then S d else d) rest log -> inserted d ((q, Ok r) :: rest) log.
(** the number of completed days among the outcomes *)
Fixpoint days_completed (ex : list (Q * outcome R)) : nat :=
  match ex with
  | (q, Ok r) :: rest => (if completes q r then 1 else 0) + days_completed rest
  | _ :: rest => days_completed rest
  | [] => 0
  end.
End Inserted.
