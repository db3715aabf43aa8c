(** * C62: specification of the traffic report of the programs with deletions *)
Require Import List Arith ZArith.
Import ListNotations.
From Verif Require Import Prelude Coins Group AddModel ServerSpec.
Local Open Scope Z_scope.

Definition uint64 (z : Z) : Z := z mod 2 ^ 64.
Definition sum (l : list Z) : Z := fold_right Z.add 0 l.
(** what a socket's counter shows after each day, when [setup] bytes were sent
    before the first day and [sent] bytes on the days *)
Fixpoint readings (setup : Z) (sent : list Z) : list Z :=
  match sent with [] => [] | b :: r => (setup + b) :: readings (setup + b) r end.
(** the report for the bytes of messages [bytes] and the bytes over the socket:
    the first day includes the set-up *)
Definition with_setup (setup : Z) (sent : list Z) : list Z :=
  match sent with [] => [] | b :: r => (setup + b) :: r end.
Definition report (bytes : list Z) (setup : Z) (sent : list Z) : list (Z * Z) * Z :=
  (combine (map uint64 bytes) (map uint64 (with_setup setup sent)), uint64 (sum bytes + setup + sum sent)).
(** when nothing overflows *)
Definition fits (bytes : list Z) (setup : Z) (sent : list Z) : Prop :=
  Forall (Z.le 0) bytes /\ 0 <= setup /\ Forall (Z.le 0) sent /\ sum bytes + setup + sum sent < 2 ^ 64.
Definition exact_report (bytes : list Z) (setup : Z) (sent : list Z) : list (Z * Z) * Z :=
  (combine bytes (with_setup setup sent), sum bytes + setup + sum sent).

Section One.
Context {Gr : group}.
(** the replies among the outcomes of some calls *)
Definition replies (outs : list (outcome (option (server_msg Gr)))) : list (msg12 Gr) :=
  flat_map (fun o => match o with Ok (Some (S_party_one (P1_II r))) => [r] | _ => [] end) outs.
(** what the server answers on each day when nobody counts *)
Context {S : Type}.
Variable handle : client_msg Gr -> S -> tape -> S * outcome (option (server_msg Gr)).
Variable reset : S -> S.
Fixpoint answers (days : list (list (client_msg Gr * tape))) (s : S) : list (list (outcome (option (server_msg Gr)))) :=
  match days with
  | [] => []
  | reqs :: rest => let '(s', outs) := serve handle reqs (reset s) in outs :: answers rest s'
  end.
End One.
