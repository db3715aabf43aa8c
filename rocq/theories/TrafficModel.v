(** * PrintComm: the traffic report of the server.

    addition/party_one.h:30-38 and original/party_zero.cc:182-190; the printed
    lines are the list of the days' numbers and the total.  [comm_] is a
    vector<int>; adding a negative int to an unsigned long long wraps. *)
Require Import List ZArith.
Import ListNotations.
Local Open Scope Z_scope.
Definition print_comm (comm : list Z) : list Z * Z := (comm, fold_left (fun total c => (total + c) mod 2 ^ 64) comm 0).
