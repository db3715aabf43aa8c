(** * Specification for C61: runs that start with mock trees. *)
Require Import List Arith Bool ZArith.
Import ListNotations.
From Verif Require Import Prelude TreeModel Coins Group WireModel BytesModel SyncModel ShapeSpec.
Local Open Scope nat_scope.

(** A sender (own tree [ts]) and its replica [tr] at the peer, after any number
    of updates, none refused, from the trees [ts0] and [tr0]. *)
Section Exchange.
Context {Gr : group} {A C : Type}.
Variable ins : list A -> list (list bool) -> tree A -> tree A * list (node A).
Variable mk : Z -> A.
Variable enc : A -> M C.
Variable ser : C -> outcome (welem Gr).
Variable deser : welem Gr -> outcome C.
Variables (ts0 : tree A) (tr0 : tree C).
Inductive exchanged_from : list (list bytes) -> tree A -> tree C -> Prop :=
| from_start : exchanged_from [] ts0 tr0
| from_update hist ts tr es coins ts' u coins' tr' :
    exchanged_from hist ts tr ->
    send_update ins mk enc ser es ts coins = (ts', Ok (u, coins')) ->
    recv_update deser u tr = Ok tr' ->
    exchanged_from (hist ++ [u_hashes u]) ts' tr'.
End Exchange.
(** The number of ciphertexts a lookup with hash [h] finds if the trees started
    with [size] mock elements: the nodes of the mock tree (those of the levels 0
    to log2 size) are full, the others full if ever filled. *)
Definition mock_lookup (stash node size : nat) (hist : list (list (list bool))) (h : list bool) : nat :=
  list_sum (map (fun v => if (v <? 2 ^ (Nat.log2 size + 1)) || existsb (Nat.eqb v) (written size hist) then (if v =? 0 then stash else node) else 0)
                (path_nodes (Nat.log2 (size + length (concat hist))) h)).
(** two trees with the same public data *)
Definition same_shape {A B} (t : tree A) (t' : tree B) : Prop :=
  t_stash_size t' = t_stash_size t /\ t_node_size t' = t_node_size t
  /\ t_depth t' = t_depth t /\ t_actual t' = t_actual t /\ length (t_nodes t') = length (t_nodes t).
