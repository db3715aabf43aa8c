(** * Specification for C58: what the sizes of the messages depend on.

    A party's view of the peer's tree is given by public data alone: for every
    update received, in order, the random hashes contained in it ([hist]). *)
Require Import List Arith Bool ZArith.
Import ListNotations.
From Verif Require Import Prelude TreeModel Coins Group WireModel BytesModel SyncModel.
Local Open Scope nat_scope.

(** nodes are numbered from the root 1; the bits of a hash lead downwards from a
    node v to 2v (bit 0) or 2v+1 (bit 1); 0 is the stash *)
Definition node_of (bits : list bool) : nat := fold_left (fun v (b : bool) => 2 * v + if b then 1 else 0) bits 1.
(** the stash and the nodes of the first 0, 1, ..., d bits *)
Definition path_nodes (d : nat) (h : list bool) : list nat :=
  0 :: map (fun l => node_of (firstn l h)) (seq 0 (S d)).
(** A tree to which [count] elements were added has depth log2 count (0 if
    empty).  An update fills the nodes on the paths of its hashes, at the depth
    after the update; [written] lists the nodes filled so far. *)
Fixpoint written (count : nat) (hist : list (list (list bool))) : list nat :=
  match hist with
  | [] => []
  | hs :: rest => let c := count + length hs in flat_map (path_nodes (Nat.log2 c)) hs ++ written c rest
  end.
(** the number of ciphertexts a lookup with hash [h] finds: stash and nodes are
    full if they were ever filled and empty otherwise *)
Definition lookup_size (stash node : nat) (hist : list (list (list bool))) (h : list bool) : nat :=
  list_sum (map (fun v => if existsb (Nat.eqb v) (written 0 hist) then (if v =? 0 then stash else node) else 0)
                (path_nodes (Nat.log2 (length (concat hist))) h)).

(** ** the runs considered
    A sender (own tree [ts]) and its replica [tr] at the peer after any number of
    updates, none refused; [hist] lists the hashes of these updates. *)
Section Exchange.
Context {Gr : group} {A C : Type}.
Variable ins : list A -> list (list bool) -> tree A -> tree A * list (node A).
Variable mk : Z -> A.
Variable enc : A -> M C.
Variable ser : C -> outcome (welem Gr).
Variable deser : welem Gr -> outcome C.
Variables s n : nat.
Inductive exchanged : list (list bytes) -> tree A -> tree C -> Prop :=
| no_update : exchanged [] (tree_new s n) (tree_new s n)
| one_update hist ts tr es coins ts' u coins' tr' :
    exchanged hist ts tr ->
    send_update ins mk enc ser es ts coins = (ts', Ok (u, coins')) ->
    recv_update deser u tr = Ok tr' ->
    exchanged (hist ++ [u_hashes u]) ts' tr'.
End Exchange.
Definition bits (hist : list (list bytes)) : list (list (list bool)) := map (map byte2binary) hist.
(** what a party that received [hist] finds for all of [keys] *)
Definition lookups (stash node : nat) (hist : list (list bytes)) (keys : list (list bool)) : nat :=
  list_sum (map (lookup_size stash node (bits hist)) keys).
