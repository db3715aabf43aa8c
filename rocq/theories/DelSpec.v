(** * Specification vocabulary for the protocols with deletions (C20-C22). *)
Require Import List Arith ZArith Bool.
Import ListNotations.
From Verif Require Import Prelude TreeModel TreeDelModel TreeSpec TreeDelSpec AddSpec.
Local Open Scope Z_scope.

(** the elements occurring in a list of entries *)
Definition elements (l : list entry) : list Z := nodup Z.eq_dec (map fst l).
(** sum over all elements of the product of the two net payloads *)
Definition inner (u v : list entry) : Z := total (map (fun x => net x u * net x v) (elements u)).
(** a residue modulo n read as a signed number in (-n/2, n/2] *)
Definition centered (n r : Z) : Z := if n <? 2 * r then r - n else r.
(** [v] minus the sender's signed share [s] is still in (-n/2, n/2]: reading the
    other share as a signed number then gives exactly that *)
Definition undisturbed (n s v : Z) : Prop := - n < 2 * (v - centered n s) <= n.
(** a tree holds the net payload of every element of a history *)
Definition holds (t : tree entry) (h : list entry) : Prop := forall x, net x (contents t) = net x h.
(** histories of a party the protocol is meant for: non-negative elements below
    and signed payloads within the modulus [n], fewer than 2^30 entries *)
Definition proper_signed (n : Z) (days : list (list entry)) : Prop :=
  Forall (fun e => 0 <= fst e < n /\ - n < snd e < n) (concat days) /\ int_range (length (concat days)).
(** the circuit tells the values compared in a round apart *)
Definition told_apart (circuit_input : Z -> outcome (list bool)) (xs ys : list Z) : Prop :=
  forall x y, In (x, y) (combine xs ys) -> circuit_input x = circuit_input y -> x = y.
(** elements present in both histories, when every net payload is 0 or 1 *)
Definition in_both (u v : list entry) : list Z := filter (fun x => (net x u =? 1) && (net x v =? 1)) (elements u).
