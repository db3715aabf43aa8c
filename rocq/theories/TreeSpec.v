(** * Specification vocabulary for the tree properties (no proofs here).

    Everything a reader needs to understand the theorem statements C01-C12:
    what a history is, what "stored" means, what a fresh tree is. *)
Require Import List Arith ZArith Permutation Bool.
Import ListNotations.
From Verif Require Import Prelude TreeModel.

Section Spec.
Context {A : Type}.

(** all elements physically present in the tree, stash included *)
Definition contents (t : tree A) : list A := flat_map elems (t_nodes t).

(** a batch: the new elements and the random hashes drawn for it, one 32-byte
    (256-bit) hash per element (utils.cc:218-229) *)
Definition batch : Type := (list A * list (list bool))%type.
Definition valid_batch (b : batch) : Prop :=
  length (snd b) = length (fst b) /\ Forall (fun h => length h = 256) (snd b).

(** the elements of a whole history *)
Definition history_elems (bs : list batch) : list A := flat_map fst bs.

(** fewer than 2^30 elements in total: the range in which C++ [int] index
    arithmetic is exact *)
Definition int_range (n : nat) : Prop := (Z.of_nat n < 2 ^ 30)%Z.

Variable hash : A -> list bool.

(** running a history with asserts compiled out ... *)
Definition run_release (bs : list batch) (t : tree A) : tree A :=
  fold_left (fun t b => fst (insert hash (fst b) (snd b) t)) bs t.

(** ... and with asserts enabled: [Abort] as soon as one insertion overflows
    the stash. *)
Fixpoint run_debug (bs : list batch) (t : tree A) : outcome (tree A) :=
  match bs with
  | [] => Ok t
  | b :: r => let! t' := insert_dbg hash (fst b) (snd b) t in run_debug r (fst t')
  end.

(** [v] is an ancestor-or-self of leaf [u], or the stash *)
Definition ancestor (v u : nat) : Prop := exists k, v = u / 2 ^ k.
End Spec.
