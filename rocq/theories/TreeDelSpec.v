(** * Specification vocabulary for the deletion tree (C11, C12). *)
Require Import List Arith ZArith Bool.
Import ListNotations.
From Verif Require Import Prelude TreeModel TreeSpec TreeDelModel.

(** net payload of element [x] in a list of entries *)
Definition net (x : Z) (l : list entry) : Z :=
  fold_right Z.add 0%Z (map snd (filter (fun e => Z.eqb (fst e) x) l)).


(** histories of signed batches, asserts compiled out / enabled *)
Definition run_del_release (hash : Z -> list bool) (bs : list (@batch entry)) (t : tree entry) : tree entry :=
  fold_left (fun t b => fst (insert_del hash (fst b) (snd b) t)) bs t.
Fixpoint run_del_debug (hash : Z -> list bool) (bs : list (@batch entry)) (t : tree entry) : outcome (tree entry) :=
  match bs with
  | [] => Ok t
  | b :: r => let! t' := insert_del_dbg hash (fst b) (snd b) t in run_del_debug hash r (fst t')
  end.
