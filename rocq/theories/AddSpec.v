(** * Specification vocabulary for the protocol properties (C16-C19). *)
Require Import List Arith ZArith Bool Permutation.
Import ListNotations.
From Verif Require Import Prelude TreeModel TreeSpec.
Local Open Scope Z_scope.

(** membership of a number in a list *)
Definition mem (x : Z) (l : list Z) : bool := existsb (Z.eqb x) l.
(** the entries of party zero whose element party one also holds *)
Definition common {A} (key : A -> Z) (h0 : list A) (h1 : list Z) : list A :=
  filter (fun a => mem (key a) h1) h0.
(** everything a party added in the first [k] days *)
Definition upto {A} (k : nat) (days : list (list A)) : list A := concat (firstn k days).
(** elements the protocols are meant for: below the range of padding elements *)
Definition element (x : Z) : Prop := 0 <= x < 10 ^ 15.
(** every element ever inserted is still in the tree: no stash overflow so far *)
Definition no_overflow {A} (t : tree A) : Prop := length (contents t) = t_actual t.
(** sum of a list of values *)
Definition total (l : list Z) : Z := fold_right Z.add 0 l.

(** [found] are entries of [all], each at most as often as there; none is missing
    if [ok] *)
Definition partly {A} (all found : list A) (ok : Prop) : Prop :=
  exists missing, Permutation (found ++ missing) all /\ (ok -> missing = []).
(** all the batches of a party over the whole run: no element twice, elements
    below the padding range, fewer than 2^30 of them *)
Definition proper {A} (key : A -> Z) (days : list (list A)) : Prop :=
  NoDup (map key (concat days)) /\ Forall (fun a => element (key a)) (concat days)
  /\ int_range (length (concat days)).
(** neither party's own tree has lost an element so far *)
Definition no_loss {A B} (t0 : tree A) (t1 : tree B) : Prop := no_overflow t0 /\ no_overflow t1.
(** a run of the protocol went through [P] or ended with an error status; it
    never terminates a process or does anything undefined *)
Definition ends_well {T} (P : T -> Prop) (o : outcome T) : Prop :=
  match o with Ok r => P r | Err _ => True | Abort => False | UB => False end.
