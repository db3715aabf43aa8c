(** * Specification vocabulary for generated data (C42, C43). *)
Require Import List Arith Lia ZArith Bool.
Import ListNotations.
From Verif Require Import Prelude BytesModel FlagModel CsvModel.
Local Open Scope Z_scope.

Definition uint32 (x : Z) : Prop := 0 <= x < 2 ^ 32.
(** all the elements of a party: those of its initial tree, then day by day *)
Definition all_elements (tree : dataset) (days : list dataset) : list bytes :=
  d_elements tree ++ concat (map d_elements days).
(** ... with their values *)
Definition rows (d : dataset) : list (bytes * Z) := combine (d_elements d) (d_values d).
Definition all_rows (tree : dataset) (days : list dataset) : list (bytes * Z) :=
  rows tree ++ concat (map rows days).
Definition string_eq_dec : forall a b : bytes, {a = b} + {a <> b} := list_eq_dec Z.eq_dec.
Definition distinct (l : list bytes) : list bytes := nodup string_eq_dec l.
Definition is_in (l : list bytes) (s : bytes) : bool := if in_dec string_eq_dec s l then true else false.
(** sum of the values of the rows whose element is among [l] *)
Definition sum_over (l : list bytes) (rs : list (bytes * Z)) : Z :=
  fold_right Z.add 0 (map snd (filter (fun r => is_in l (fst r)) rs)).
Definition common_strings (a b : list bytes) : list bytes := filter (is_in b) a.
(** 16 decimal digits, the first one 0 *)
Definition set_element (s : bytes) : Prop :=
  length s = 16%nat /\ Forall (fun c => 48 <= c <= 57) s /\ nth 0 s 0 = 48.
(** a dataset of [n] rows with, or without, values *)
Definition with_values (n : Z) (d : dataset) : Prop := Z.of_nat (length (d_elements d)) = n /\ Z.of_nat (length (d_values d)) = n.
Definition without_values (n : Z) (d : dataset) : Prop := Z.of_nat (length (d_elements d)) = n /\ d_values d = [].
(** no coincidence among the drawn strings: the two parties together hold as
    many different strings as were drawn, 2 * total - shared *)
Definition no_coincidence (total shared : Z) (a0 a1 : list bytes) : Prop :=
  Z.of_nat (length (distinct (a0 ++ a1))) = 2 * total - shared.

(** ** data with deletions *)
(** a party's days: rows (element with its value) deleted, then rows added *)
Definition changes := list (list (bytes * Z) * list (bytes * Z)).
(** how a day is written down: deleted rows with the negated value first *)
Definition written (day : list (bytes * Z) * list (bytes * Z)) : list (bytes * Z) :=
  map (fun r => (fst r, - snd r)) (fst day) ++ snd day.
Definition drop (dels held : list (bytes * Z)) : list (bytes * Z) :=
  filter (fun r => negb (is_in (map fst dels) (fst r))) held.
(** what a party holding [held] holds after these days *)
Fixpoint held_after (held : list (bytes * Z)) (h : changes) : list (bytes * Z) :=
  match h with [] => held | (dels, adds) :: r => held_after (drop dels held ++ adds) r end.
(** every deletion deletes a row the party holds at that time, with its value *)
Fixpoint only_held (held : list (bytes * Z)) (h : changes) : Prop :=
  match h with
  | [] => True
  | (dels, adds) :: r => NoDup (map fst dels) /\ incl dels held /\ only_held (drop dels held ++ adds) r
  end.
(** no element is added twice, counting the initial tree *)
Definition added_once (tree : list (bytes * Z)) (h : changes) : Prop :=
  NoDup (map fst (tree ++ concat (map snd h))).
(** the functionality computed on two sets of rows: cardinality for PSI, sum of
    party zero's values for CA (where they are 1) and SUM *)
Definition score (f : functionality) (s0 s1 : list (bytes * Z)) : Z :=
  match f with
  | PSI => Z.of_nat (length (common_strings (map fst s0) (map fst s1)))
  | _ => sum_over (map fst s1) s0
  end.
(** the values the generator gives to the elements of party zero *)
Definition value_ok (f : functionality) (max : Z) (r : bytes * Z) : Prop :=
  match f with
  | CA => snd r = 1
  | SUM => 1 <= snd r < max
  | PSI => stoll (fst r) = Ok (snd r)
  | _ => False
  end.
