(** * What a line of a dataset file means: columns separated by commas, white
    space around unquoted columns and before quoted ones dropped, [""] inside
    a quoted column standing for one quote. *)
Require Import List Arith Lia ZArith Bool.
Import ListNotations.
From Verif Require Import Prelude BytesModel CsvModel.
Local Open Scope Z_scope.

(** the text of a quoted column (after its opening quote), and what follows *)
Fixpoint unquote (l : bytes) : bytes * bytes :=
  match l with
  | [] => ([], [])
  | c :: r =>
      if c =? 34 then
        match r with
        | d :: r' => if d =? 34 then let '(v, t) := unquote r' in (34 :: v, t) else ([], r)
        | [] => ([], [])
        end
      else let '(v, t) := unquote r in (c :: v, t)
  end.
Fixpoint before_comma (l : bytes) : bytes := match l with [] => [] | c :: r => if c =? 44 then [] else c :: before_comma r end.
Fixpoint from_comma (l : bytes) : bytes := match l with [] => [] | c :: r => if c =? 44 then l else from_comma r end.
Definition rtrim (l : bytes) : bytes := rev (drop_spaces (rev l)).
(** the first column of a line, and the rest from the comma on *)
Definition column (l : bytes) : bytes * bytes :=
  match drop_spaces l with
  | [] => ([], [])
  | c :: r => if c =? 34 then let '(v, t) := unquote r in (v, from_comma t)
              else (rtrim (before_comma (c :: r)), from_comma (c :: r))
  end.
(** [fuel]: at least the length *)
Fixpoint columns (fuel : nat) (l : bytes) : list bytes :=
  match fuel, l with
  | O, _ => []
  | _, [] => []
  | S f, _ => let '(v, rest) := column l in
              v :: match rest with [] => [] | [_] => [[]] | _ :: more => columns f more end
  end.
(** the columns of a line; a NUL byte ends it *)
Definition csv_columns (line : bytes) : list bytes := columns (length line) (until_nul line).

(** text that survives writing and reading *)
Definition clean (s : bytes) : Prop := ~ In 0 s /\ ~ In 10 s.
