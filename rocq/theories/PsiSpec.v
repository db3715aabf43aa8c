(** * Specification vocabulary for deletion-psi (C22). *)
Require Import List Arith ZArith Bool.
Import ListNotations.
From Verif Require Import Prelude TreeModel TreeDelModel TreeSpec TreeDelSpec AddSpec DelSpec.
Local Open Scope Z_scope.

(** A party's history: for every day the elements deleted and the elements added.
    Each party starts with the empty set. *)
Definition history := list (list Z * list Z).
Definition without (dels s : list Z) : list Z := filter (fun x => negb (mem x dels)) s.
(** the set after [k] days, and the set in the middle of day [k] (counted from
    0), after its deletions and before its additions *)
Fixpoint current (k : nat) (h : history) : list Z :=
  match k with
  | O => []
  | S k' => without (fst (nth k' h ([], []))) (current k' h) ++ snd (nth k' h ([], []))
  end.
Definition kept (k : nat) (h : history) : list Z := without (fst (nth k h ([], []))) (current k h).
(** deletions delete elements that are there, additions add elements that are
    not; elements are positive and below 2^63 *)
Definition proper_history (h : history) : Prop :=
  forall k, (k < length h)%nat ->
    let '(dels, adds) := nth k h ([], []) in
    NoDup dels /\ NoDup adds /\ incl dels (current k h) /\
    (forall x, In x adds -> ~ In x (kept k h)) /\ Forall (fun x => 0 < x < 2 ^ 63) adds.
(** the rows of a day's data file: an added x has the value [payload x], a
    deleted x the value [- payload x], in any order *)
Definition rows_of (payload : Z -> Z) (rows : list entry) (day : list Z * list Z) : Prop :=
  filter (fun e => snd e <? 0) rows = map (fun x => (x, - payload x)) (fst day) /\
  filter (fun e => 0 <=? snd e) rows = map (fun x => (x, payload x)) (snd day).
Definition data_of (payload : Z -> Z) (d : list (list entry)) (h : history) : Prop :=
  Forall2 (rows_of payload) d h /\ int_range (length (concat d)).
(** the elements two sets share *)
Definition both (a b : list Z) : list Z := filter (fun x => mem x b) a.
(** no element of the intersection is removed by the deletions of day [k] and
    back in the intersection at the end of the same day *)
Definition no_return (k : nat) (h0 h1 : history) : Prop :=
  forall x, In x (both (current k h0) (current k h1)) -> In x (both (current (S k) h0) (current (S k) h1)) ->
  In x (both (kept k h0) (kept k h1)).
(** a list representing a set *)
Definition same_set (a b : list Z) : Prop := NoDup a /\ forall x, In x a <-> In x b.
(** the set that tells how [now] differs from [before]: x for an x gained, -x for
    an x lost *)
Definition signed_change (s now before : list Z) : Prop :=
  NoDup s /\ forall v, In v s <-> (In v now /\ ~ In v before) \/ (In (- v) before /\ ~ In (- v) now).

(** the batches of the two halves of every day: deletions, additions, deletions ... *)
Definition halves (d : list (list entry)) : list (list entry) :=
  flat_map (fun rows => [filter (fun e => snd e <? 0) rows; filter (fun e => 0 <=? snd e) rows]) d.
(** the value each entry of [u] contributes against the history [v] *)
Definition products (u v : list entry) : list Z := map (fun e => snd e * net (fst e) v) u.
(** what the rounds of day [k] are about: the entries of party zero, then those
    of party one, each against the other party's history at that moment *)
Definition values0 (k : nat) (h0 h1 : list (list entry)) : list Z :=
  products (nth (2 * k) h0 []) (upto (2 * k) h1) ++ products (nth (2 * k + 1) h0 []) (upto (2 * k + 1) h1).
Definition values1 (k : nat) (h0 h1 : list (list entry)) : list Z :=
  products (nth (2 * k) h1 []) (upto (2 * k + 1) h0) ++ products (nth (2 * k + 1) h1 []) (upto (2 * k + 2) h0).
