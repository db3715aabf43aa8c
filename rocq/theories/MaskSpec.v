(** * Specification vocabulary for masks and shares (no model definitions used).

    [each_once D see P]: as the drawn value ranges over [D], the observer sees
    every value with [P] for exactly one draw and nothing else.  So if the draw
    is uniform, what the observer sees is uniform on [P], whatever was masked. *)
Require Import ZArith.
Local Open Scope Z_scope.

Definition each_once {A B} (D : A -> Prop) (see : A -> option B) (P : B -> Prop) : Prop :=
  (forall r, D r -> exists b, see r = Some b /\ P b) /\
  (forall b, P b -> exists r, D r /\ see r = Some b /\ forall r', D r' -> see r' = Some b -> r' = r).
(** the values of one draw below N *)
Definition drawn (N : Z) (r : Z) : Prop := 0 <= r < N.
Definition drawn2 (N : Z) (r : Z * Z) : Prop := drawn N (fst r) /\ drawn N (snd r).
(** a sequence of coins whose first coin (first two coins) are the given ones *)
Definition coin (r : Z) (t : nat -> Z) : nat -> Z := fun n => match n with O => r | S m => t m end.
(** [c] is a Paillier encryption of [m] for the modulus [n] *)
Definition encrypts (n m c : Z) : Prop :=
  0 <= c < n * n /\ exists u, Znumtheory.rel_prime u n /\ (n * n | c - (1 + m * n) * u ^ n).
