(** * Specification vocabulary for curve points (no model definitions used). *)
Require Import List ZArith Znumtheory.
Import ListNotations.
Local Open Scope Z_scope.

(** (x, y) is a point of y^2 = x^3 + a x + b modulo p, in reduced coordinates *)
Definition on_curve (p a b x y : Z) : Prop :=
  0 <= x < p /\ 0 <= y < p /\ (p | y * y - (x * x * x + a * x + b)).
(** x is the abscissa of a point with y <> 0 *)
Definition usable (p a b x : Z) : Prop := exists y, y <> 0 /\ on_curve p a b x y.
(** successive candidates: the digest of the message, then the digest of the
    byte string of the previous candidate, ... *)
Fixpoint candidate (H : list Z -> Z) (str : Z -> list Z) (m : list Z) (k : nat) : Z :=
  match k with O => H m | S j => H (str (candidate H str m j)) end.
(** [root] finds a square root modulo a prime whenever there is one *)
Definition finds_roots (root : Z -> Z -> option Z) : Prop :=
  forall p a, prime p -> 0 <= a < p ->
    match root a p with
    | Some r => 0 <= r < p /\ (p | r * r - a)
    | None => forall r, ~ (p | r * r - a)
    end.
