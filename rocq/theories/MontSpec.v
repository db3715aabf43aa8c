(** * Specification for C57: programs over MontBigNum and what they denote. *)
Require Import List ZArith.
From Verif Require Import Prelude BytesModel MontModel.
Local Open Scope Z_scope.

(** What a client can build with the API, from contexts 0, 1, 2, ... that all have
    the same modulus: a number created in a context, a product, repeated squaring,
    and a number serialised and read back by another context. *)
Inductive program :=
| Create (c : nat) (x : Z)
| Times (a b : program)
| PowTwo (a : program) (k : Z)
| Reload (c : nat) (a : program).

(** the integer a program denotes *)
Fixpoint denotes (p : program) : Z :=
  match p with
  | Create _ x => x
  | Times a b => denotes a * denotes b
  | PowTwo a k => denotes a ^ (2 ^ k)
  | Reload _ a => denotes a
  end.
(** numbers are below the modulus, exponents are not negative *)
Fixpoint proper (m : Z) (p : program) : Prop :=
  match p with
  | Create _ x => 0 <= x < m
  | Times a b => proper m a /\ proper m b
  | PowTwo a k => proper m a /\ 0 <= k
  | Reload _ a => proper m a
  end.
(** the context a program's result belongs to; [None] if it multiplies numbers
    of different contexts *)
Fixpoint home (p : program) : option nat :=
  match p with
  | Create c _ => Some c
  | Times a b => match home a, home b with
                 | Some i, Some j => if Nat.eqb i j then Some i else None
                 | _, _ => None
                 end
  | PowTwo a _ => home a
  | Reload c a => match home a with Some _ => Some c | None => None end
  end.

(** running a program against the model *)
Fixpoint execute (m : Z) (p : program) : outcome mont :=
  match p with
  | Create c x => let! k := mont_context c m in mont_create k x
  | Times a b => let! x := execute m a in let! y := execute m b in mont_mul x y
  | PowTwo a k => let! x := execute m a in mont_pow2 x k
  | Reload c a => let! x := execute m a in let! k := mont_context c m in
                  Ok (mont_create_bytes k (mont_to_bytes x))
  end.
