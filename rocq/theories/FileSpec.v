(** * Specification vocabulary for files of records. *)
Require Import List Arith ZArith Sorted Permutation.
Import ListNotations.
From Verif Require Import Prelude BytesModel FileModel.
Local Open Scope Z_scope.

(** no operation of the operating system fails *)
Definition reliable (e : env) : Prop := forall n, fault e n = None.
(** the limit of protobuf's int sizes *)
Definition short (d : bytes) : Prop := Z.of_nat (length d) < 2 ^ 31.
(** all files but those named in [l] are the same *)
Definition same_except (l : list bytes) (w w' : world) : Prop := forall n, ~ In n l -> files w' n = files w n.
Definition returned {A} (o : outcome A) : Prop := match o with Ok _ | Err _ => True | _ => False end.

(** a strict total order, as C++'s operator< on int64_t and std::string *)
Record strict_order {K : Type} (lt : K -> K -> bool) : Prop := {
  lt_irrefl : forall a, lt a a = false;
  lt_trans : forall a b c, lt a b = true -> lt b c = true -> lt a c = true;
  lt_total : forall a b, lt a b = false -> lt b a = false -> a = b
}.
(** no record has a larger key than one after it *)
Definition sorted_by {K : Type} (lt : K -> K -> bool) (key : bytes -> K) (l : list bytes) : Prop :=
  StronglySorted (fun a b => lt (key b) (key a) = false) l.
