(** * Specification vocabulary for updates between parties (C06, C07). *)
Require Import List Arith ZArith Permutation Bool.
Import ListNotations.
From Verif Require Import Prelude TreeModel.

Section Spec.
Context {A C : Type}.
(** [c] encrypts [a] *)
Variable Rep : A -> C -> Prop.
(** [p] is a padding entry *)
Variable is_pad : A -> Prop.

(** same parameters, depth, counter and number of nodes, and every receiver
    node is either untouched (and the sender node empty) or encrypts the
    sender node followed by padding entries, up to the capacity of the node *)
Definition capacity {B} (t : tree B) (v : nat) : nat := if v =? 0 then t_stash_size t else t_node_size t.
Definition entries_at {B} (t : tree B) (v : nat) : list B := elems (nth v (t_nodes t) (node_new 0)).
Definition mirrors (ts : tree A) (tr : tree C) : Prop :=
  t_stash_size tr = t_stash_size ts /\ t_node_size tr = t_node_size ts
  /\ t_depth tr = t_depth ts /\ t_actual tr = t_actual ts
  /\ length (t_nodes tr) = length (t_nodes ts)
  /\ forall v, v < length (t_nodes ts) ->
       (entries_at ts v = [] /\ entries_at tr v = [])
       \/ exists pads, Forall is_pad pads
            /\ length (entries_at ts v ++ pads) = capacity ts v
            /\ Forall2 Rep (entries_at ts v ++ pads) (entries_at tr v).
End Spec.
(** padding entries of the two element types *)
Definition pad_elem (x : Z) : Prop := (10 ^ 15 <= x < 2 * 10 ^ 15)%Z.
Definition pad_entry (x : Z * Z) : Prop := (10 ^ 15 <= fst x < 2 * 10 ^ 15)%Z /\ snd x = 0%Z.
(** the call returned (a value or an error status): no crash, no undefined
    behaviour *)
Definition returns {T} (o : outcome T) : Prop := match o with Ok _ | Err _ => True | _ => False end.
