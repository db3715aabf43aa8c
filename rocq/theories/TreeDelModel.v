(** * InsertWithDeletions, crypto_tree.cc:452-549.

    Elements are [Z] (BigNum), payloads signed [Z]; the hash of an entry is the
    hash of its element (utils.cc:172-175). *)
Require Import List Arith Lia ZArith Bool.
Import ListNotations.
From Verif Require Import Prelude TreeModel.
Local Open Scope Z_scope.

Definition entry : Type := (Z * Z)%type.

(** [std::sort] of a vector of std::pair<BigNum,BigNum>, line 497:
    lexicographic order (any correct sort gives the same vector, since equal
    keys are equal pairs). *)
Definition entry_leb (a b : entry) : bool :=
  (fst a <? fst b) || ((fst a =? fst b) && (snd a <=? snd b)).
Fixpoint insert_entry (x : entry) (l : list entry) : list entry :=
  match l with
  | [] => [x]
  | y :: r => if entry_leb x y then x :: l else y :: insert_entry x r
  end.
Fixpoint sort_entries (l : list entry) : list entry :=
  match l with [] => [] | x :: r => insert_entry x (sort_entries r) end.

(** lines 499-508: add up runs of equal elements, keep non-zero sums. *)
Definition emit (e v : Z) : list entry := if v =? 0 then [] else [(e, v)].
Fixpoint merge_run (cur val : Z) (l : list entry) : list entry :=
  match l with
  | [] => emit cur val
  | (e, p) :: r => if e =? cur then merge_run cur (val + p) r
                   else emit cur val ++ merge_run e p r
  end.
Definition merge_sorted (l : list entry) : list entry :=
  match l with [] => [] | (e, p) :: r => merge_run e p r end.

(** lines 496-509 for one bucket.  Buckets are stacks (head = back()), so the
    C++ vector is the reverse of the list. *)
Definition merge_bucket (b : list entry) : list entry :=
  rev (merge_sorted (sort_entries (rev b))).

Section Del.
  Variable hash : Z -> list bool.
  Definition hash_entry (x : entry) : list bool := hash (fst x).

  (** one iteration of the loop, lines 471-526. *)
  Definition insert_one_del (depth : nat) (e : entry) (leaf : nat) (ns : list (node entry))
    : list (node entry) * (nat * list entry) :=
    let path := path_up leaf in
    let bs := bucketize hash_entry depth leaf (gather_elems ns e path) (repeat [] (depth + 2)) in
    let us := map merge_bucket bs in
    let '(ns', (st, bs')) := fill_path path 0 0 us (clear_path path ns) in
    (ns', (st, concat bs')).

  Fixpoint insert_loop_del (depth : nat) (es : list entry) (leaves : list nat) (ns : list (node entry))
    : list (node entry) :=
    match es, leaves with
    | e :: es', l :: leaves' =>
        insert_loop_del depth es' leaves' (fst (insert_one_del depth e l ns))
    | _, _ => ns
    end.
  (** with asserts enabled (line 526) *)
  Fixpoint insert_loop_del_dbg (depth : nat) (es : list entry) (leaves : list nat) (ns : list (node entry))
    : outcome (list (node entry)) :=
    match es, leaves with
    | e :: es', l :: leaves' =>
        let '(ns', (st, _)) := insert_one_del depth e l ns in
        if (st <=? depth)%nat then Abort else insert_loop_del_dbg depth es' leaves' ns'
    | _, _ => Ok ns
    end.
  (** entries destroyed by the NDEBUG loop (ghost) *)
  Fixpoint insert_del_lost (depth : nat) (es : list entry) (leaves : list nat) (ns : list (node entry))
    : list entry :=
    match es, leaves with
    | e :: es', l :: leaves' =>
        let '(ns', (_, lost)) := insert_one_del depth e l ns in
        lost ++ insert_del_lost depth es' leaves' ns'
    | _, _ => []
    end.

  Definition insert_del (es : list entry) (hsh : list (list bool)) (t : tree entry)
    : tree entry * list (node entry) :=
    let t1 := grow (length es) t in
    let leaves := path_leaves (t_depth t1) hsh in
    let ind := path_indices (t_depth t1) hsh in
    finish_insert t1 (length es) (insert_loop_del (t_depth t1) es leaves (t_nodes t1)) ind.
  Definition insert_del_dbg (es : list entry) (hsh : list (list bool)) (t : tree entry)
    : outcome (tree entry * list (node entry)) :=
    let t1 := grow (length es) t in
    let leaves := path_leaves (t_depth t1) hsh in
    let ind := path_indices (t_depth t1) hsh in
    let! ns := insert_loop_del_dbg (t_depth t1) es leaves (t_nodes t1) in
    Ok (finish_insert t1 (length es) ns ind).
End Del.
