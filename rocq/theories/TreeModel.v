(** * Model of the plaintext tree (upsi/crypto_tree.{h,cc}, upsi/crypto_node.{h,cc}).

    The tree is an array of nodes: index 0 is the stash, 1 the root, node [i]
    has children [2i] and [2i+1] (crypto_tree.h:36-42).  C++ [int] indices are
    modelled by [nat]; that no [int] overflow occurs for fewer than 2^30
    elements is a theorem (property C04), not an assumption.

    Bits of hashes are [bool]s ('0' = false, '1' = true). *)
Require Import List Arith Lia Permutation Bool.
Import ListNotations.
From Verif Require Import Prelude.

(** ** Nodes *)

(** class CryptoNode, crypto_node.h:16-46: the vector and its capacity. *)
Record node (A : Type) := mkNode { elems : list A; node_cap : nat }.
Arguments mkNode {A}. Arguments elems {A}. Arguments node_cap {A}.

(** CryptoNode(size_t), crypto_node.cc:11-14. *)
Definition node_new {A} (cap : nat) : node A := mkNode [] cap.

(** CryptoNode::clear, crypto_node.cc:30-33. *)
Definition node_clear {A} (n : node A) : node A := mkNode [] (node_cap n).

(** CryptoNode::copy / copyElementsTo, crypto_node.cc:35-49 (elementCopy is a
    deep copy, utils.cc:176-213, hence the identity on values). *)
Definition node_copy {A} (n : node A) : node A := mkNode ([] ++ elems n) (node_cap n).

(** CryptoNode::addElement, crypto_node.cc:52-61: [None] = returned false. *)
Definition node_add {A} (x : A) (n : node A) : option (node A) :=
  if node_cap n <=? length (elems n) then None
  else Some (mkNode (elems n ++ [x]) (node_cap n)).

(** ** Trees *)

(** class BaseTree, crypto_tree.h:14-63. *)
Record tree (A : Type) := mkTree {
  t_stash_size : nat;
  t_node_size : nat;
  t_depth : nat;
  t_actual : nat;           (* actual_size *)
  t_nodes : list (node A)   (* crypto_tree *)
}.
Arguments mkTree {A}. Arguments t_stash_size {A}. Arguments t_node_size {A}.
Arguments t_depth {A}. Arguments t_actual {A}. Arguments t_nodes {A}.

(** BaseTree(int,size_t), crypto_tree.cc:13-26. *)
Definition tree_new {A} (stash_size node_size : nat) : tree A :=
  mkTree stash_size node_size 0 0 [node_new stash_size; node_new node_size].

(** addNewLayer, crypto_tree.cc:29-37. The while loop appends nodes until the
    vector has [1 << (depth+1)] entries. *)
Definition add_new_layer {A} (t : tree A) : tree A :=
  let d := t_depth t + 1 in
  let new_size := 2 ^ (d + 1) in
  mkTree (t_stash_size t) (t_node_size t) d (t_actual t)
    (t_nodes t ++ repeat (node_new (t_node_size t)) (new_size - length (t_nodes t))).

(** [while(new_elem_cnt + actual_size >= (1 << (depth + 1))) addNewLayer();]
    crypto_tree.cc:105 and 191 and 463.  [fuel] bounds the number of
    iterations; [grow] supplies enough (theorem [grow_spec]). *)
Fixpoint grow_loop {A} (fuel new_elem_cnt : nat) (t : tree A) : tree A :=
  match fuel with
  | O => t
  | S f => if 2 ^ (t_depth t + 1) <=? new_elem_cnt + t_actual t
           then grow_loop f new_elem_cnt (add_new_layer t) else t
  end.
Definition grow {A} (new_elem_cnt : nat) (t : tree A) : tree A :=
  grow_loop (new_elem_cnt + t_actual t) new_elem_cnt t.

(** computeIndex, crypto_tree.cc:40-49: follow [depth] bits from the root.
    Reading past the end of a hash shorter than [depth] is not modelled here;
    it is excluded by [hash_ok] or surfaces as [UB] in [replace_nodes]. *)
Definition compute_index (depth : nat) (h : list bool) : nat :=
  fold_left (fun x (b : bool) => if b then 2 * x + 1 else 2 * x) (firstn depth h) 1.

(** The loop [for (u = leaf; ; u >>= 1) { ...; if (u == 0) break; }]
    (crypto_tree.cc:131-152, 156-165, 220-224): indices visited, in order. *)
Fixpoint path_up_fuel (fuel u : nat) : list nat :=
  match fuel with
  | O => [u]
  | S f => if u =? 0 then [0] else u :: path_up_fuel f (u / 2)
  end.
Definition path_up (u : nat) : list nat := path_up_fuel u u.

(** ** extractPathIndices, crypto_tree.cc:51-74 *)

(** [std::sort(..., std::greater)] : insertion sort into decreasing order
    (any correct sort gives the same list of ints). *)
Fixpoint insert_desc (x : nat) (l : list nat) : list nat :=
  match l with
  | [] => [x]
  | y :: r => if y <=? x then x :: l else y :: insert_desc x r
  end.
Fixpoint sort_desc (l : list nat) : list nat :=
  match l with [] => [] | x :: r => insert_desc x (sort_desc r) end.

(** [std::unique] on a sorted vector: drop adjacent repeats. *)
Fixpoint unique_adj (l : list nat) : list nat :=
  match l with
  | [] => []
  | x :: r => match r with
              | [] => [x]
              | y :: _ => if x =? y then unique_adj r else x :: unique_adj r
              end
  end.

(** The loop at lines 65-73.  [done] is the already visited prefix of [ind]
    (reversed), [todo] the part from position [i] on. *)
Fixpoint parents_loop (fuel : nat) (rdone todo : list nat) : list nat :=
  match fuel with
  | O => rev rdone ++ todo
  | S f =>
    match todo with
    | [] => rev rdone
    | x :: r =>
      if x =? 0 then rev rdone ++ todo            (* stash: break *)
      else let tmp := x / 2 in
           if tmp <? last todo 0
           then parents_loop f (x :: rdone) (r ++ [tmp])
           else parents_loop f (x :: rdone) r
    end
  end.
Definition extract_path_indices (leaves : list nat) : list nat :=
  let ind := unique_adj (sort_desc leaves) in
  parents_loop (S (list_max leaves)) [] ind.

(** generateRandomPaths, crypto_tree.cc:76-92: the leaves and the indices. The
    argument lists the bits of the received / generated byte strings, i.e.
    [Byte2Binary(hsh[i])]. *)
Definition path_leaves (depth : nat) (hsh : list (list bool)) : list nat :=
  map (compute_index depth) hsh.
Definition path_indices (depth : nat) (hsh : list (list bool)) : list nat :=
  extract_path_indices (path_leaves depth hsh).

(** ** insert, crypto_tree.cc:96-181 *)
Section Insert.
  Context {A : Type}.
  (** computeBinaryHash on the element type: utils.cc:160-170; bits of
      SHA-256 of the element bytes. An arbitrary function here. *)
  Variable hash : A -> list bool.

  (** [steps = (x == leaf) ? 0 : 32 - __builtin_clz(x ^ leaf)], lines 142-144:
      the bit length of [x xor leaf]. *)
  Definition steps_of (x leaf : nat) : nat :=
    if x =? leaf then 0 else S (Nat.log2 (Nat.lxor x leaf)).

  Definition nodeAt (ns : list (node A)) (i : nat) : node A := nth i ns (node_new 0).

  (** [tmp_elem[steps].push_back(e)]: buckets are kept as stacks, most recently
      pushed element first, so [back()] is the head. *)
  Fixpoint push (i : nat) (e : A) (bs : list (list A)) : list (list A) :=
    match bs, i with
    | [], _ => []
    | b :: r, O => (e :: b) :: r
    | b :: r, S j => b :: push j e r
    end.

  (** lines 131-152: collect everything on the path into buckets, the new
      element last (it is appended to the stash copy), and clear the nodes. *)
  Definition gather_elems (ns : list (node A)) (e : A) (path : list nat) : list A :=
    flat_map (fun u => elems (nodeAt ns u) ++ if u =? 0 then [e] else []) path.
  Definition bucketize (depth leaf : nat) (es : list A) (bs : list (list A)) : list (list A) :=
    fold_left (fun bs x => push (steps_of (compute_index depth (hash x)) leaf) x bs) es bs.
  Definition clear_path (path : list nat) (ns : list (node A)) : list (node A) :=
    fold_left (fun ns u => set_nth u (node_clear (nodeAt ns u)) ns) path ns.

  (** lines 158-162, the inner loops for one bucket: move elements from the
      back of the bucket into the node until one of them is empty / full. *)
  Fixpoint fill_from (b : list A) (n : node A) : node A * list A :=
    match b with
    | [] => (n, [])
    | x :: r => match node_add x n with
                | Some n' => fill_from r n'
                | None => (n, b)
                end
    end.
  (** lines 157-163 for one node [u]: [bs] are the buckets from index [st] on. *)
  Fixpoint fill_node (steps st : nat) (bs : list (list A)) (n : node A)
    : node A * (nat * list (list A)) :=
    match bs with
    | [] => (n, (st, []))
    | b :: r =>
      if st <=? steps then
        match fill_from b n with
        | (n', []) => fill_node steps (S st) r n'
        | (n', b') => (n', (st, b' :: r))
        end
      else (n, (st, bs))
    end.
  (** lines 155-165: from the leaf up to and including the stash. *)
  Fixpoint fill_path (path : list nat) (steps st : nat) (bs : list (list A)) (ns : list (node A))
    : list (node A) * (nat * list (list A)) :=
    match path with
    | [] => (ns, (st, bs))
    | u :: r =>
      let '(n', (st', bs')) := fill_node steps st bs (nodeAt ns u) in
      fill_path r (S steps) st' bs' (set_nth u n' ns)
    end.

  (** one iteration of the loop over new elements (lines 126-171).  Returns the
      nodes, the final [st] and what is left in the buckets (destroyed at the
      end of the iteration). *)
  Definition insert_one (depth : nat) (e : A) (leaf : nat) (ns : list (node A))
    : list (node A) * (nat * list A) :=
    let path := path_up leaf in
    let bs := bucketize depth leaf (gather_elems ns e path) (repeat [] (depth + 2)) in
    let '(ns', (st, bs')) := fill_path path 0 0 bs (clear_path path ns) in
    (ns', (st, concat bs')).

  (** the loop over new elements with asserts compiled out (NDEBUG, -c opt). *)
  Fixpoint insert_loop (depth : nat) (es : list A) (leaves : list nat) (ns : list (node A))
    : list (node A) :=
    match es, leaves with
    | e :: es', l :: leaves' =>
        insert_loop depth es' leaves' (fst (insert_one depth e l ns))
    | _, _ => ns
    end.
  (** the same loop with asserts enabled (line 167): Abort when [st <= depth]. *)
  Fixpoint insert_loop_dbg (depth : nat) (es : list A) (leaves : list nat) (ns : list (node A))
    : outcome (list (node A)) :=
    match es, leaves with
    | e :: es', l :: leaves' =>
        let '(ns', (st, _)) := insert_one depth e l ns in
        if st <=? depth then Abort else insert_loop_dbg depth es' leaves' ns'
    | _, _ => Ok ns
    end.
  (** elements destroyed by the NDEBUG loop (ghost: not a program value). *)
  Fixpoint insert_lost (depth : nat) (es : list A) (leaves : list nat) (ns : list (node A))
    : list A :=
    match es, leaves with
    | e :: es', l :: leaves' =>
        let '(ns', (_, lost)) := insert_one depth e l ns in
        lost ++ insert_lost depth es' leaves' ns'
    | _, _ => []
    end.

  (** BaseTree::insert: [hsh] are the random hashes generated at line 113 (one
      per element); the result is the new tree and the copied nodes
      (lines 176-180). *)
  Definition finish_insert (t : tree A) (cnt : nat) (ns : list (node A)) (ind : list nat)
    : tree A * list (node A) :=
    (mkTree (t_stash_size t) (t_node_size t) (t_depth t) (t_actual t + cnt) ns,
     map (fun i => node_copy (nodeAt ns i)) ind).
  Definition insert (es : list A) (hsh : list (list bool)) (t : tree A) : tree A * list (node A) :=
    let t1 := grow (length es) t in
    let leaves := path_leaves (t_depth t1) hsh in
    let ind := path_indices (t_depth t1) hsh in
    finish_insert t1 (length es) (insert_loop (t_depth t1) es leaves (t_nodes t1)) ind.
  Definition insert_dbg (es : list A) (hsh : list (list bool)) (t : tree A)
    : outcome (tree A * list (node A)) :=
    let t1 := grow (length es) t in
    let leaves := path_leaves (t_depth t1) hsh in
    let ind := path_indices (t_depth t1) hsh in
    let! ns := insert_loop_dbg (t_depth t1) es leaves (t_nodes t1) in
    Ok (finish_insert t1 (length es) ns ind).

  (** getPath, crypto_tree.cc:209-226, for an element with hash bits [h]. *)
  Definition get_path (h : list bool) (t : tree A) : list A :=
    flat_map (fun u => elems (nodeAt (t_nodes t) u)) (path_up (compute_index (t_depth t) h)).
End Insert.

(** ** replaceNodes (receiver), crypto_tree.cc:183-206.
    [hashes.size()] is [new_elem_cnt] in every caller (lines 387, 404, 424,
    444).  The assert on the node count is compiled out: with fewer received
    nodes than indices the prefix is replaced; with more, [ind[i]] is out of
    bounds (UB); a hash with fewer bits than the depth is read out of bounds. *)
Definition replace_nodes {B} (new_nodes : list (node B)) (hsh : list (list bool)) (t : tree B)
  : outcome (tree B) :=
  let cnt := length hsh in
  let t1 := grow cnt t in
  if negb (forallb (fun h => t_depth t1 <=? length h) hsh) then UB else
  let ind := path_indices (t_depth t1) hsh in
  if length ind <? length new_nodes then UB else
  let ns := fold_left (fun ns p => set_nth (fst p) (snd p) ns) (combine ind new_nodes) (t_nodes t1) in
  Ok (mkTree (t_stash_size t1) (t_node_size t1) (t_depth t1) (t_actual t1 + cnt) ns).
