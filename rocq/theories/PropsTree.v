(** * Properties C01-C05, C08-C10 of the plaintext tree.

    Statements only; each proof is one [exact]/[apply] of a lemma proved in the
    proof files.  Vocabulary: TreeSpec.v; program: TreeModel.v. *)
Require Import List Arith Lia ZArith Permutation Bool Sorted.
Import ListNotations.
From Verif Require Import Prelude TreeModel TreeSpec TreeIndex TreeProofs TreeHistory TreeOverflow TreePropsProofs.

(** C01. Any history that does not overflow (i.e. the build with asserts does
    not abort) stores exactly the inserted multiset; the release build ends in
    the same tree. *)
Theorem C01_insert_conserves :
  forall (A : Type) (hash : A -> list bool) (stash_size node_size : nat) (days : list batch) t,
    (forall x, length (hash x) = 256) ->
    Forall valid_batch days ->
    int_range (length (history_elems days)) ->
    run_debug hash days (tree_new stash_size node_size) = Ok t ->
    Permutation (contents t) (history_elems days)
    /\ t_actual t = length (history_elems days)
    /\ run_release hash days (tree_new stash_size node_size) = t.
Proof. exact insert_conserves. Qed.

(** C02. [getPath(x)] returns every stored entry whose key hashes like [x]'s --
    in particular every stored copy of [x] with its payload -- exactly as
    often as it is stored; also after growing by any number [k] of elements'
    worth of layers.  ([same x y] is any test that implies equal hashes, e.g.
    equality of elements regardless of payload.) *)
Theorem C02_lookup_complete :
  forall (A : Type) (hash : A -> list bool) (same : A -> A -> bool)
         (stash_size node_size : nat) (days : list batch) (k : nat) (x : A),
    (forall x, length (hash x) = 256) ->
    (forall x y, same x y = true -> hash y = hash x) ->
    Forall valid_batch days ->
    int_range (length (history_elems days) + k) ->
    let t := run_release hash days (tree_new stash_size node_size) in
    let t' := grow k t in
    contents t' = contents t
    /\ Permutation (filter (same x) (get_path (hash x) t)) (filter (same x) (contents t))
    /\ Permutation (filter (same x) (get_path (hash x) t')) (filter (same x) (contents t)).
Proof. exact lookup_complete. Qed.

(** C01 + C02: without overflow a lookup finds exactly the inserted copies. *)
Theorem C02_lookup_finds_inserted :
  forall (A : Type) (hash : A -> list bool) (same : A -> A -> bool)
         (stash_size node_size : nat) (days : list batch) (x : A) t,
    (forall x, length (hash x) = 256) ->
    (forall x y, same x y = true -> hash y = hash x) ->
    Forall valid_batch days ->
    int_range (length (history_elems days)) ->
    run_debug hash days (tree_new stash_size node_size) = Ok t ->
    Permutation (filter (same x) (get_path (hash x) t)) (filter (same x) (history_elems days)).
Proof. exact lookup_finds_inserted. Qed.

(** C03. No node ever exceeds its capacity, in the release build too. *)
Theorem C03_capacities :
  forall (A : Type) (hash : A -> list bool) (stash_size node_size : nat) (days : list batch) v,
    (forall x, length (hash x) = 256) ->
    Forall valid_batch days ->
    int_range (length (history_elems days)) ->
    let t := run_release hash days (tree_new stash_size node_size) in
    v < length (t_nodes t) ->
    length (elems (nth v (t_nodes t) (node_new 0))) <= (if v =? 0 then stash_size else node_size).
Proof. exact capacities. Qed.

(** C04. Growth.  The depth after an insertion into any reachable tree. *)
Theorem C04_growth :
  forall (A : Type) (hash : A -> list bool) (stash_size node_size : nat) (days : list batch) (b : batch),
    (forall x, length (hash x) = 256) ->
    Forall valid_batch (days ++ [b]) ->
    int_range (length (history_elems (days ++ [b]))) ->
    let t := run_release hash days (tree_new stash_size node_size) in
    let t' := fst (insert hash (fst b) (snd b) t) in
    let total := length (history_elems (days ++ [b])) in
    t_actual t' = total
    /\ length (t_nodes t') = 2 ^ (t_depth t' + 1)
    /\ total < 2 ^ (t_depth t' + 1)
    /\ t_depth t <= t_depth t'
    /\ (forall d, t_depth t <= d -> total < 2 ^ (d + 1) -> t_depth t' <= d)
    /\ (Z.of_nat (length (t_nodes t')) < 2 ^ 31)%Z.
Proof. exact growth. Qed.

(** C05 (i). One more insertion into any reachable tree: there is a multiset
    [lost] such that the release build keeps everything except [lost], and the
    build with asserts aborts iff [lost] is non-empty (and otherwise computes
    the same result). *)
Theorem C05_overflow_abort_iff_loss :
  forall (A : Type) (hash : A -> list bool) (stash_size node_size : nat) (days : list batch) (b : batch),
    (forall x, length (hash x) = 256) ->
    Forall valid_batch (days ++ [b]) ->
    int_range (length (history_elems (days ++ [b]))) ->
    let t := run_release hash days (tree_new stash_size node_size) in
    let r := insert hash (fst b) (snd b) t in
    exists lost,
      Permutation (contents (fst r) ++ lost) (fst b ++ contents t)
      /\ (insert_dbg hash (fst b) (snd b) t = Abort <-> lost <> [])
      /\ (lost = [] -> insert_dbg hash (fst b) (snd b) t = Ok r).
Proof. exact overflow_abort_iff_loss. Qed.

(** C05 (ii). Whatever the sizes and the hash function, there are distinct
    elements (from any infinite universe) and random paths for which a single
    release-build insertion into a fresh tree silently loses an element. *)
Theorem C05_release_build_loses_element :
  forall (A : Type) (hash : A -> list bool) (f : nat -> A) (stash_size node_size : nat),
    (forall x, length (hash x) = 256) ->
    (forall i j, f i = f j -> i = j) ->
    int_range (stash_size + node_size + 1) ->
    exists es hsh,
      NoDup es /\ valid_batch (es, hsh) /\ length es = stash_size + node_size + 1
      /\ exists x, In x es
           /\ ~ In x (contents (fst (insert hash es hsh (tree_new stash_size node_size)))).
Proof. exact release_build_loses_element. Qed.

(** C08. *)
Theorem C08_path_indices :
  forall (depth : nat) (leaves : list nat),
    (forall l, In l leaves -> 2 ^ depth <= l < 2 ^ (depth + 1)) ->
    StronglySorted gt (extract_path_indices leaves)
    /\ (forall v, In v (extract_path_indices leaves) <->
                  exists l, In l leaves /\ ancestor v l)
    /\ (leaves = [] -> extract_path_indices leaves = [])
    /\ (leaves <> [] -> In 0 (extract_path_indices leaves) /\ In 1 (extract_path_indices leaves)).
Proof. exact path_indices_exact. Qed.

(** C09. *)
Theorem C09_leaf_index :
  forall (depth : nat) (h h' : list bool),
    depth < length h ->
    2 ^ depth <= compute_index depth h < 2 ^ (depth + 1)
    /\ (compute_index (depth + 1) h = 2 * compute_index depth h
        \/ compute_index (depth + 1) h = 2 * compute_index depth h + 1)
    /\ (firstn depth h = firstn depth h' -> compute_index depth h' = compute_index depth h)
    /\ (length h' = length h -> compute_index depth h' = compute_index depth h ->
        firstn depth h' = firstn depth h).
Proof. exact leaf_index. Qed.

(** C09, payload independence: erasing payloads commutes with a whole release
    history (tree of (element, payload) pairs, hashed by the element,
    utils.cc:160-175): the elements are in the same nodes in the same order as
    in the tree of the bare elements. *)
Theorem C09_payload_independent :
  forall (E P : Type) (hash : E -> list bool) (stash_size node_size : nat)
         (days : list (@batch (E * P))),
    let hash_ep (x : E * P) := hash (fst x) in
    let erase (b : @batch (E * P)) := (map fst (fst b), snd b) in
    map (fun n => map fst (elems n)) (t_nodes (run_release hash_ep days (tree_new stash_size node_size)))
    = map elems (t_nodes (run_release hash (map erase days) (tree_new stash_size node_size))).
Proof. exact payload_independent. Qed.

(** C10. *)
Theorem C10_full_path :
  forall (A : Type) (t : tree A) (h : list bool),
    t_depth t <= length h ->
    let visited := path_up (compute_index (t_depth t) h) in
    length visited = t_depth t + 2
    /\ NoDup visited
    /\ hd 0 visited = compute_index (t_depth t) h
    /\ last visited 1 = 0
    /\ (forall v, In v visited <-> ancestor v (compute_index (t_depth t) h))
    /\ get_path h t = flat_map (fun u => elems (nth u (t_nodes t) (node_new 0))) visited
    /\ ((forall v, v < 2 ^ (t_depth t + 1) -> In v visited ->
            length (elems (nth v (t_nodes t) (node_new 0)))
            = if v =? 0 then t_stash_size t else t_node_size t) ->
        length (get_path h t) = (t_depth t + 1) * t_node_size t + t_stash_size t).
Proof. exact full_path. Qed.

(** ** Non-vacuity: a concrete history meeting the hypotheses. *)
Section Examples.
(* elements are numbers, the hash is the 256-bit little-endian binary expansion *)
Fixpoint bits (n : nat) (x : nat) : list bool :=
  match n with O => [] | S m => Nat.odd x :: bits m (x / 2) end.
Definition ex_hash (x : nat) : list bool := bits 256 x.
Definition ex_days : list (@batch nat) :=
  [ ([5;6;7], [ex_hash 0; ex_hash 1; ex_hash 2]); ([], []); ([8;5], [ex_hash 3; ex_hash 1]) ].

Example ex_hash_len : forall x, length (ex_hash x) = 256.
Proof. intros x. unfold ex_hash. generalize 256. intros n; revert x; induction n; simpl; auto. Qed.
Example ex_days_valid : Forall valid_batch ex_days.
Proof. unfold ex_days, valid_batch. repeat (constructor; cbn [fst snd length]; auto using ex_hash_len). Qed.
Example ex_days_range : int_range (length (history_elems ex_days)).
Proof. vm_compute. reflexivity. Qed.
Example ex_days_ok : exists t, run_debug ex_hash ex_days (tree_new 3 1) = Ok t /\ t_depth t = 2.
Proof. eexists. split; vm_compute; reflexivity. Qed.
(* a lookup that finds two copies of 5 *)
Example ex_lookup :
  filter (Nat.eqb 5) (get_path (ex_hash 5) (run_release ex_hash ex_days (tree_new 3 1))) = [5; 5].
Proof. vm_compute. reflexivity. Qed.
(* an overflow: tree with one slot per node and an empty stash *)
Example ex_overflow :
  insert_dbg ex_hash [1;3] [ex_hash 0; ex_hash 0] (tree_new 0 1) = Abort
  /\ contents (fst (insert ex_hash [1;3] [ex_hash 0; ex_hash 0] (tree_new 0 1))) = [3].
Proof. split; vm_compute; reflexivity. Qed.
Example ex_path_indices : extract_path_indices [5;4;7;5] = [7;5;4;3;2;1;0].
Proof. vm_compute. reflexivity. Qed.
End Examples.

Print Assumptions C01_insert_conserves.
Print Assumptions C02_lookup_complete.
Print Assumptions C02_lookup_finds_inserted.
Print Assumptions C03_capacities.
Print Assumptions C04_growth.
Print Assumptions C05_overflow_abort_iff_loss.
Print Assumptions C05_release_build_loses_element.
Print Assumptions C08_path_indices.
Print Assumptions C09_leaf_index.
Print Assumptions C09_payload_independent.
Print Assumptions C10_full_path.
