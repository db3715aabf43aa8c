(** * Properties C11, C12 (and C03 for signed updates): the deletion tree.

    Statements only.  Vocabulary: TreeSpec.v, TreeDelSpec.v; program: TreeDelModel.v. *)
Require Import List Arith Lia ZArith Permutation Bool.
Import ListNotations.
From Verif Require Import Prelude TreeModel TreeSpec TreeDelModel TreeDelSpec TreeDelProofs.

(** C11. Any history of signed batches that does not overflow: the stored
    payloads of every element add up to all payloads ever inserted with it, in
    the whole tree and on the path returned by [getPath(x)]; the release build
    ends in the same tree. *)
Theorem C11_signed_updates :
  forall (hash : Z -> list bool) (stash_size node_size : nat) (days : list (@batch (Z * Z))) t,
    (forall x, length (hash x) = 256) ->
    Forall valid_batch days ->
    int_range (length (history_elems days)) ->
    run_del_debug hash days (tree_new stash_size node_size) = Ok t ->
    t_actual t = length (history_elems days)
    /\ run_del_release hash days (tree_new stash_size node_size) = t
    /\ forall x, net x (contents t) = net x (history_elems days)
              /\ net x (get_path (hash x) t) = net x (history_elems days).
Proof. exact signed_updates. Qed.

(** C12. Inserting one signed entry along a random path [h] of any reachable
    tree: afterwards no entry of that path has payload zero, no element occurs
    twice on it, and an element whose payloads on the path (old ones and the
    new one) cancel has disappeared from the path. *)
Theorem C12_cancelled_vanish :
  forall (hash : Z -> list bool) (stash_size node_size : nat) (days : list (@batch (Z * Z)))
         (e : Z * Z) (h : list bool),
    (forall x, length (hash x) = 256) ->
    Forall valid_batch days ->
    length h = 256 ->
    int_range (length (history_elems days) + 1) ->
    let t := run_del_release hash days (tree_new stash_size node_size) in
    let t' := fst (insert_del hash [e] [h] t) in
    Forall (fun y => snd y <> 0%Z) (get_path h t')
    /\ NoDup (map fst (get_path h t'))
    /\ (forall x, net x (e :: get_path h (grow 1 t)) = 0%Z -> ~ In x (map fst (get_path h t'))).
Proof. exact cancelled_vanish. Qed.

(** C03 for histories with deletions. *)
Theorem C03_capacities_deletions :
  forall (hash : Z -> list bool) (stash_size node_size : nat) (days : list (@batch (Z * Z))) v,
    (forall x, length (hash x) = 256) ->
    Forall valid_batch days ->
    int_range (length (history_elems days)) ->
    let t := run_del_release hash days (tree_new stash_size node_size) in
    v < length (t_nodes t) ->
    length (elems (nth v (t_nodes t) (node_new 0))) <= (if v =? 0 then stash_size else node_size).
Proof. exact del_capacities. Qed.

(** C05 for signed updates: the build with asserts aborts iff entries are
    lost; the release build keeps every net payload except the lost ones. *)
Theorem C05_overflow_deletions :
  forall (hash : Z -> list bool) (stash_size node_size : nat) (days : list (@batch (Z * Z)))
         (b : @batch (Z * Z)),
    (forall x, length (hash x) = 256) ->
    Forall valid_batch (days ++ [b]) ->
    int_range (length (history_elems (days ++ [b]))) ->
    let t := run_del_release hash days (tree_new stash_size node_size) in
    let r := insert_del hash (fst b) (snd b) t in
    exists lost,
      (forall x, (net x (contents (fst r)) + net x lost = net x (fst b) + net x (contents t))%Z)
      /\ (insert_del_dbg hash (fst b) (snd b) t = Abort <-> lost <> [])
      /\ (lost = [] -> insert_del_dbg hash (fst b) (snd b) t = Ok r).
Proof. exact overflow_deletions. Qed.

Section Examples.
Fixpoint zbits (n : nat) (x : Z) : list bool :=
  match n with O => [] | S m => Z.odd x :: zbits m (x / 2)%Z end.
Definition exd_hash (x : Z) : list bool := zbits 256 x.
Definition exd_days : list (@batch (Z * Z)) :=
  [ ([(5,1);(6,1);(7,1)]%Z, [exd_hash 0; exd_hash 1; exd_hash 2]);
    ([(5,-1);(8,1);(7,3)]%Z, [exd_hash 5; exd_hash 1; exd_hash 6]) ].
Example exd_hash_len : forall x, length (exd_hash x) = 256.
Proof. intros x. unfold exd_hash. generalize 256. intros n; revert x; induction n; simpl; auto. Qed.
Example exd_valid : Forall valid_batch exd_days.
Proof. unfold exd_days, valid_batch. repeat (constructor; cbn [fst snd length]; auto using exd_hash_len). Qed.
Example exd_range : int_range (length (history_elems exd_days) + 1).
Proof. vm_compute. reflexivity. Qed.
Example exd_ok : exists t, run_del_debug exd_hash exd_days (tree_new 3 2) = Ok t
  /\ net 5 (contents t) = 0%Z /\ net 7 (get_path (exd_hash 7) t) = 4%Z
  /\ map fst (contents t) <> [].
Proof. eexists. split; [vm_compute; reflexivity|]. repeat split; vm_compute; congruence. Qed.
(* deleting 8 along its own path: it is gone *)
Example exd_cancel :
  let t := run_del_release exd_hash exd_days (tree_new 3 2) in
  In 8%Z (map fst (get_path (exd_hash 8) (grow 1 t)))
  /\ net 8 ((8, -1)%Z :: get_path (exd_hash 8) (grow 1 t)) = 0%Z.
Proof. split; vm_compute; auto 10. Qed.
End Examples.

Print Assumptions C11_signed_updates.
Print Assumptions C12_cancelled_vanish.
Print Assumptions C03_capacities_deletions.
Print Assumptions C05_overflow_deletions.
