(** * Mock trees: the starting trees of a benchmark run (--start_size).

    CreateMockTrees, deletion/party.h:61-94 and deletion-psi/party.h:61-94 (the
    same text), addition/party_zero.h:225-258 and addition/party_one.h:146-178
    (secret sharing only; the other programs ignore --start_size).  The four
    versions differ in the entries of the plaintext tree and in the encryption of
    zero, which are parameters here. *)
Require Import List Arith ZArith Bool.
Import ListNotations.
From Verif Require Import Prelude TreeModel TreeDelModel Coins Group ElGamalModel BytesModel PaillierModel WireModel SyncModel.
Local Open Scope nat_scope.

Section Mock.
Context {A C : Type}.
Variable hash : A -> list bool.
Variable el : Z -> A.       (* the entry of a random element *)
Variable zero : M C.        (* encryption of a zero entry *)

(** The elements: std::stoull of GetRandomSetElement(), which is a string of
    digits (utils.cc:250-273). *)
Definition mock_element : M A := s <- random_set_element ;; ret (el (numeric_string2uint s)).
(** The replica: one node per node of the plaintext tree, each filled with
    copies of the same encryption (deletion/party.h:80-91); the stash and node
    size of the tree object itself are not touched. *)
Definition mock_node (z : C) (pnode : node A) : node C := mkNode (repeat z (node_cap pnode)) (node_cap pnode).
Definition mock_other (z : C) (my : tree A) (other : tree C) : tree C :=
  mkTree (t_stash_size other) (t_node_size other) (t_depth my) (t_actual my) (map (mock_node z) (t_nodes my)).
(** CreateMockTrees: BaseTree::insert (the version without deletions, also in
    deletion/party.h:76), then the encryption; if it fails the plaintext tree is
    filled already.  The constructors print a failure and go on
    (deletion/party.h:53-59: the exception is created but not thrown). *)
Definition create_mock_trees (size : nat) : ST (tree A * tree C) unit := fun st tp =>
  let '(my, other) := st in
  match repeatM size mock_element tp with
  | Ok (es, tp1) =>
      match random_hashes size tp1 with
      | Ok (hs, tp2) =>
          let my' := fst (insert hash es (map byte2binary hs) my) in
          match zero tp2 with
          | Ok (z, tp3) => ((my', mock_other z my' other), Ok (tt, tp3))
          | Err c => ((my', other), Err c) | Abort => ((my', other), Abort) | UB => ((my', other), UB)
          end
      | Err c => (st, Err c) | Abort => (st, Abort) | UB => (st, UB)
      end
  | Err c => (st, Err c) | Abort => (st, Abort) | UB => (st, UB)
  end.
End Mock.

(** The four versions. *)
Section Kinds.
Context {Gr : group}.
Variable hash : Z -> list bool.
(** deletion and deletion-psi: one Paillier encryption, used twice *)
Definition del_mock (penc : Z -> M Z) : nat -> ST (tree (Z * Z) * tree (Z * Z)) unit :=
  create_mock_trees (hash_entry hash) (fun x => (x, 1%Z)) (z <- penc 0%Z ;; ret (z, z)).
(** addition, party zero: the peer has bare elements *)
Definition ss_mock_zero (pk : pubkey Gr) : nat -> ST (tree (Z * Z) * tree (ct Gr)) unit :=
  create_mock_trees (hash_entry hash) (fun x => (x, 1%Z)) (c <- encrypt pk 0%Z ;; ret (ct_clone c)).
(** addition, party one *)
Definition ss_mock_one (pk : pubkey Gr) (penc : Z -> M Z) : nat -> ST (tree Z * tree (ct Gr * Z)) unit :=
  create_mock_trees hash (fun x => x) (c <- encrypt pk 0%Z ;; b <- penc 0%Z ;; ret (ct_clone c, b)).
End Kinds.
