(** * Initial trees: written by the setup program, read by the parties.

    upsi/util/setup_util.cc:180-295 (WriteTrees, GenerateTrees),
    upsi/addition/setup.cc:41-124 (GenerateData, the part about trees) and the
    constructor HasTree, upsi/roles.h:75-110.

    The four tree files are modelled by their messages (what protobuf and
    RecordIO do to a message written and read back is FileModel / C44); a file
    that cannot be written ends the setup program with an error, one that cannot
    be read is treated like one that cannot be decoded. *)
Require Import String.
Require Import List Arith Lia ZArith Bool.
Import ListNotations.
From Verif Require Import Prelude TreeModel TreeDelModel Coins Group ElGamalModel BytesModel CipherModel PaillierModel WireModel SyncModel FlagModel AddModel.
Local Open Scope Z_scope.

Section Generic.
Context {Gr : group} {A C : Type}.
Variables stash node : nat.          (* DEFAULT_STASH_SIZE, DEFAULT_NODE_SIZE *)
Variable ins : list A -> list (list bool) -> tree A -> tree A * list (TreeModel.node A).
Variable mk : Z -> A.
Variable enc : A -> M C.
Variable ser : C -> outcome (welem Gr).
Variable deser : welem Gr -> outcome C.
Variable serp : TreeModel.node A -> outcome pnode.

(** WriteTrees, setup_util.cc:180-199 *)
Definition write_trees (pt : tree A) (et : tree C) : outcome (tree_file pnode * tree_file (list (welem Gr))) :=
  let! p := tree_serialize serp pt in
  let! e := tree_serialize (ser_node ser) et in Ok (p, e).
(** The common part of the three GenerateTrees, setup_util.cc:213-222,
    245-252 (and 256-263), 284-292: fill a plaintext tree, apply the update
    message to an encrypted tree, write both. *)
Definition generate_trees (data : list A) : M (tree_file pnode * tree_file (list (welem Gr))) := fun tp =>
  let '(pt, o) := send_update ins mk enc ser data (tree_new stash node) tp in
  (u <- (fun _ => o) ;;
   et <- lift (recv_update deser u (tree_new stash node)) ;;
   lift (write_trees pt et)) tp.
End Generic.

Section Add.
Context {Gr : group}.
Variables stash node : nat.
Variable hash : Z -> list bool.
Variable pk : pubkey Gr.             (* shared.pub *)
(** GenerateTrees for elements, setup_util.cc:201-224 *)
Definition trees_plain (data : list Z) :=
  generate_trees (Gr := Gr) stash node (insert hash) (fun x => x) (enc_plain pk) ser_plain deser_plain ser_pnode data.
(** GenerateTrees for elements with values, setup_util.cc:226-266: not for
    secret shares, and for secret shares ([paillier] is read from
    paillier.key) *)
Definition trees_elgamal (data : list (Z * Z)) :=
  generate_trees (Gr := Gr) stash node (insert (fun a => hash (fst a))) pad_payload (enc_elgamal pk) ser_elgamal deser_elgamal ser_pnode_payload data.
Definition trees_paillier (paillier : pub) (data : list (Z * Z)) :=
  generate_trees (Gr := Gr) stash node (insert (fun a => hash (fst a))) pad_payload (enc_paillier pk (pub_encrypt paillier)) ser_paillier deser_paillier ser_pnode_payload data.

(** data/p0/{plaintext,encrypted}.tree and data/p1/{plaintext,encrypted}.tree *)
Record tree_files := mkFiles {
  p0_plaintext : tree_file pnode; p0_encrypted : tree_file (list (welem Gr));
  p1_plaintext : tree_file pnode; p1_encrypted : tree_file (list (welem Gr)) }.
(** GenerateData, addition/setup.cc:75-92 ([start_size > 0]): party zero's tree
    goes to p0/plaintext.tree and p1/encrypted.tree, party one's to
    p1/plaintext.tree and p0/encrypted.tree. *)
Definition is_ss (f : functionality) : bool := match f with SS => true | _ => false end.
Definition setup_trees (func : functionality) (paillier : pub) (start0 : list (Z * Z)) (start1 : list Z) : M tree_files :=
  f0 <- (if is_ss func then trees_paillier paillier start0 else trees_elgamal start0) ;;
  f1 <- trees_plain start1 ;;
  ret (mkFiles (fst f0) (snd f1) (fst f1) (snd f0)).
End Add.
Arguments tree_files : clear implicits.

(** HasTree, roles.h:75-110 with trees to import: any failure is an exception
    nobody catches.  The sizes of the constructor are overwritten. *)
Definition import_trees {A C N N'} (desern : N -> outcome (TreeModel.node A)) (desern' : N' -> outcome (TreeModel.node C))
    (my : tree_file N) (other : tree_file N') : outcome (tree A * tree C) :=
  match tree_deserialize desern my with
  | Ok my' => match tree_deserialize desern' other with Ok other' => Ok (my', other') | _ => Abort end
  | _ => Abort
  end.

Section Import.
Context {Gr : group}.
(** The tree types of the parties, addition/party_zero.h:27-30 (PSI, CA) and
    122-126 (SUM, SS); party_one.h:49 (PSI, CA), 101 (SUM), 130 (SS) *)
Definition import_zero_no_payload (d : tree_files Gr) := import_trees deser_pnode (deser_node (@deser_plain Gr)) (p0_plaintext d) (p0_encrypted d).
Definition import_zero_payload (d : tree_files Gr) := import_trees deser_pnode_payload (deser_node (@deser_plain Gr)) (p0_plaintext d) (p0_encrypted d).
Definition import_one_no_payload (d : tree_files Gr) := import_trees deser_pnode (deser_node (@deser_plain Gr)) (p1_plaintext d) (p1_encrypted d).
Definition import_one_sum (d : tree_files Gr) := import_trees deser_pnode (deser_node (@deser_elgamal Gr)) (p1_plaintext d) (p1_encrypted d).
Definition import_one_ss (d : tree_files Gr) := import_trees deser_pnode (deser_node (@deser_paillier Gr)) (p1_plaintext d) (p1_encrypted d).

(** The two parties constructed with --trees, addition/run.cc:44-83, 123-167
    and the constructors; the rest as without trees. *)
Definition client_with {A R} (ts : tree A * tree (ct Gr)) (total : nat) (data : list (list A)) (out : R) : client Gr A R :=
  mkClient (fst ts) (snd ts) data 0 total out.
Definition server_with {E} (ts : tree Z * tree E) (total : nat) (data : list (list Z)) : server E :=
  mkServer (fst ts) (snd ts) data 0 total (repeat 0 total) [].
End Import.

(** ** Setup followed by a run with --trees, per functionality *)
Section Run.
Context {Gr : group}.
Variable hash : Z -> list bool.
Variable pk : pubkey Gr.
Variables sk0 sk1 : Z.
Variable csize : client_msg Gr -> Z.
Variable ssize : server_msg Gr -> Z.
Variables (n : Z) (pai0 pai1 : pub) (psk0 psk1 : Z).   (* threshold Paillier keys *)
Variables stash node : nat.
Variable func : functionality.       (* --func given to setup *)
Variables (start0 : list (Z * Z)) (start1 : list Z).
Definition prepared : M (tree_files Gr) := setup_trees stash node hash pk func pai0 start0 start1.
Definition ca_prepared (d0 d1 : list (list Z)) (k : nat) :=
  d <- prepared ;; t1 <- lift (import_one_no_payload d) ;; t0 <- lift (import_zero_no_payload d) ;;
  run_days cl_finished (ca_day hash pk sk0 sk1 csize ssize) k (client_with t0 (length d0) d0 0, server_with t1 (length d0) d1).
Definition psi_prepared (dec_string : Z -> string) (d0 d1 : list (list Z)) (k : nat) :=
  d <- prepared ;; t1 <- lift (import_one_no_payload d) ;; t0 <- lift (import_zero_no_payload d) ;;
  run_days cl_finished (psi_day hash pk sk0 sk1 csize ssize dec_string) k
    (client_with t0 (length d0) d0 (([], []) : psi_out (Gr := Gr)), server_with t1 (length d0) d1).
Definition sum_prepared (d0 : list (list (Z * Z))) (d1 : list (list Z)) (k : nat) :=
  d <- prepared ;; t1 <- lift (import_one_sum d) ;; t0 <- lift (import_zero_payload d) ;;
  run_days cl_finished (sum_day hash pk sk0 sk1 csize ssize) k (client_with t0 (length d0) d0 (0, 0), server_with t1 (length d0) d1).
Definition ss_prepared (d0 : list (list (Z * Z))) (d1 : list (list Z)) (k : nat) :=
  d <- prepared ;; t1 <- lift (import_one_ss d) ;; t0 <- lift (import_zero_payload d) ;;
  run_days cl_finished (ss_day hash pk sk0 sk1 csize ssize n pai0 pai1 psk0 psk1) k (client_with t0 (length d0) d0 [], server_with t1 (length d0) d1).
End Run.
