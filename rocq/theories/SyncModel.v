(** * Tree updates between two parties.

    Sender: CryptoTree<Element>::Update / CryptoTree<ElementAndPayload>::Update,
    crypto_tree.cc:264-376.  Receiver: CryptoTree<Ciphertext>::Update and its
    three siblings, crypto_tree.cc:378-450.

    The four sender (receiver) versions differ only in the encryption
    (deserialization) of one entry, in the padding element and, for deletions,
    in the insertion procedure; these are parameters here, instantiated at the
    end of the file. *)
Require Import List Arith Lia ZArith Bool.
Import ListNotations.
From Verif Require Import Prelude TreeModel TreeDelModel Coins Group ElGamalModel BytesModel CipherModel PaillierModel WireModel.
Local Open Scope Z_scope.

(** A computation that may fail but keeps the modified object in either case:
    C++ member functions modify [*this] before they return a status. *)
Definition ST (S A : Type) := S -> tape -> S * outcome (A * tape).

(** generateRandomHash, utils.cc:225-236: 32 random bytes per element. *)
Definition random_hash : M bytes := repeatM 32 (rand_less_than 256).
Definition random_hashes (cnt : nat) : M (list bytes) := repeatM cnt random_hash.

Section Sync.
Context {Gr : group} {A C : Type}.
Variable ins : list A -> list (list bool) -> tree A -> tree A * list (node A).
Variable mk : Z -> A.                       (* a padding entry *)
Variable enc : A -> M C.                    (* body of the loop of EncryptNode *)
Variable ser : C -> outcome (welem Gr).     (* body of the loop of SerializeNode *)
Variable deser : welem Gr -> outcome C.     (* body of the loop of DeserializeNode *)

(** pad, EncryptNode (crypto_node.cc:102-166), SerializeNode *)
Definition node_message (n : node A) : M (list (welem Gr)) :=
  n' <- pad_node mk n ;;
  cs <- mapM enc (elems n') ;;
  lift (ser_node ser (add_all (node_cap n') cs)).
(** Update (sender): the elements are inserted even if encryption fails later. *)
Definition send_update (es : list A) : ST (tree A) (update Gr) := fun t tp =>
  match random_hashes (length es) tp with
  | Ok (hs, tp1) =>
      let '(t', nodes) := ins es (map byte2binary hs) t in
      (t', (ns <- mapM node_message nodes ;; ret (mkUpdate hs ns)) tp1)
  | Err c => (t, Err c) | Abort => (t, Abort) | UB => (t, UB)
  end.
(** Update (receiver): nodes are deserialized before anything is replaced. *)
Definition recv_update (u : update Gr) (t : tree C) : outcome (tree C) :=
  let! ns := omap (deser_node deser) (u_nodes u) in
  replace_nodes ns (map byte2binary (u_hashes u)) t.

(** Sending every batch of [days] and applying each message at the receiver. *)
Fixpoint sync_days (days : list (list A)) (ts : tree A) (tr : tree C) : M (tree A * tree C) :=
  match days with
  | [] => ret (ts, tr)
  | es :: rest => fun tp =>
      let '(ts', o) := send_update es ts tp in
      (u <- (fun _ => o) ;; tr' <- lift (recv_update u tr) ;; sync_days rest ts' tr') tp
  end.
End Sync.

(** ** The four kinds *)
Section Kinds.
Context {Gr : group}.
(** EncryptNode, crypto_node.cc:102-115 *)
Definition enc_plain (pk : pubkey Gr) (x : Z) : M (ct Gr) := encrypt pk x.
(** EncryptNode, crypto_node.cc:117-131 *)
Definition enc_elgamal (pk : pubkey Gr) (x : Z * Z) : M (ct Gr * ct Gr) :=
  e <- encrypt pk (fst x) ;; p <- encrypt pk (snd x) ;; ret (e, p).
(** EncryptNode, crypto_node.cc:133-147; [penc] is ThresholdPaillier::Encrypt *)
Definition enc_paillier (pk : pubkey Gr) (penc : Z -> M Z) (x : Z * Z) : M (ct Gr * Z) :=
  e <- encrypt pk (fst x) ;; p <- penc (snd x) ;; ret (e, p).
(** EncryptNode, crypto_node.cc:149-166; [penc] is PrivatePaillier::Encrypt *)
Definition enc_deletion (n : Z) (penc : Z -> M Z) (x : Z * Z) : M (Z * Z) :=
  e <- penc (fst x) ;;
  p <- penc (if snd x <? 0 then n + snd x else snd x) ;; ret (e, p).
End Kinds.
