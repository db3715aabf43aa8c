(** * The messages of the other models as protobuf messages: which field holds
    what, and the byte strings that are written to files.

    [enc] is the encoding of a point (C55), [dec] its inverse. *)
Require Import String Ascii.
Require Import List Arith Lia ZArith Bool.
Import ListNotations.
From Verif Require Import Prelude Coins Group ElGamalModel BytesModel CipherModel WireModel FileModel KeyModel PathModel ProtoModel.
Local Open Scope Z_scope.

(** an unset field reads as its default *)
Definition get (b : option bytes) : bytes := match b with Some x => x | None => [] end.
Definition geti (i : option Z) : Z := match i with Some x => x | None => 0 end.
(** a message type [T] of a model, held in the protobuf message type [M] *)
Definition via {T P} (M : msg P) (to : T -> P) (of : P -> T) (junk : bytes -> P) : codec T :=
  mkCodec (fun t => serialize M (to t)) (fun bs => of (from_string M junk bs)).

(** keys.  util/elgamal_proto_util.cc:23-31, 43-64 (the field p is not used),
    crypto/threshold_paillier.cc:54-62, crypto/paillier.cc:199-218,
    util/ec_key_util.cc:25-43 *)
Definition to_sec (x : bytes) : option bytes := Some x.
Definition to_thr (m : bytes * bytes) := (Some (fst m), Some (snd m)).
Definition of_thr (m : option bytes * option bytes) := (get (fst m), get (snd m)).
Definition to_ppub (m : bytes * Z) := (Some (fst m), Some (snd m)).
Definition of_ppub (m : option bytes * option Z) := (get (fst m), geti (snd m)).
Definition to_psec (m : bytes * bytes * Z) := (Some (fst (fst m)), (Some (snd (fst m)), Some (snd m))).
Definition of_psec (m : option bytes * (option bytes * option Z)) := (get (fst m), get (fst (snd m)), geti (snd (snd m))).
Definition to_ec (m : Z * bytes) := (Some (fst m), Some (snd m)).
Definition of_ec (m : option Z * option bytes) := (geti (fst m), get (snd m)).

(** trees, crypto_node.cc:172-189 and 244-268, crypto_tree.cc:228-258.
    Simplification: an element without payload (172-179) and one whose payload is
    zero (181-189) are the same pair in KeyModel, and both are written without the
    field; the second function writes a field of length zero.  They read the same. *)
Definition to_pelem (x : bytes * bytes) := (Some (fst x), match snd x with [] => None | p => Some p end).
Definition of_pelem (x : option bytes * option bytes) := (get (fst x), get (snd x)).
Definition to_pnode (n : pnode) := (map to_pelem (fst n), Some (snd n)).
Definition of_pnode (n : list (option bytes * option bytes) * option Z) : pnode := (map of_pelem (fst n), geti (snd n)).
Definition to_tree {N P} (to : N -> P) (f : tree_file N) := (map to (f_nodes f), (Some (f_stash f), (Some (f_node f), (Some (f_actual f), Some (f_depth f))))).
Definition of_tree {N P} (of : P -> N) (m : list P * (option Z * (option Z * (option Z * option Z)))) : tree_file N :=
  let '(nodes, (s, (n, (a, d)))) := m in mkFile (geti s) (geti n) (geti a) (geti d) (map of nodes).

(** a C++ string as bytes *)
Fixpoint to_string_bytes (s : string) : bytes := match s with EmptyString => [] | String a r => Z.of_N (N_of_ascii a) :: to_string_bytes r end.
Fixpoint of_string_bytes (b : bytes) : string := match b with [] => EmptyString | z :: r => String (ascii_of_N (Z.to_N z)) (of_string_bytes r) end.

Section Points.
Context {Gr : group}.
Variables (enc : wpoint Gr -> bytes) (dec : bytes -> wpoint Gr).
Definition to_pub (m : pub_msg (Gr := Gr)) : option bytes * (option bytes * option bytes) := (None, (Some (enc (fst m)), Some (enc (snd m)))).
Definition of_pub (m : option bytes * (option bytes * option bytes)) : pub_msg (Gr := Gr) := (dec (get (fst (snd m))), dec (get (snd (snd m)))).
(** util/elgamal_proto_util.cc:33-41 and 66-74 *)
Definition to_ct (c : wct Gr) := (Some (enc (fst c)), Some (enc (snd c))).
Definition of_ct (c : option bytes * option bytes) : wct Gr := (dec (get (fst c)), dec (get (snd c))).
(** an unset ciphertext has unset points *)
Definition get_ct (c : option (option bytes * option bytes)) : wct Gr := of_ct (match c with Some x => x | None => (None, None) end).
Notation element := (option (option (option bytes * option bytes) + (option (option bytes * option bytes) * option bytes + (option (option bytes * option bytes) * option (option bytes * option bytes) + (option bytes * option bytes + option bytes))))).
(** crypto_node.cc:191-240 and 273-360 *)
Definition to_welem (w : welem Gr) : element :=
  match w with
  | WNoPayload c => Some (inl (Some (to_ct c)))
  | WPaillier c p => Some (inr (inl (Some (to_ct c), Some p)))
  | WElGamal c p => Some (inr (inr (inl (Some (to_ct c), Some (to_ct p)))))
  | WDeletion e p => Some (inr (inr (inr (inl (Some e, Some p)))))
  | WOnlyPaillier e => Some (inr (inr (inr (inr (Some e)))))
  | WUnset => None
  end.
Definition of_welem (m : element) : welem Gr :=
  match m with
  | Some (inl c) => WNoPayload (get_ct c)
  | Some (inr (inl (c, p))) => WPaillier (get_ct c) (get p)
  | Some (inr (inr (inl (c, p)))) => WElGamal (get_ct c) (get_ct p)
  | Some (inr (inr (inr (inl (e, p))))) => WDeletion (get e) (get p)
  | Some (inr (inr (inr (inr e)))) => WOnlyPaillier (get e)
  | None => WUnset
  end.
(** original/setup.cc:59-69, original/party_zero.h:36-42 *)
Definition to_kv (x : string * wpoint Gr) := (Some (to_string_bytes (fst x)), Some (enc (snd x))).
Definition of_kv (x : option bytes * option bytes) : string * wpoint Gr := (of_string_bytes (get (fst x)), dec (get (snd x))).

Definition pub_codec junk : codec (pub_msg (Gr := Gr)) := via ElGamalPublicKey to_pub of_pub junk.
Definition encrypted_tree_codec junk : codec (tree_file (list (welem Gr))) := via EncryptedTree (to_tree (map to_welem)) (of_tree (map of_welem)) junk.
Definition oprf_codec junk : codec (list (string * wpoint Gr)) := via OPRF (map to_kv) (map of_kv) junk.
End Points.
Definition sec_codec junk : codec sec_msg := via ElGamalSecretKey to_sec get junk.
Definition thr_codec junk : codec thr_msg := via ThresholdPaillierKey to_thr of_thr junk.
Definition ppub_codec junk : codec ppub_msg := via PaillierPublicKey to_ppub of_ppub junk.
Definition psec_codec junk : codec psec_msg := via PaillierPrivateKey to_psec of_psec junk.
Definition ec_codec junk : codec ec_msg := via EcKeyProto to_ec of_ec junk.
Definition plaintext_tree_codec junk : codec (tree_file pnode) := via PlaintextTree (to_tree to_pnode) (of_tree of_pnode) junk.
