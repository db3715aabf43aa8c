(** * Messages on the wire: nodes, candidate lists, tree files, padding.

    Models crypto_node.cc:66-100 (pad), 102-166 (EncryptNode), 168-359
    (SerializeNode / DeserializeNode), utils.cc:43-139 (DeserializeCiphertexts),
    utils.cc:246-276 (random numeric strings), elgamal_proto_util.cc
    (Serialize/DeserializeCiphertext) and BaseTree::Serialize / Deserialize,
    crypto_tree.cc:228-258.

    A protobuf message is modelled by the values of its fields; a [oneof] by
    which alternative is set; an unset point field reads as the empty string,
    which does not decode ([WBad]). *)
Require Import List Arith Lia ZArith Bool.
Import ListNotations.
From Verif Require Import Prelude TreeModel Coins Group ElGamalModel BytesModel CipherModel.
Local Open Scope Z_scope.

Section Wire.
Context {Gr : group}.

(** message ElGamalCiphertext: (u, e) *)
Definition wct : Type := (wpoint Gr * wpoint Gr)%type.
(** message EncryptedElement, network/upsi.proto:16-49 *)
Inductive welem :=
| WNoPayload (c : wct)
| WPaillier (c : wct) (payload : bytes)
| WElGamal (c payload : wct)
| WDeletion (element payload : bytes)
| WOnlyPaillier (element : bytes)
| WUnset.
(** message TreeUpdates, upsi.proto:63-66 (a TreeNode is its list of elements) *)
Record update := mkUpdate { u_hashes : list bytes; u_nodes : list (list welem) }.

(** ** ciphertexts, elgamal_proto_util.cc:38-46 and 71-80 *)
Definition ser_ct (c : ct Gr) : outcome wct :=
  let! u := point_to_bytes (ct_u c) in
  let! e := point_to_bytes (ct_e c) in Ok (u, e).
Definition deser_ct (w : wct) : outcome (ct Gr) :=
  let! u := create_point (fst w) in
  let! e := create_point (snd w) in Ok (mkCt u e).

(** ** one element of a node: the bodies of the loops of SerializeNode *)
(** crypto_node.cc:189-198 *)
Definition ser_plain (c : ct Gr) : outcome welem :=
  let! w := ser_ct c in Ok (WNoPayload w).
(** crypto_node.cc:200-211 *)
Definition ser_paillier (c : ct Gr * Z) : outcome welem :=
  let! w := ser_ct (fst c) in let! p := to_bytes (snd c) in Ok (WPaillier w p).
(** crypto_node.cc:213-226 *)
Definition ser_elgamal (c : ct Gr * ct Gr) : outcome welem :=
  let! w := ser_ct (fst c) in let! p := ser_ct (snd c) in Ok (WElGamal w p).
(** crypto_node.cc:228-235 *)
Definition ser_deletion (c : Z * Z) : outcome welem :=
  let! e := to_bytes (fst c) in let! p := to_bytes (snd c) in Ok (WDeletion e p).

(** ** one element of a node: the bodies of the loops of DeserializeNode *)
(** crypto_node.cc:270-293: any kind is accepted, the default alternative
    reads the elgamal field whether or not it is set. *)
Definition deser_plain (w : welem) : outcome (ct Gr) :=
  match w with
  | WNoPayload c => deser_ct c
  | WPaillier c _ => deser_ct c
  | WElGamal c _ => deser_ct c
  | _ => deser_ct (WBad, WBad)
  end.
(** crypto_node.cc:295-315 *)
Definition deser_paillier (w : welem) : outcome (ct Gr * Z) :=
  match w with
  | WPaillier c p => let! x := deser_ct c in Ok (x, of_bytes p)
  | _ => Err InvalidArgument
  end.
(** crypto_node.cc:317-340 *)
Definition deser_elgamal (w : welem) : outcome (ct Gr * ct Gr) :=
  match w with
  | WElGamal c p => let! x := deser_ct c in let! y := deser_ct p in Ok (x, y)
  | _ => Err InvalidArgument
  end.
(** crypto_node.cc:342-359 *)
Definition deser_deletion (w : welem) : outcome (Z * Z) :=
  match w with
  | WDeletion e p => Ok (of_bytes e, of_bytes p)
  | _ => Err InvalidArgument
  end.
(** DeserializeCiphertexts, utils.cc:43-63: strict about the kind. *)
Definition deser_cand_plain (w : welem) : outcome (ct Gr) :=
  match w with WNoPayload c => deser_ct c | _ => Err InvalidArgument end.
(** utils.cc:65-91 and 93-119 do the same as the node readers. *)
Definition deser_cand_elgamal (w : welem) : outcome (ct Gr * ct Gr) :=
  match w with
  | WElGamal c p => let! x := deser_ct c in let! y := deser_ct p in Ok (x, y)
  | _ => Err InvalidArgument
  end.
Definition deser_cand_paillier (w : welem) : outcome (ct Gr * Z) :=
  match w with
  | WPaillier c p => let! x := deser_ct c in Ok (x, of_bytes p)
  | _ => Err InvalidArgument
  end.
(** utils.cc:121-139 *)
Definition deser_cand_only_paillier (w : welem) : outcome Z :=
  match w with WOnlyPaillier e => Ok (of_bytes e) | _ => Err InvalidArgument end.

(** ** whole nodes and lists, for each of the four kinds *)
Section Kind.
  Context {C : Type}.
  Variable ser : C -> outcome welem.
  Variable deser : welem -> outcome C.
  (** SerializeNode *)
  Definition ser_node (n : node C) : outcome (list welem) := omap ser (elems n).
  (** DeserializeNode: capacity = number of elements, so addElement accepts
      every one of them. *)
  Definition deser_node (ws : list welem) : outcome (node C) :=
    let! cs := omap deser ws in Ok (mkNode cs (length ws)).
  (** DeserializeCiphertexts *)
  Definition deser_list (ws : list welem) : outcome (list C) := omap deser ws.
End Kind.

(** ** tree files: EncryptedTree / PlaintextTree, upsi.proto:80-99 *)
(** conversion of an int / size_t to an int32 field *)
Definition to_int32 (n : nat) : Z := (Z.of_nat n + 2 ^ 31) mod 2 ^ 32 - 2 ^ 31.
Record tree_file (N : Type) := mkFile {
  f_stash : Z; f_node : Z; f_actual : Z; f_depth : Z; f_nodes : list N }.
Arguments mkFile {N}. Arguments f_stash {N}. Arguments f_node {N}.
Arguments f_actual {N}. Arguments f_depth {N}. Arguments f_nodes {N}.
Section File.
  Context {A N : Type}.
  Variable sern : node A -> outcome N.
  Variable desern : N -> outcome (node A).
  (** BaseTree::Serialize, crypto_tree.cc:228-239 *)
  Definition tree_serialize (t : tree A) : outcome (tree_file N) :=
    let! ns := omap sern (t_nodes t) in
    Ok (mkFile (to_int32 (t_stash_size t)) (to_int32 (t_node_size t))
               (to_int32 (t_actual t)) (to_int32 (t_depth t)) ns).
  (** BaseTree::Deserialize, crypto_tree.cc:241-258; negative field values
      (never written for sizes below 2^31) are read as 0 here. *)
  Definition tree_deserialize (f : tree_file N) : outcome (tree A) :=
    let! ns := omap desern (f_nodes f) in
    Ok (mkTree (Z.to_nat (f_stash f)) (Z.to_nat (f_node f)) (Z.to_nat (f_depth f))
               (Z.to_nat (f_actual f)) ns).
End File.

(** plaintext nodes: (element, payload) byte strings and node_size *)
Definition pnode : Type := (list (bytes * bytes) * Z)%type.
(** repeated addElement on a node of capacity [cap], crypto_node.cc:52-61 *)
Definition add_all {A} (cap : nat) (xs : list A) : node A := mkNode (firstn cap xs) cap.
(** crypto_node.cc:172-179 and 181-189; the payload field is not set for
    elements without payload and reads back as the empty string. *)
Definition ser_pnode (n : node Z) : outcome pnode :=
  let! es := omap (fun x => let! b := to_bytes x in Ok (b, [])) (elems n) in
  Ok (es, to_int32 (node_cap n)).
Definition ser_pnode_payload (n : node (Z * Z)) : outcome pnode :=
  let! es := omap (fun x => let! b := to_bytes (fst x) in let! p := to_bytes (snd x) in Ok (b, p)) (elems n) in
  Ok (es, to_int32 (node_cap n)).
(** crypto_node.cc:241-252 and 254-268 *)
Definition deser_pnode (p : pnode) : outcome (node Z) :=
  Ok (add_all (Z.to_nat (snd p)) (map (fun e => of_bytes (fst e)) (fst p))).
Definition deser_pnode_payload (p : pnode) : outcome (node (Z * Z)) :=
  Ok (add_all (Z.to_nat (snd p)) (map (fun e => (of_bytes (fst e), of_bytes (snd e))) (fst p))).
End Wire.
Arguments wct : clear implicits.
Arguments welem : clear implicits.
Arguments update : clear implicits.
Arguments mkFile {N}. Arguments f_stash {N}. Arguments f_node {N}.
Arguments f_actual {N}. Arguments f_depth {N}. Arguments f_nodes {N}.

(** ** padding and random elements *)
(** NumericString2uint, utils.cc:246-253, on character codes ('0' = 48); 16
    digits stay below 2^63. *)
Definition numeric_string2uint (s : list Z) : Z := fold_left (fun x c => x * 10 + c - 48) s 0.
(** GetRandomNumericString, utils.cc:255-268: [rand() % 10] per digit. *)
Definition random_numeric_string (length : nat) (padding : bool) : M (list Z) :=
  ds <- repeatM (length - 1) (d <- rand_less_than 10 ;; ret (d + 48)) ;;
  ret ((if padding then 49 else 48) :: ds).
(** GetRandomSetElement, utils.cc:270-272 *)
Definition random_set_element : M (list Z) := random_numeric_string 16 false.
(** GetRandomPadElement, utils.cc:274-278 *)
Definition random_pad_element : M Z :=
  s <- random_numeric_string 16 true ;; ret (numeric_string2uint s).
(** pad, crypto_node.cc:66-78: [mk] is the identity for Element and pairs the
    element with 0 for ElementAndPayload. *)
Definition pad_node {A} (mk : Z -> A) (n : node A) : M (node A) :=
  ps <- repeatM (node_cap n - length (elems n)) random_pad_element ;;
  ret (mkNode (elems n ++ map mk ps) (node_cap n)).
Definition pad_payload (x : Z) : Z * Z := (x, 0).
