(** * The bytes of the messages: the protobuf wire format for the messages of
    upsi/network/upsi.proto, upsi/crypto/elgamal.proto, upsi/crypto/paillier.proto
    and upsi/crypto/ec_key.proto (all "proto2"), as the generated C++ classes write
    it (SerializeToOstream) and read it (ParseFromArray), and the functions of
    upsi/util/proto_util.h on top of them.

    The generated classes and the protobuf runtime are not part of the repository;
    this follows the format's documentation and the runtime's parser.
    Simplifications: unknown fields are skipped (the runtime keeps them for writing
    them again, which no program here does); the nesting limit of 100 counts groups
    only (the messages nest at most nine deep); no message here has packed, map,
    float, string, enum or extension fields. *)
Require Import List Arith Lia ZArith Bool.
Import ListNotations.
From Verif Require Import Prelude BytesModel FileModel.
Local Open Scope Z_scope.

(** ** The wire format *)
Inductive wire := Varint (v : Z) | Len (b : bytes) | Fixed (b : bytes).
Inductive token := Field (n : Z) (w : wire) | Start (n : Z) | End_ (n : Z).

(** *** writing *)
Definition write_field (f : Z * wire) : bytes :=
  match snd f with
  | Varint v => varint 4 (fst f * 8) ++ varint 9 v
  | Len b => varint 4 (fst f * 8 + 2) ++ varint 4 (Z.of_nat (length b)) ++ b
  | Fixed b => varint 4 (fst f * 8 + if (length b =? 8)%nat then 1 else 5) ++ b
  end.
Definition write_fields (l : list (Z * wire)) : bytes := concat (map write_field l).

(** *** reading *)
(** a varint of at most [k] bytes *)
Fixpoint read_varint (k : nat) (bs : bytes) : option (Z * bytes) :=
  match k, bs with
  | S k', b :: r => if b <? 128 then Some (b, r)
                    else match read_varint k' r with Some (v, r') => Some (b - 128 + 128 * v, r') | None => None end
  | _, _ => None
  end.
(** [n] bytes, if there are that many *)
Definition take (n : nat) (bs : bytes) : option (bytes * bytes) :=
  if (n <=? length bs)%nat then Some (firstn n bs, skipn n bs) else None.
Definition max_length : Z := 2 ^ 31 - 1 - 16.
Definition read_token (bs : bytes) : option (token * bytes) :=
  match read_varint 5 bs with
  | None => None
  | Some (v, r) =>
    let tag := v mod 2 ^ 32 in
    let n := tag / 8 in
    if n =? 0 then None else
    match tag mod 8 with
    | 0 => match read_varint 10 r with Some (v, r') => Some (Field n (Varint (v mod 2 ^ 64)), r') | None => None end
    | 1 => match take 8 r with Some (b, r') => Some (Field n (Fixed b), r') | None => None end
    | 2 => match read_varint 5 r with
           | Some (size, r') => if max_length <? size then None else match take (Z.to_nat size) r' with Some (b, r'') => Some (Field n (Len b), r'') | None => None end
           | None => None end
    | 3 => Some (Start n, r)
    | 4 => Some (End_ n, r)
    | 5 => match take 4 r with Some (b, r') => Some (Field n (Fixed b), r') | None => None end
    | _ => None
    end
  end.
(** every token takes a byte, so that [fuel] = the number of bytes suffices *)
Fixpoint tokens (fuel : nat) (bs : bytes) : option (list token) :=
  match bs, fuel with
  | [], _ => Some []
  | _, O => None
  | _, S k => match read_token bs with
              | Some (t, r) => match tokens k r with Some l => Some (t :: l) | None => None end
              | None => None
              end
  end.

(** ** Message types *)
Inductive put (T : Type) := Skip | Put (t : T) | Bad.
Arguments Skip {T}. Arguments Put {T}. Arguments Bad {T}.
(** [m_fields]: the fields written for a message, in the order of their numbers;
    [m_put]: what the parser does with a field ([Skip] for a field it does not know);
    [m_fits]: the values the C++ class can hold *)
Record msg (T : Type) := mkMsg { m_empty : T; m_fields : T -> list (Z * wire); m_put : Z -> wire -> T -> put T; m_fits : T -> Prop }.
Arguments mkMsg {T}. Arguments m_empty {T}. Arguments m_fields {T}. Arguments m_put {T}. Arguments m_fits {T}.

Definition serialize {T} (M : msg T) (t : T) : bytes := write_fields (m_fields M t).
(** fields into a message; [groups]: the groups that are open (unknown, as no
    message has groups) *)
Fixpoint feed {T} (M : msg T) (groups : list Z) (l : list token) (t : T) : option T :=
  match l with
  | [] => match groups with [] => Some t | _ => None end
  | Start n :: r => if (100 <=? length groups)%nat then None else feed M (n :: groups) r t
  | End_ n :: r => match groups with g :: gs => if g =? n then feed M gs r t else None | [] => None end
  | Field n w :: r =>
      match groups with
      | [] => match m_put M n w t with Skip => feed M [] r t | Put t' => feed M [] r t' | Bad => None end
      | _ => feed M groups r t
      end
  end.
(** MergeFromArray; [None]: it returns false *)
Definition merge {T} (M : msg T) (bs : bytes) (t : T) : option T :=
  match tokens (length bs) bs with Some l => feed M [] l t | None => None end.
(** ParseFromArray *)
Definition parse {T} (M : msg T) (bs : bytes) : option T := merge M bs (m_empty M).

(** *** fields *)
(** optional bytes f = n *)
Definition opt_bytes (n : Z) : msg (option bytes) :=
  mkMsg None (fun t => match t with Some b => [(n, Len b)] | None => [] end)
    (fun k w t => if k =? n then match w with Len b => Put (Some b) | _ => Skip end else Skip) (fun _ => True).
(** optional int32 f = n: sign-extended to 64 bits; the low 32 bits are read *)
Definition int32_of (v : Z) : Z := (v + 2 ^ 31) mod 2 ^ 32 - 2 ^ 31.
Definition opt_int32 (n : Z) : msg (option Z) :=
  mkMsg None (fun t => match t with Some i => [(n, Varint (i mod 2 ^ 64))] | None => [] end)
    (fun k w t => if k =? n then match w with Varint v => Put (Some (int32_of v)) | _ => Skip end else Skip)
    (fun t => match t with Some i => - 2 ^ 31 <= i < 2 ^ 31 | None => True end).
(** repeated bytes f = n *)
Definition rep_bytes (n : Z) : msg (list bytes) :=
  mkMsg [] (fun t => map (fun b => (n, Len b)) t)
    (fun k w t => if k =? n then match w with Len b => Put (t ++ [b]) | _ => Skip end else Skip) (fun _ => True).
(** optional M f = n: a second one is merged into the first *)
Definition opt_msg {A} (n : Z) (M : msg A) : msg (option A) :=
  mkMsg None (fun t => match t with Some a => [(n, Len (serialize M a))] | None => [] end)
    (fun k w t => if k =? n then
       match w with
       | Len b => match merge M b (match t with Some a => a | None => m_empty M end) with Some a => Put (Some a) | None => Bad end
       | _ => Skip end else Skip)
    (fun t => match t with Some a => m_fits M a | None => True end).
(** repeated M f = n *)
Definition rep_msg {A} (n : Z) (M : msg A) : msg (list A) :=
  mkMsg [] (fun t => map (fun a => (n, Len (serialize M a))) t)
    (fun k w t => if k =? n then
       match w with Len b => match parse M b with Some a => Put (t ++ [a]) | None => Bad end | _ => Skip end else Skip)
    (Forall (m_fits M)).
(** a message with the fields of both *)
Definition both {A B} (M : msg A) (N : msg B) : msg (A * B) :=
  mkMsg (m_empty M, m_empty N) (fun t => m_fields M (fst t) ++ m_fields N (snd t))
    (fun k w t => match m_put M k w (fst t) with
                  | Put a => Put (a, snd t)
                  | Bad => Bad
                  | Skip => match m_put N k w (snd t) with Put b => Put (fst t, b) | Bad => Bad | Skip => Skip end
                  end)
    (fun t => m_fits M (fst t) /\ m_fits N (snd t)).

(** *** oneof: setting one alternative clears the others *)
Record alts (T : Type) := mkAlts { a_field : T -> Z * wire; a_put : Z -> wire -> option T -> put T; a_fits : T -> Prop }.
Arguments mkAlts {T}. Arguments a_field {T}. Arguments a_put {T}. Arguments a_fits {T}.
Definition alt {A} (n : Z) (M : msg A) : alts A :=
  mkAlts (fun a => (n, Len (serialize M a)))
    (fun k w t => if k =? n then
       match w with
       | Len b => match merge M b (match t with Some a => a | None => m_empty M end) with Some a => Put a | None => Bad end
       | _ => Skip end else Skip)
    (m_fits M).
Definition orelse {A B} (a : alts A) (b : alts B) : alts (A + B) :=
  mkAlts (fun t => match t with inl x => a_field a x | inr y => a_field b y end)
    (fun k w t => match a_put a k w (match t with Some (inl x) => Some x | _ => None end) with
                  | Put x => Put (inl x)
                  | Bad => Bad
                  | Skip => match a_put b k w (match t with Some (inr y) => Some y | _ => None end) with Put y => Put (inr y) | Bad => Bad | Skip => Skip end
                  end)
    (fun t => match t with inl x => a_fits a x | inr y => a_fits b y end).
Definition oneof {A} (a : alts A) : msg (option A) :=
  mkMsg None (fun t => match t with Some x => [a_field a x] | None => [] end)
    (fun k w t => match a_put a k w t with Put x => Put (Some x) | Bad => Bad | Skip => Skip end)
    (fun t => match t with Some x => a_fits a x | None => True end).

(** ** upsi/crypto/elgamal.proto *)
Definition ElGamalPublicKey := both (opt_bytes 1) (both (opt_bytes 2) (opt_bytes 3)).            (* p, g, y *)
Definition ElGamalSecretKey := opt_bytes 1.                                                     (* x *)
Definition ElGamalCiphertext := both (opt_bytes 1) (opt_bytes 2).                               (* u, e *)
(** ** upsi/crypto/paillier.proto *)
Definition PaillierPublicKey := both (opt_bytes 1) (opt_int32 2).                               (* n, s *)
Definition PaillierPrivateKey := both (opt_bytes 1) (both (opt_bytes 2) (opt_int32 3)).          (* p, q, s *)
Definition ThresholdPaillierKey := both (opt_bytes 1) (opt_bytes 2).                            (* n, share *)
(** ** upsi/crypto/ec_key.proto *)
Definition EcKeyProto := both (opt_int32 1) (opt_bytes 2).                                      (* curve_id, key *)
(** ** upsi/network/upsi.proto *)
(** EncryptedElement, lines 16-47 *)
Definition NoPayload := opt_msg 1 ElGamalCiphertext.
Definition PaillierPayload := both (opt_msg 1 ElGamalCiphertext) (opt_bytes 2).
Definition ElGamalPayload := both (opt_msg 1 ElGamalCiphertext) (opt_msg 2 ElGamalCiphertext).
Definition DeletionElement := both (opt_bytes 1) (opt_bytes 2).
Definition OnlyPaillier := opt_bytes 1.
Definition EncryptedElement := oneof (orelse (alt 1 NoPayload) (orelse (alt 2 PaillierPayload) (orelse (alt 3 ElGamalPayload) (orelse (alt 4 DeletionElement) (alt 5 OnlyPaillier))))).
(** lines 49-68 *)
Definition EncryptedSet := rep_msg 1 EncryptedElement.
Definition EncryptedSetVector := rep_msg 1 EncryptedSet.
Definition TreeNode := rep_msg 2 EncryptedElement.
Definition TreeUpdates := both (rep_bytes 1) (rep_msg 2 TreeNode).
Definition PaillierCiphertext := opt_bytes 1.
(** lines 71-97 *)
Definition PlaintextElement := both (opt_bytes 1) (opt_bytes 2).
Definition PlaintextNode := both (rep_msg 1 PlaintextElement) (opt_int32 2).
Definition tree_sizes := both (opt_int32 2) (both (opt_int32 3) (both (opt_int32 4) (opt_int32 5))). (* stash_size, node_size, actual_size, depth *)
Definition PlaintextTree := both (rep_msg 1 PlaintextNode) tree_sizes.
Definition EncryptedTree := both (rep_msg 1 TreeNode) tree_sizes.
(** lines 99-106 *)
Definition OPRF_KV := both (opt_bytes 1) (opt_bytes 2).
Definition OPRF := rep_msg 1 OPRF_KV.
(** OriginalMessage, lines 109-140 *)
Definition og_MessageI := both (opt_msg 1 TreeUpdates) (rep_bytes 2).
Definition og_MessageII := both (opt_msg 1 ElGamalCiphertext) (rep_msg 2 EncryptedSet).
Definition og_MessageIII := rep_msg 1 EncryptedSet.
Definition og_MessageIV := rep_bytes 1.
Definition og_MessageV := rep_bytes 1.
Definition OriginalMessage := oneof (orelse (alt 1 og_MessageI) (orelse (alt 2 og_MessageII) (orelse (alt 3 og_MessageIII) (orelse (alt 4 og_MessageIV) (alt 5 og_MessageV))))).
(** PartyZeroMessage, lines 143-170 *)
Definition MessageI := both (opt_msg 1 TreeUpdates) (both (opt_msg 2 EncryptedSet) (opt_msg 3 EncryptedSetVector)).
Definition MessageIII_SUM := opt_msg 1 ElGamalCiphertext.
Definition MessageIII_SS := rep_msg 1 PaillierCiphertext.
Definition PartyZeroMessage := oneof (orelse (alt 1 MessageI) (orelse (alt 2 MessageIII_SUM) (alt 3 MessageIII_SS))).
(** ClientMessage, lines 172-177 *)
Definition ClientMessage := oneof (orelse (alt 1 PartyZeroMessage) (alt 2 OriginalMessage)).
(** PartyOneMessage, lines 180-199 *)
Definition MessageII := both (opt_msg 1 TreeUpdates) (both (opt_msg 2 EncryptedSet) (opt_msg 3 EncryptedSetVector)).
Definition MessageIV := opt_msg 1 ElGamalCiphertext.
Definition PartyOneMessage := oneof (orelse (alt 1 MessageII) (alt 2 MessageIV)).
(** ServerMessage, lines 201-206 *)
Definition ServerMessage := oneof (orelse (alt 1 PartyOneMessage) (alt 2 OriginalMessage)).

(** ** upsi/util/proto_util.h *)
(** FromString, proto_util.h:53-58: the value ParseFromArray returns is ignored;
    what the message holds if it is false is not specified ([junk]) *)
Definition from_string {T} (M : msg T) (junk : bytes -> T) (bs : bytes) : T := match parse M bs with Some t => t | None => junk bs end.
