(** * Serialized curve points, the commutative cipher and commutative ElGamal.

    Models ec_point.cc ToBytesCompressed, ec_group.cc CreateECPoint /
    CheckPrivateKey, ec_commutative_cipher.cc and commutative_elgamal.cc.
    A byte string is modelled by what EC_POINT_oct2point makes of it: the
    encoding of a point, or something that does not decode. *)
Require Import List Arith Lia ZArith Bool.
Import ListNotations.
From Verif Require Import Prelude Coins Group ElGamalModel NumTheory PaillierModel BytesModel ContextModel.
Local Open Scope Z_scope.

Section Cipher.
Context {Gr : group}.

Inductive wpoint := WPt (x : Gr) | WBad.
(** ECPoint::ToBytesCompressed, ec_point.cc:49-59: EC_POINT_point2oct fails on
    the point at infinity. *)
Definition point_to_bytes (x : Gr) : outcome wpoint :=
  if geqb x gid then Err Internal else Ok (WPt x).
(** ECGroup::CreateECPoint(bytes), ec_group.cc:272-292: undecodable strings and
    the point at infinity are refused. *)
Definition create_point (w : wpoint) : outcome Gr :=
  match w with
  | WPt x => if geqb x gid then Err InvalidArgument else Ok x
  | WBad => Err InvalidArgument
  end.

(** ECGroup::CheckPrivateKey, ec_group.cc:140-146. *)
Definition check_private_key (k : Z) : outcome unit :=
  if (k <=? 0) || (ord Gr <=? k) then Err InvalidArgument else Ok tt.

(** ** ECCommutativeCipher *)
(** ValidateHashType, ec_commutative_cipher.cc:54-61: SHA256 = 0 .. SSWU_RO = 3. *)
Definition validate_hash_type (h : Z) : bool := (0 <=? h) && (h <=? 3).
Record cipher := mkCipher { cc_key : Z; cc_inv : Z; cc_hash : Z }.
(** InvertPrivateScalar, ec_commutative_cipher.cc:36-40, and the constructor 44-52. *)
Definition invert_private_scalar (k : Z) : outcome Z := mod_exp k (ord Gr - 2) (ord Gr).
Definition cipher_make (k h : Z) : outcome cipher :=
  let! i := invert_private_scalar k in Ok (mkCipher k i h).
(** CreateWithNewKey, 63-73. *)
Definition cipher_new (h : Z) : M cipher :=
  if validate_hash_type h then k <- @gen_private_key Gr ;; lift (cipher_make k h)
  else lift (Err InvalidArgument).
(** CreateFromKey, 75-90. *)
Definition cipher_from_key (key : bytes) (h : Z) : outcome cipher :=
  if validate_hash_type h then
    let k := of_bytes key in
    let! _ := check_private_key k in cipher_make k h
  else Err InvalidArgument.
(** CreateWithKeyFromSeed, 92-108: the PRF value is not checked to be non-zero.
    [None]: the PRF loop is still running. *)
Definition cipher_from_seed (hmac : bytes -> bytes -> bytes) (fuel : nat) (seed tag : bytes) (h : Z)
  : option (outcome cipher) :=
  if (length seed <? 16)%nat then Some (Err InvalidArgument)
  else if validate_hash_type h then
    match prf hmac fuel seed tag (ord Gr) with
    | None => None
    | Some o => Some (let! k := o in cipher_make k h)
    end
  else Some (Err InvalidArgument).
(** Encrypt(point), 124-126. *)
Definition cipher_encrypt_point (c : cipher) (x : Gr) : Gr := gpow x (cc_key c).
(** Encrypt(string), 110-115: [hash] is the hash-to-curve map selected by the
    hash type (a function of the plaintext; 155-174). *)
Definition cipher_encrypt (hash : bytes -> outcome Gr) (c : cipher) (pt : bytes) : outcome wpoint :=
  let! x := hash pt in point_to_bytes (cipher_encrypt_point c x).
(** ReEncrypt, 117-122. *)
Definition cipher_reencrypt (c : cipher) (w : wpoint) : outcome wpoint :=
  let! x := create_point w in point_to_bytes (cipher_encrypt_point c x).
(** Decrypt, 147-152. *)
Definition cipher_decrypt (c : cipher) (w : wpoint) : outcome wpoint :=
  let! x := create_point w in point_to_bytes (gpow x (cc_inv c)).
(** ReEncryptElGamalCiphertext, 128-145. *)
Definition cipher_reencrypt_elgamal (c : cipher) (w : wpoint * wpoint) : outcome (wpoint * wpoint) :=
  let! u := create_point (fst w) in
  let! e := create_point (snd w) in
  let r := ct_exp (mkCt u e) (cc_key c) in
  let! su := point_to_bytes (ct_u r) in
  let! se := point_to_bytes (ct_e r) in
  Ok (su, se).

(** ** CommutativeElGamal, commutative_elgamal.cc *)
Record ceg := mkCeg { ceg_pk : pubkey Gr; ceg_sk : option Z }.
(** CreateWithNewKeyPair, 48-57. *)
Definition ceg_new : M ceg := '(pk, x) <- gen_key_pair ;; ret (mkCeg pk (Some x)).
(** CreateFromPublicKey, 59-73. *)
Definition ceg_from_public (w : wpoint * wpoint) : outcome ceg :=
  let! g := create_point (fst w) in
  let! y := create_point (snd w) in Ok (mkCeg (mkPk g y) None).
(** CreateFromPublicAndPrivateKeys, 75-103. *)
Definition ceg_from_keys (w : wpoint * wpoint) (sk : bytes) : outcome ceg :=
  let! g := create_point (fst w) in
  let! y := create_point (snd w) in
  let x := of_bytes sk in
  if geqb y (gpow g x) then Ok (mkCeg (mkPk g y) (Some x)) else Err InvalidArgument.
(** Encrypt, 105-116 and EncryptIdentityElement, 118-129. *)
Definition ceg_encrypt_pt (k : ceg) (p : Gr) : M (wpoint * wpoint) :=
  c <- encrypt_point (ceg_pk k) p ;;
  su <- lift (point_to_bytes (ct_u c)) ;;
  se <- lift (point_to_bytes (ct_e c)) ;; ret (su, se).
Definition ceg_encrypt (k : ceg) (w : wpoint) : M (wpoint * wpoint) :=
  p <- lift (create_point w) ;; ceg_encrypt_pt k p.
Definition ceg_encrypt_identity (k : ceg) : M (wpoint * wpoint) := ceg_encrypt_pt k gid.
(** Decrypt, 131-149. *)
Definition ceg_decrypt (k : ceg) (w : wpoint * wpoint) : outcome wpoint :=
  match ceg_sk k with
  | None => Err InvalidArgument
  | Some x =>
      let! u := create_point (fst w) in
      let! e := create_point (snd w) in
      point_to_bytes (decrypt x (mkCt u e))
  end.
(** GetPublicKeyBytes / GetPrivateKeyBytes, 151-166. *)
Definition ceg_public_bytes (k : ceg) : outcome (wpoint * wpoint) :=
  let! g := point_to_bytes (pk_g (ceg_pk k)) in
  let! y := point_to_bytes (pk_y (ceg_pk k)) in Ok (g, y).
Definition ceg_private_bytes (k : ceg) : outcome bytes :=
  match ceg_sk k with None => Err InvalidArgument | Some x => to_bytes x end.
End Cipher.
Arguments wpoint : clear implicits.
Arguments ceg : clear implicits.
