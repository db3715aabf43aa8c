(** * Model of crypto/ec_group.cc (curve points, hashing to the curve),
    crypto/ec_point.cc (conversions) and crypto/ec_point_util.cc.

    The curve is y^2 = x^3 + a x + b over the integers modulo p.  A point is the
    point at infinity or a pair of coordinates.  BN_mod_sqrt is the parameter
    [root] (its answers are constrained by a hypothesis of the theorems), the
    digests are parameters, and BoringSSL's conversion functions are modelled
    from their documentation (SEC 1, 2.3.3 and 2.3.4). *)
Require Import List Arith Lia ZArith Bool.
Import ListNotations.
From Verif Require Import Prelude BytesModel ContextModel NumTheory PaillierModel.
Local Open Scope Z_scope.

Inductive affine := Infinity | Affine (x y : Z).

(** ECGroup, ec_group.h: the members used by the functions below. *)
Record ec_group := mkEcGroup { eg_p : Z; eg_a : Z; eg_b : Z; eg_half : Z }.
(** CreateCurveParams and GetPMinusOneOverTwo, ec_group.cc:79-112, as called by
    ECGroup::Create, 127-135, for a curve with parameters p, a, b. *)
Definition ec_group_create (p a b : Z) : outcome ec_group :=
  if prime_b p then let! h := bn_div (p - 1) 2 in Ok (mkEcGroup p a b h)
  else Err Internal.

(** ComputeYSquare, ec_group.cc:220-223. *)
Definition compute_y_square (g : ec_group) (x : Z) : Z :=
  (x ^ 3 + eg_a g * x + eg_b g) mod eg_p g.
(** IsSquare, ec_group.cc:242-244. *)
Definition is_square (g : ec_group) (q : Z) : outcome bool :=
  let! r := mod_exp q (eg_half g) (eg_p g) in Ok (r =? 1).
(** BigNum::ModNegate, big_num.cc:265-270. *)
Definition mod_negate (x m : Z) : Z := if x =? 0 then x else m - x mod m.
(** EC_POINT_is_on_curve for affine coordinates; IsOnCurve, ec_group.cc:232-235. *)
Definition is_on_curve (g : ec_group) (P : affine) : bool :=
  match P with
  | Infinity => true
  | Affine x y => y * y mod eg_p g =? compute_y_square g x
  end.
(** IsAtInfinity, 237-239. *)
Definition is_at_infinity (P : affine) : bool := match P with Infinity => true | Affine _ _ => false end.
(** IsValid, 225-230. *)
Definition is_valid (g : ec_group) (P : affine) : bool :=
  if negb (is_on_curve g P) || is_at_infinity P then false else true.
(** ECPoint::ECPoint(group, x, y), ec_point.cc:36-43:
    EC_POINT_set_affine_coordinates_GFp fails (CRYPTO_CHECK aborts) on
    coordinates that are not reduced or not on the curve. *)
Definition affine_point (g : ec_group) (x y : Z) : outcome affine :=
  if (0 <=? x) && (x <? eg_p g) && (0 <=? y) && (y <? eg_p g) && is_on_curve g (Affine x y)
  then Ok (Affine x y) else Abort.
(** CreateECPoint(x, y), ec_group.cc:262-270. *)
Definition create_point_xy (g : ec_group) (x y : Z) : outcome affine :=
  let! P := affine_point g x y in
  if negb (is_valid g P) then Err InvalidArgument else Ok P.

Section Curve.
(** [root a p]: BN_mod_sqrt; [None] is a null result. *)
Variable root : Z -> Z -> option Z.

(** BigNum::ModSqrt, big_num.cc:258-263. *)
Definition mod_sqrt (x m : Z) : outcome Z := match root x m with Some r => Ok r | None => Abort end.

(** GetPointByHashingToCurveInternal, ec_group.cc:148-160. *)
Definition hash_internal (g : ec_group) (x : Z) : outcome affine :=
  let mod_x := x mod eg_p g in
  let y2 := compute_y_square g mod_x in
  let! sq := is_square g y2 in
  if sq then
    let! sqrt := mod_sqrt y2 (eg_p g) in
    if Z.testbit sqrt 0 then create_point_xy g mod_x (mod_negate sqrt (eg_p g))
    else create_point_xy g mod_x sqrt
  else Err Internal.

Section Digest.
(** [hlen], [sha]: 256, 384 or 512 and the digest (Context::RandomOracleSha*,
    context.cc:128-141). *)
Variable hlen : Z.
Variable sha : bytes -> bytes.
(** the loop of GetPointByHashingToCurveSha{256,384,512}, ec_group.cc:165-171,
    177-183, 189-195; [None]: still running after [fuel] rounds. *)
Fixpoint hash_loop (fuel : nat) (g : ec_group) (x : Z) : option (outcome affine) :=
  match fuel with
  | O => None
  | S f =>
    match hash_internal g x with
    | Ok P => Some (Ok P)
    | Err _ =>
      match (let! s := to_bytes x in random_oracle hlen sha s (eg_p g)) with
      | Ok x' => hash_loop f g x'
      | Err c => Some (Err c) | Abort => Some Abort | UB => Some UB
      end
    | Abort => Some Abort | UB => Some UB
    end
  end.
(** GetPointByHashingToCurveSha{256,384,512}, ec_group.cc:162-196. *)
Definition hash_to_curve (fuel : nat) (g : ec_group) (m : bytes) : option (outcome affine) :=
  match random_oracle hlen sha m (eg_p g) with
  | Ok x => hash_loop fuel g x
  | Err c => Some (Err c) | Abort => Some Abort | UB => Some UB
  end.
End Digest.

(** ** conversions *)
(** the number of bytes of a coordinate *)
Definition field_len (g : ec_group) : nat := length (bn2bin (eg_p g)).
(** ECPoint::ToBytesCompressed, ec_point.cc:49-59 (EC_POINT_point2oct). *)
Definition to_compressed (g : ec_group) (P : affine) : outcome bytes :=
  match P with
  | Infinity => Err Internal
  | Affine x y => Ok ((2 + y mod 2) :: pad_bytes (bn2bin x) (field_len g))
  end.
(** ECPoint::ToBytesUnCompressed, ec_point.cc:61-72. *)
Definition to_uncompressed (g : ec_group) (P : affine) : outcome bytes :=
  match P with
  | Infinity => Err Internal
  | Affine x y => Ok (4 :: pad_bytes (bn2bin x) (field_len g) ++ pad_bytes (bn2bin y) (field_len g))
  end.
(** EC_POINT_oct2point *)
Definition oct2point (g : ec_group) (s : bytes) : option affine :=
  match s with
  | [] => None
  | t :: r =>
    if t =? 4 then
      if (length r =? 2 * field_len g)%nat then
        let x := of_bytes (firstn (field_len g) r) in
        let y := of_bytes (skipn (field_len g) r) in
        if (x <? eg_p g) && (y <? eg_p g) && is_on_curve g (Affine x y) then Some (Affine x y) else None
      else None
    else if (t =? 2) || (t =? 3) then
      if (length r =? field_len g)%nat then
        let x := of_bytes r in
        if x <? eg_p g then
          match root (compute_y_square g x) (eg_p g) with
          | None => None
          | Some y => if y =? 0 then if t =? 3 then None else Some (Affine x 0)
                      else Some (Affine x (if Bool.eqb (Z.odd y) (t =? 3) then y else eg_p g - y))
          end
        else None
      else None
    else None
  end.
(** CreateECPoint(bytes), ec_group.cc:272-292. *)
Definition create_point_bytes (g : ec_group) (s : bytes) : outcome affine :=
  match oct2point g s with
  | None => Err InvalidArgument
  | Some P => if negb (is_valid g P) then Err InvalidArgument else Ok P
  end.
(** ECPointUtil::IsCurvePoint, ec_point_util.cc:64-66. *)
Definition is_curve_point (g : ec_group) (s : bytes) : bool :=
  match create_point_bytes g s with Ok _ => true | _ => false end.

(** ** the callers: hash types SHA256 = 0, SHA384 = 1, SHA512 = 2, SSWU_RO = 3
    (ec_commutative_cipher.h) *)
Record digests := mkDigests { d256 : bytes -> bytes; d384 : bytes -> bytes; d512 : bytes -> bytes }.
Variable D : digests.
(** EC_hash_to_curve_p256_xmd_sha256_sswu and its P-384 twin: a library function *)
Variable sswu : bytes -> outcome affine.
(** point.ToBytesCompressed() on the result of a hash *)
Definition compress_hash (g : ec_group) (o : option (outcome affine)) : option (outcome bytes) :=
  match o with None => None | Some r => Some (let! P := r in to_compressed g P) end.
(** ECPointUtil::HashToCurve, ec_point_util.cc:47-62. *)
Definition util_hash_to_curve (fuel : nat) (g : ec_group) (input : bytes) (hash_type : Z) : option (outcome bytes) :=
  if hash_type =? 2 then compress_hash g (hash_to_curve 512 (d512 D) fuel g input)
  else if hash_type =? 0 then compress_hash g (hash_to_curve 256 (d256 D) fuel g input)
  else Some (Err InvalidArgument).
(** ECCommutativeCipher::HashToTheCurveInternal, ec_commutative_cipher.cc:154-170. *)
Definition cipher_hash_internal (fuel : nat) (g : ec_group) (plaintext : bytes) (hash_type : Z)
  : option (outcome affine) :=
  if hash_type =? 2 then hash_to_curve 512 (d512 D) fuel g plaintext
  else if hash_type =? 1 then hash_to_curve 384 (d384 D) fuel g plaintext
  else if hash_type =? 0 then hash_to_curve 256 (d256 D) fuel g plaintext
  else if hash_type =? 3 then Some (sswu plaintext)
  else Some (Err InvalidArgument).
(** ECCommutativeCipher::HashToTheCurve, 172-176. *)
Definition cipher_hash_to_curve (fuel : nat) (g : ec_group) (plaintext : bytes) (hash_type : Z)
  : option (outcome bytes) := compress_hash g (cipher_hash_internal fuel g plaintext hash_type).
End Curve.
