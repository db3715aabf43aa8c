(** * Model of crypto/mont_mul.{h,cc} and of the Montgomery version of
    TwoKAryFixedBaseExpImpl (fixed_base_exp.cc:82-131).

    BN_MONT_CTX, BN_to_montgomery, BN_mod_mul_montgomery and BN_from_montgomery
    are OpenSSL functions outside /repo: they are modelled by their contract
    (R = 2^(64 * number of 64-bit limbs of the modulus); multiplication of
    reduced a, b is a * b * R^-1 mod m; negative operands are rejected;
    operands that are not below the modulus are outside the contract: UB).
    A context is identified by the address of its BN_MONT_CTX ([mc_id]). *)
Require Import List Arith Lia ZArith Bool.
Import ListNotations.
From Verif Require Import Prelude NumTheory BytesModel PaillierModel.
Local Open Scope Z_scope.

Record mont_ctx := mkMontCtx { mc_id : nat; mc_mod : Z }.
(** MontBigNum, mont_mul.h:37-108: the context pointer and the number in
    Montgomery form.  Copies (mont_mul.cc:29-39) are the value itself; moved-from
    objects are not modelled. *)
Record mont := mkMont { mn_ctx : mont_ctx; mn_bn : Z }.

(** BN_MONT_CTX_set: the radix of a modulus *)
Definition limbs (m : Z) : Z := Z.log2 m / 64 + 1.
Definition radix (m : Z) : Z := 2 ^ (64 * limbs m).
(** MontContext::MontContext, mont_mul.cc:120-125: BN_MONT_CTX_set fails for even
    and for non-positive moduli (CRYPTO_CHECK). *)
Definition mont_context (id : nat) (m : Z) : outcome mont_ctx :=
  if (m <=? 0) || Z.even m then Abort else Ok (mkMontCtx id m).

(** BN_mod_mul_montgomery under CRYPTO_CHECK *)
Definition mul_montgomery (m a b : Z) : outcome Z :=
  if (a <? 0) || (b <? 0) then Abort
  else if (m <=? a) || (m <=? b) then UB
  else Ok (a * b * inv_mod (radix m) m mod m).
(** BN_to_montgomery: multiplication by R^2 mod m *)
Definition to_montgomery (m a : Z) : outcome Z := mul_montgomery m a (radix m * radix m mod m).
(** BN_from_montgomery under CRYPTO_CHECK *)
Definition from_montgomery (m a : Z) : outcome Z :=
  if a <? 0 then Abort else if m <=? a then UB else Ok (a * inv_mod (radix m) m mod m).

(** MontContext::CreateMontBigNum(const BigNum&), mont_mul.cc:107-114. *)
Definition mont_create (c : mont_ctx) (x : Z) : outcome mont :=
  if negb (x <? mc_mod c) then Abort
  else let! a := to_montgomery (mc_mod c) x in Ok (mkMont c a).
(** MontContext::CreateMontBigNum(string_view), mont_mul.cc:116-118, with the
    constructor of lines 50-56. *)
Definition mont_create_bytes (c : mont_ctx) (s : bytes) : mont := mkMont c (of_bytes s).
(** MontBigNum::MulInPlace, mont_mul.cc:64-70 (CHECK_EQ on the context pointers). *)
Definition mont_mul_in_place (a b : mont) : outcome mont :=
  if negb (mc_id (mn_ctx b) =? mc_id (mn_ctx a))%nat then Abort
  else let! r := mul_montgomery (mc_mod (mn_ctx a)) (mn_bn a) (mn_bn b) in Ok (mkMont (mn_ctx a) r).
(** MontBigNum::Mul, mont_mul.cc:58-62, and operator *, mont_mul.h:113-115. *)
Definition mont_mul (a b : mont) : outcome mont := let r := a in mont_mul_in_place r b.
(** MontBigNum::operator==, mont_mul.cc:72-75. *)
Definition mont_eq (a b : mont) : outcome bool :=
  if negb (mc_id (mn_ctx b) =? mc_id (mn_ctx a))%nat then Abort else Ok (mn_bn a =? mn_bn b).
(** MontBigNum::operator!=, mont_mul.h:76-78. *)
Definition mont_neq (a b : mont) : outcome bool := let! r := mont_eq a b in Ok (negb r).
(** MontBigNum::PowTo2To, mont_mul.cc:77-86. *)
Fixpoint square_loop (k : nat) (m z : Z) : outcome Z :=
  match k with O => Ok z | S k' => let! z' := mul_montgomery m z z in square_loop k' m z' end.
Definition mont_pow2 (a : mont) (exponent : Z) : outcome mont :=
  if exponent <? 0 then Abort
  else let! r := square_loop (Z.to_nat exponent) (mc_mod (mn_ctx a)) (mn_bn a) in Ok (mkMont (mn_ctx a) r).
(** MontBigNum::ToBytes, mont_mul.cc:89-94 (BN_bn2bin ignores the sign). *)
Definition mont_to_bytes (a : mont) : bytes := bn2bin (Z.abs (mn_bn a)).
(** MontBigNum::ToBigNum, mont_mul.cc:96-103. *)
Definition mont_to_big_num (a : mont) : outcome Z := from_montgomery (mc_mod (mn_ctx a)) (mn_bn a).

(** ** TwoKAryFixedBaseExpImpl *)
Record mont_fbe := mkMontFbe { mf_cache : list mont }.
(** the loop of the constructor, fixed_base_exp.cc:97-100 *)
Fixpoint mont_fill (k : nat) (last g : mont) : outcome (list mont) :=
  match k with
  | O => Ok []
  | S k' => let! x := mont_mul last g in let! r := mont_fill k' x g in Ok (x :: r)
  end.
(** the constructor, fixed_base_exp.cc:87-101; [id] is the address of the new context *)
Definition mont_fbe_new (id : nat) (base m : Z) : outcome mont_fbe :=
  let! c := mont_context id m in
  let! one := mont_create c 1 in
  let! g := mont_create c base in
  let! r := mont_fill 256 g g in
  Ok (mkMontFbe (one :: g :: r)).
(** [for (int j = 0; j < 8; ++j) z *= z], fixed_base_exp.cc:117-119 *)
Fixpoint mont_squares (k : nat) (z : mont) : outcome mont :=
  match k with O => Ok z | S k' => let! z' := mont_mul_in_place z z in mont_squares k' z' end.
(** one iteration over the bytes of the exponent, fixed_base_exp.cc:116-121 *)
Definition mont_step (cache : list mont) (z : outcome mont) (b : Z) : outcome mont :=
  let! z := z in
  let! z := mont_squares 8 z in
  match nth_error cache (Z.to_nat b) with
  | Some x => mont_mul_in_place z x
  | None => UB
  end.
(** FixedBaseExp::ModExp, fixed_base_exp.cc:136-142, over ModExp of lines 113-123. *)
Definition mont_fbe_exp (f : mont_fbe) (e : Z) : outcome Z :=
  if e <? 0 then Err InvalidArgument else
  match mf_cache f with
  | [] => UB
  | one :: _ =>
      let! values := to_bytes e in
      let! z := fold_left (mont_step (mf_cache f)) values (Ok one) in
      mont_to_big_num z
  end.
