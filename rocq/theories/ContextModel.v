(** * Model of crypto/context.cc: random oracle, PRF, random numbers.

    The digest functions are arbitrary functions on byte strings with the right
    output length (a hypothesis of the theorems). *)
Require Import List Arith Lia ZArith Bool.
Import ListNotations.
From Verif Require Import Prelude BytesModel Coins.
Local Open Scope Z_scope.

(** BN_num_bits of a number (of its absolute value). *)
Definition bit_length (x : Z) : Z := if x =? 0 then 0 else Z.log2 (Z.abs x) + 1.

(** ** binary32 arithmetic on positive integers, round to nearest even *)
(** [num/den] rounded to the nearest integer, ties to even *)
Definition rne (num den : Z) : Z :=
  let q := num / den in let r := num mod den in
  if 2 * r <? den then q
  else if den <? 2 * r then q + 1
  else if Z.even q then q else q + 1.
(** static_cast<float>(a) for 0 <= a *)
Definition f32_of_int (a : Z) : Z :=
  if a <? 2 ^ 24 then a
  else let s := 2 ^ (Z.log2 a - 23) in rne a s * s.
(** std::ceil(a / b) in binary32 for integers 1 <= b <= a: the quotient lies in
    [2^e, 2^(e+1)) and is kept with 24 significant bits. *)
Definition f32_div_ceil (a b : Z) : Z :=
  let e := Z.log2 (a / b) in
  if e <=? 23 then
    let k := 23 - e in let m := rne (a * 2 ^ k) b in - ((- m) / 2 ^ k)
  else let k := e - 23 in rne a (b * 2 ^ k) * 2 ^ k.

Section Oracle.
(** [hlen] is hash_output_length (256, 384 or 512), [sha] the digest. *)
Variable hlen : Z.
Variable sha : bytes -> bytes.

(** iter_count, context.cc:103-105. *)
Definition iter_count (out_len : Z) : Z := f32_div_ceil (f32_of_int out_len) hlen.
(** the loop at lines 112-124: [n] iterations starting with counter [i]. *)
Fixpoint oracle_loop (x : bytes) (i : Z) (n : nat) (acc : Z) : Z :=
  match n with
  | O => acc
  | S m => oracle_loop x (i + 1) m (acc * 2 ^ hlen + of_bytes (sha (bn2bin i ++ x)))
  end.
(** Context::RandomOracle, context.cc:95-126.  CHECK failures abort; BN_rshift
    by a negative amount and BN_nnmod by zero fail and abort. *)
Definition random_oracle (x : bytes) (max : Z) : outcome Z :=
  let out_len := bit_length max + hlen in
  let iters := iter_count out_len in
  if 130048 <=? iters * hlen then Abort else
  let excess := iters * hlen - out_len in
  let h := oracle_loop x 1 (Z.to_nat iters) 0 in
  if (excess <? 0) || (max =? 0) then Abort
  else Ok ((h / 2 ^ excess) mod Z.abs max).
End Oracle.

(** BigNum2bool, util/gc_util.cc:41-46. *)
Definition bignum2bool (sha256 : bytes -> bytes) (x : Z) (cnt : nat) : outcome (list bool) :=
  let max := 2 ^ (Z.of_nat cnt + 1) in
  let! s := to_bytes x in
  let! v := random_oracle 256 sha256 s max in
  let! b := to_bytes v in
  bytes2bool b cnt.

(** Context::PRF, context.cc:143-166; [hmac key data] is the 64-byte
    HMAC-SHA512.  The recursion is unbounded: [fuel] bounds the number of
    calls, [None] = still running. *)
Fixpoint prf (hmac : bytes -> bytes -> bytes) (fuel : nat) (key data : bytes) (max : Z)
  : option (outcome Z) :=
  match fuel with
  | O => None
  | S f =>
    if Z.of_nat (length key) * 8 <? 80 then Some Abort
    else if 512 <? bit_length max then Some Abort
    else let hash_bn := of_bytes (hmac key data) in
         let red := hash_bn mod 2 ^ bit_length max in
         if red <? max then Some (Ok red)
         else prf hmac f key (bn2bin hash_bn) max
  end.

(** Context::RelativelyPrimeRandomLessThan, context.cc:201-207; unbounded
    rejection loop, [None] = still running. *)
Fixpoint rel_prime_less_than (fuel : nat) (num : Z) (t : tape) : option (outcome (Z * tape)) :=
  match fuel with
  | O => None
  | S f => match rand_less_than num t with
           | Ok (r, t') => if 1 <? Z.gcd r num then rel_prime_less_than f num t' else Some (Ok (r, t'))
           | Err c => Some (Err c) | Abort => Some Abort | UB => Some UB
           end
  end.
