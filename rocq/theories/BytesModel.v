(** * Byte strings: BigNum::ToBytes / CreateBigNum, gc_util.cc, Byte2Binary.

    A byte is a [Z] in [0,256); a std::string is a list of bytes. *)
Require Import List Arith Lia ZArith Bool.
Import ListNotations.
From Verif Require Import Prelude.
Local Open Scope Z_scope.

Definition is_byte (b : Z) : Prop := 0 <= b < 256.
Definition bytes := list Z.

(** little-endian base-256 digits of a non-negative number, no trailing zero;
    [fuel] is an upper bound on their number *)
Fixpoint le_digits (fuel : nat) (x : Z) : bytes :=
  match fuel with
  | O => []
  | S f => if x =? 0 then [] else (x mod 256) :: le_digits f (x / 256)
  end.
(** BN_num_bytes / BN_bn2bin on a non-negative number: the minimal big-endian
    encoding. *)
Definition bn2bin (x : Z) : bytes := rev (le_digits (S (Z.to_nat (Z.log2 x))) x).

(** BigNum::ToBytes, crypto/big_num.cc:97-104 (CHECK aborts on negatives). *)
Definition to_bytes (x : Z) : outcome bytes := if x <? 0 then Abort else Ok (bn2bin x).
(** Context::CreateBigNum(string) / BN_bin2bn, context.cc:51-53, big_num.cc:71-76. *)
Definition of_bytes (s : bytes) : Z := fold_left (fun a b => a * 256 + b) s 0.

(** std::bitset<8>(c).to_string(): most significant bit first. *)
Definition byte_bits (c : Z) : list bool :=
  map (fun i => Z.testbit c (Z.of_nat i)) [7;6;5;4;3;2;1;0]%nat.
(** Byte2Binary, utils.cc:148-154. *)
Definition byte2binary (s : bytes) : list bool := flat_map byte_bits s.

(** bytes2uint64, util/gc_util.cc:8-15: [res << 8] on uint64_t drops high bits. *)
Definition bytes2uint64 (s : bytes) : Z :=
  fold_left (fun res b => ((res * 256) mod 2 ^ 64 + b) mod 2 ^ 64)
            (skipn (length s - 8) s) 0.
(** BigNum2uint64, gc_util.cc:23-26. *)
Definition bignum2uint64 (x : Z) : outcome Z :=
  let! s := to_bytes x in Ok (bytes2uint64 s).

(** [str[i]] for [0 <= i < len] (a negative [int] index converts to a huge
    [size_t]: out of bounds). *)
Definition str_at (s : bytes) (i : Z) : outcome Z :=
  if (i <? 0) || (Z.of_nat (length s) <=? i) then UB else Ok (nth (Z.to_nat i) s 0).
(** bits [k-1 .. 0] of a byte, most significant first (inner loops of bytes2bool) *)
Definition low_bits (k : nat) (b : Z) : list bool :=
  map (fun i => Z.testbit b (Z.of_nat i)) (rev (seq 0 k)).
(** bytes2bool, gc_util.cc:28-39; the assert on line 30 is compiled out. *)
Definition bytes2bool (s : bytes) (cnt : nat) : outcome (list bool) :=
  let len := Z.of_nat (length s) in
  let cnt_byte := (cnt / 8)%nat in
  let rem := (cnt mod 8)%nat in
  let! hd := (if (rem =? 0)%nat then Ok []
              else let! b := str_at s (len - Z.of_nat cnt_byte - 1) in Ok (low_bits rem b)) in
  let! tl := omap (fun i => let! b := str_at s (len - Z.of_nat cnt_byte + Z.of_nat i) in Ok (low_bits 8 b))
                  (seq 0 cnt_byte) in
  Ok (hd ++ concat tl).

(** PadBytes, gc_util.cc:63-66. *)
Definition pad_bytes (s : bytes) (len : nat) : bytes :=
  repeat 0 (len - length s) ++ s.
(** BigNum2block, gc_util.cc:48-55: [cnt_block] 16-byte loads from the start of
    the (padded) string. *)
Definition bignum2block (x : Z) (cnt_block : nat) : outcome (list bytes) :=
  let! s := to_bytes x in
  let str := pad_bytes s (16 * cnt_block) in
  Ok (map (fun i => firstn 16 (skipn (16 * i) str)) (seq 0 cnt_block)).
(** block2BigNum, gc_util.cc:57-61: the blocks are contiguous in memory. *)
Definition block2bignum (bl : list bytes) : Z := of_bytes (concat bl).

(** the number of blocks used for a modulus, deletion/party.h:226-228 *)
Definition blocks_for (n : Z) : nat := ((length (bn2bin n) * 2 + 15) / 16)%nat.
