(** * Properties C37-C40: byte encodings, circuit inputs, random oracle and PRF.
    Statements only; program: BytesModel.v, ContextModel.v. *)
Require Import List Arith Lia ZArith Bool.
Import ListNotations.
From Verif Require Import Prelude BytesModel BytesProofs Coins ContextModel ContextProofs.
Local Open Scope Z_scope.

(** C37. Minimal big-endian encoding: round trip, canonical, length. *)
Theorem C37_bytes_roundtrip :
  forall x, 0 <= x ->
  exists s, to_bytes x = Ok s /\ of_bytes s = x /\ Forall is_byte s /\ hd 1 s <> 0 /\
    (forall k, (length s <= k)%nat <-> x < 256 ^ Z.of_nat k).
Proof. exact bytes_roundtrip. Qed.
Theorem C37_bytes_canonical :
  to_bytes 0 = Ok []
  /\ (forall x, x < 0 -> to_bytes x = Abort)
  /\ (forall x y s, to_bytes x = Ok s -> to_bytes y = Ok s -> x = y)
  /\ (forall s, Forall is_byte s -> hd 1 s <> 0 -> to_bytes (of_bytes s) = Ok s)
  /\ (forall k s, of_bytes (repeat 0 k ++ s) = of_bytes s)
  /\ (forall s, Forall is_byte s -> 0 <= of_bytes s < 256 ^ Z.of_nat (length s)).
Proof. exact bytes_canonical. Qed.

(** C38. Blocks for oblivious transfer. *)
Theorem C38_block_roundtrip :
  forall x k, 0 <= x < 2 ^ (128 * Z.of_nat k) ->
  exists bl, bignum2block x k = Ok bl /\ length bl = k /\ Forall (fun b => length b = 16%nat) bl
    /\ block2bignum bl = x.
Proof. exact block_roundtrip. Qed.
(** every value below n^2 fits the width computed from n; larger ones would not survive *)
Theorem C38_ciphertext_width :
  (forall n c, 0 < n -> 0 <= c < n * n ->
     exists bl, bignum2block c (blocks_for n) = Ok bl /\ block2bignum bl = c)
  /\ (forall x k, 2 ^ (128 * Z.of_nat k) <= x ->
     exists bl, bignum2block x k = Ok bl /\ block2bignum bl <> x).
Proof. exact ciphertext_width. Qed.
(** BigNum2uint64 is reduction modulo 2^64; negative numbers abort. *)
Theorem C38_uint64 :
  forall x, bignum2uint64 x = if x <? 0 then Abort else Ok (x mod 2 ^ 64).
Proof. exact bignum2uint64_spec. Qed.

(** C39. The circuit input of [x]: with [v] the hash value below 2^73 it is the
    low 72 bits of [v] (most significant first) if [v >= 2^64] and undefined
    behaviour for every smaller [v]. *)
Theorem C39_circuit_input :
  forall (sha256 : bytes -> bytes) x,
  (forall s, length (sha256 s) = 32%nat /\ Forall is_byte (sha256 s)) -> 0 <= x ->
  exists v, random_oracle 256 sha256 (bn2bin x) (2 ^ 73) = Ok v /\ 0 <= v < 2 ^ 73 /\
    (2 ^ 64 <= v ->
       exists bits, bignum2bool sha256 x 72 = Ok bits /\ length bits = 72%nat /\
         forall i, (i < 72)%nat -> nth i bits false = Z.testbit v (71 - Z.of_nat i)) /\
    (v < 2 ^ 64 -> bignum2bool sha256 x 72 = UB).
Proof. exact circuit_input. Qed.
(** such values exist: for some digest functions and elements the conversion is undefined *)
Theorem C39_undefined_reachable :
  exists sha256 : bytes -> bytes,
    (forall s, length (sha256 s) = 32%nat /\ Forall is_byte (sha256 s)) /\
    exists x, 0 <= x /\ bignum2bool sha256 x 72 = UB.
Proof. exact undefined_reachable. Qed.

(** C40. Random oracle: [n] is the least number of digests covering
    bit_length(max)+hlen bits; the value is the big-endian number formed by the
    first bit_length(max)+hlen bits of digest(1|x) digest(2|x) ... reduced
    modulo max; it aborts iff more than 130048 bits would be needed. *)
Theorem C40_random_oracle :
  forall (hlen : Z) (sha : bytes -> bytes) (x : bytes) (max : Z),
  hlen = 256 \/ hlen = 384 \/ hlen = 512 ->
  (forall s, Z.of_nat (length (sha s)) * 8 = hlen /\ Forall is_byte (sha s)) ->
  0 < max -> bit_length max + hlen < 2 ^ 24 ->
  let L := bit_length max + hlen in
  exists n, L <= n * hlen < L + hlen /\
    (130048 <= n * hlen -> random_oracle hlen sha x max = Abort) /\
    (n * hlen < 130048 -> exists r, random_oracle hlen sha x max = Ok r /\ 0 <= r < max /\
       r = (of_bytes (flat_map (fun i => sha (bn2bin (Z.of_nat i) ++ x)) (seq 1 (Z.to_nat n)))
            / 2 ^ (n * hlen - L)) mod max).
Proof. exact random_oracle_statement. Qed.

(** C40. PRF: whenever it returns, the output is below [max]; it aborts only on
    a short key or a long range; it is deterministic; for a non-positive
    [max] it never returns. *)
Theorem C40_prf :
  forall (hmac : bytes -> bytes -> bytes) key data max,
  (forall fuel o, prf hmac fuel key data max = Some o ->
     match o with
     | Ok r => 0 <= r < max
     | Abort => (length key < 10)%nat \/ 512 < bit_length max
     | _ => False
     end)
  /\ (forall fuel fuel' o, (fuel <= fuel')%nat ->
        prf hmac fuel key data max = Some o -> prf hmac fuel' key data max = Some o)
  /\ (max <= 0 -> (10 <= length key)%nat -> bit_length max <= 512 ->
        forall fuel, prf hmac fuel key data max = None).
Proof. exact prf_statement. Qed.

(** C40. Random numbers. *)
Theorem C40_random_numbers :
  (forall a b t r t', rand_between a b t = Ok (r, t') -> a <= r < b)
  /\ (forall a b r, a <= r < b -> exists t t', rand_between a b t = Ok (r, t'))
  /\ (forall fuel num t r t', rel_prime_less_than fuel num t = Some (Ok (r, t')) ->
        0 <= r < num /\ Z.gcd r num = 1)
  /\ (forall num r, 0 <= r < num -> Z.gcd r num = 1 ->
        exists t t', rel_prime_less_than 1 num t = Some (Ok (r, t')))
  /\ (forall fuel num t, 0 < num -> rel_prime_less_than fuel num t = None ->
        forall i, (i < fuel)%nat -> 1 < Z.gcd (t i mod num) num).
Proof. exact random_numbers. Qed.

(** ** Non-vacuity *)
Section Examples.
Example ex_to_bytes : to_bytes 66051 = Ok [1;2;3]. Proof. vm_compute; reflexivity. Qed.
Example ex_block : exists bl, bignum2block 66051 2 = Ok bl /\ block2bignum bl = 66051.
Proof. eexists; split; vm_compute; reflexivity. Qed.
(* a digest function: the bytes, zero padded / cut to 32 *)
Definition ex_sha (s : bytes) : bytes := firstn 32 (map (fun b => b mod 256) s ++ repeat 7 32).
Example ex_sha_ok : forall s, length (ex_sha s) = 32%nat /\ Forall is_byte (ex_sha s).
Proof.
  intros s. unfold ex_sha. split.
  - rewrite firstn_length, app_length, repeat_length. lia.
  - apply firstn_bytes. apply Forall_app. split.
    + apply Forall_forall. intros b Hb. apply in_map_iff in Hb as (c & <- & _). apply Z.mod_pos_bound. lia.
    + apply Forall_forall. intros b Hb. apply repeat_spec in Hb. subst. unfold is_byte. lia.
Qed.
Example ex_oracle : exists r, random_oracle 256 ex_sha [1;2;3] 1000003 = Ok r /\ 0 < r < 1000003.
Proof. eexists. split; [vm_compute; reflexivity|]. lia. Qed.
Example ex_circuit : exists bits, bignum2bool ex_sha 66051 72 = Ok bits /\ length bits = 72%nat.
Proof. eexists. split; vm_compute; reflexivity. Qed.
Example ex_prf : prf (fun k d => ex_sha (k ++ d) ++ ex_sha d) 5 (repeat 1 16) [9] 1000003 <> None.
Proof. vm_compute. discriminate. Qed.
End Examples.

Print Assumptions C37_bytes_roundtrip.
Print Assumptions C37_bytes_canonical.
Print Assumptions C38_block_roundtrip.
Print Assumptions C38_ciphertext_width.
Print Assumptions C38_uint64.
Print Assumptions C39_circuit_input.
Print Assumptions C39_undefined_reachable.
Print Assumptions C40_random_oracle.
Print Assumptions C40_prf.
Print Assumptions C40_random_numbers.
