(** * Model of crypto/{two_modulus_crt,fixed_base_exp,paillier,threshold_paillier}.cc
    and of the part of big_num.cc they use.

    BigNum is modelled by Z.  BN_is_prime_ex is modelled as an exact primality
    test, GenerateSafePrime by its result (an argument).  MontBigNum
    (mont_mul.cc) is modelled by the residue it represents. *)
Require Import List Arith Lia ZArith Bool.
Import ListNotations.
From Verif Require Import Prelude Coins NumTheory BytesModel ContextModel.
Local Open Scope Z_scope.

(** ** BigNum operations *)
(** [pow_mod b e m] = b^e mod m ([pow_mod_correct] in PaillierProofs), by
    repeated squaring so that the model can be run *)
Fixpoint pow_mod_pos (b : Z) (e : positive) (m : Z) : Z :=
  match e with
  | xH => b mod m
  | xO e' => let r := pow_mod_pos b e' m in r * r mod m
  | xI e' => let r := pow_mod_pos b e' m in r * r mod m * b mod m
  end.
Definition pow_mod (b e m : Z) : Z := match e with Z0 => 1 mod m | Zpos p => pow_mod_pos b p m | Zneg _ => 0 mod m end.
(** BigNum::ModExp, big_num.cc:234-241: CHECK on a negative exponent; BN_mod_exp
    fails (CRYPTO_CHECK aborts) for a modulus that is not positive. *)
Definition mod_exp (b e m : Z) : outcome Z :=
  if (e <? 0) || (m <=? 0) then Abort else Ok (pow_mod b e m).
(** BigNum::ModInverse, big_num.cc:249-256 (moduli above 1 only). *)
Definition mod_inverse (a m : Z) : outcome Z :=
  if (1 <? m) && (Z.gcd a m =? 1) then Ok (inv_mod a m) else Err InvalidArgument.
(** StatusOr::value() / operator* on an error terminates the process. *)
Definition value {A} (o : outcome A) : outcome A :=
  match o with Err _ => Abort | _ => o end.
(** BigNum::Div, big_num.cc:174-184: CHECKs that the division is exact. *)
Definition bn_div (a b : Z) : outcome Z :=
  if b =? 0 then Abort else if Z.rem a b =? 0 then Ok (Z.quot a b) else Abort.

(** ** TwoModulusCrt, two_modulus_crt.cc:20-32 *)
Record crt := mkCrt { crt_term1 : Z; crt_term2 : Z; crt_product : Z }.
Definition crt_new (p q : Z) : outcome crt :=
  let! qi := value (mod_inverse q p) in
  let! pi := value (mod_inverse p q) in
  Ok (mkCrt (q * qi) (p * pi) (p * q)).
Definition crt_compute (c : crt) (a b : Z) : Z :=
  (a * crt_term1 c + b * crt_term2 c) mod crt_product c.

(** ** FixedBaseExp, fixed_base_exp.cc *)
Record fbe := mkFbe { fb_base : Z; fb_mod : Z; fb_cache : option (list Z) }.
(** the loop filling the cache, fixed_base_exp.cc:98-100 *)
Fixpoint fill_cache (k : nat) (last g m : Z) : list Z :=
  match k with O => [] | S k' => let x := last * g mod m in x :: fill_cache k' x g m end.
(** TwoKAryFixedBaseExpImpl constructor, lines 87-101: BN_MONT_CTX_set fails for
    even or non-positive moduli, CreateMontBigNum CHECKs value < modulus
    (mont_mul.cc:107-108); negative bases are not modelled (Abort). *)
Definition two_k_ary_new (base m : Z) : outcome fbe :=
  if (m <=? 1) || Z.even m || (m <=? base) || (base <? 0) then Abort
  else Ok (mkFbe base m (Some (1 :: base :: fill_cache 256 base base m))).
(** GetFixedBaseExp, lines 144-153; [two_k_ary] is the command-line flag. *)
Definition fbe_new (two_k_ary : bool) (base m : Z) : outcome fbe :=
  if two_k_ary then two_k_ary_new base m else Ok (mkFbe base m None).
(** the inner loop of TwoKAry ModExp, lines 113-124 *)
Definition square (m z : Z) : Z := z * z mod m.
Definition two_k_ary_step (cache : list Z) (m : Z) (z : outcome Z) (b : Z) : outcome Z :=
  let! z := z in
  match nth_error cache (Z.to_nat b) with
  | Some x => Ok (Nat.iter 8 (square m) z * x mod m)
  | None => UB
  end.
(** FixedBaseExp::ModExp, lines 136-142 with the two implementations. *)
Definition fbe_exp (f : fbe) (e : Z) : outcome Z :=
  if e <? 0 then Err InvalidArgument else
  match fb_cache f with
  | None => mod_exp (fb_base f) e (fb_mod f)
  | Some cache => fold_left (two_k_ary_step cache (fb_mod f)) (bn2bin e) (Ok (nth 0 cache 1))
  end.

(** ** Helpers of paillier.cc *)
(** GetPowers, paillier.cc:121-128: num^0 .. num^(s+1). *)
Definition get_powers (num : Z) (s : nat) : list Z :=
  map (fun i => num ^ Z.of_nat i) (seq 0 (s + 2)).
(** GetPrecomp, paillier.cc:131-141. *)
Fixpoint precomp_loop (num m : Z) (i k : nat) (last : Z) : outcome (list Z) :=
  match k with
  | O => Ok []
  | S k' =>
      let! inv := value (mod_inverse (Z.of_nat i) m) in
      let x := last * (inv * num mod m) mod m in
      let! r := precomp_loop num m (S i) k' x in Ok (x :: r)
  end.
Definition get_precomp (num m : Z) (s : nat) : outcome (list Z) :=
  let! r := precomp_loop num m 1 s 1 in Ok (1 :: r).
(** GetDecryptPrecomp, paillier.cc:145-168: the entries (k, s); the entry
    (k, j) is this value reduced modulo p^j (the successive reductions of the
    loop collapse because the moduli divide one another). *)
Fixpoint decrypt_precomp_loop (precomp powers : list Z) (s k cnt : nat) : outcome (list Z) :=
  match cnt with
  | O => Ok []
  | S c' =>
      let! kinv := value (mod_inverse (Z.of_nat k) (nth s powers 0)) in
      let! r := decrypt_precomp_loop precomp powers s (S k) c' in
      Ok (kinv * nth (k - 1) precomp 0 mod nth s powers 0 :: r)
  end.
Definition get_decrypt_precomp (precomp powers : list Z) (s : nat) : outcome (list Z) :=
  decrypt_precomp_loop precomp powers s 2 (s - 1).
Definition precomp_at (table powers : list Z) (k j : nat) : Z := nth (k - 2) table 0 mod nth j powers 0.

(** ComputeByBinomialExpansion, paillier.cc:172-191; [rem] iterations left. *)
Fixpoint binomial_loop (precomp powers : list Z) (s : nat) (msg : Z) (j rem : nat) (c tmp : Z) : Z :=
  match rem with
  | O => c
  | S rem' =>
      if msg <? Z.of_nat j then c else
      let tmp' := tmp * (msg - Z.of_nat j + 1) mod nth (s - j + 1) powers 0 in
      binomial_loop precomp powers s msg (S j) rem' (c + tmp' * nth j precomp 0 mod nth (s + 1) powers 0) tmp'
  end.
Definition binomial_expansion (precomp powers : list Z) (message : Z) : Z :=
  let s := (length precomp - 1)%nat in
  binomial_loop precomp powers s (message mod nth s powers 0) 1 s 1 1.

(** IsSafePrime, big_num.cc:125-129.  BN_is_prime_ex is modelled as an exact
    test (trial division up to the square root). *)
Fixpoint no_divisor (k : nat) (d p : Z) : bool :=
  match k with O => true | S k' => negb (p mod d =? 0) && no_divisor k' (d + 1) p end.
Definition prime_b (p : Z) : bool := (1 <? p) && no_divisor (Z.to_nat (Z.sqrt p) - 1) 2 p.
Definition safe_prime_b (p : Z) : bool := prime_b p && Z.odd p && prime_b ((p - 1) / 2).
(** GetGeneratorForSafePrime, paillier.cc:85-100. *)
Fixpoint generator_loop (tries : nat) (p q g : Z) : outcome Z :=
  match tries with
  | O => Abort
  | S k => if (g * g mod p =? 1) || (pow_mod g q p =? 1) then generator_loop k p q (g + 1) else Ok g
  end.
Definition generator_for_safe_prime (p : Z) : outcome Z :=
  if safe_prime_b p then generator_loop 1000 p ((p - 1) / 2) 2 else Abort.
(** GetGeneratorOfPrimePowersFromSafePrime, paillier.cc:112-118. *)
Definition generator_of_prime_powers (p : Z) : outcome Z :=
  let! g := generator_for_safe_prime p in
  let! e := mod_exp g (p - 1) (p * p) in
  if e =? 1 then Ok (g + p) else Ok g.

(** ** PrimeCrypto, paillier.cc:229-310 *)
Record prime_crypto := mkPC {
  pc_p : Z; pc_s : nat; pc_powers : list Z; pc_precomp : list Z;
  pc_lambda_inv : Z; pc_other_inv : Z; pc_table : list Z; pc_g : Z; pc_fbe : fbe }.
Definition pc_new (flag : bool) (p other : Z) (s : nat) : outcome prime_crypto :=
  let n := p * other in
  let powers := get_powers p s in
  let! precomp := get_precomp n (nth (s + 1) powers 0) s in
  let! lambda_inv := value (mod_inverse (p - 1) (nth s powers 0)) in
  let! other_inv := value (mod_inverse other (nth s powers 0)) in
  let! table := get_decrypt_precomp precomp powers s in
  let! g := generator_of_prime_powers p in
  let! base := mod_exp g (n ^ Z.of_nat s) (nth (s + 1) powers 0) in
  let! f := fbe_new flag base (nth (s + 1) powers 0) in
  Ok (mkPC p s powers precomp lambda_inv other_inv table g f).
(** EncryptWithRand, lines 261-265. *)
Definition pc_encrypt_with_rand (pc : prime_crypto) (m r : Z) : outcome Z :=
  let c := binomial_expansion (pc_precomp pc) (pc_powers pc) m in
  let! g := fbe_exp (pc_fbe pc) r in
  Ok (c * g mod nth (pc_s pc + 1) (pc_powers pc) 0).
(** Encrypt, lines 254-256. *)
Definition pc_encrypt (pc : prime_crypto) (m : Z) : M Z :=
  r <- rand_between 1 (pc_p pc) ;; lift (pc_encrypt_with_rand pc m r).
(** the loops of Decrypt, lines 269-286 *)
Fixpoint inner_loop (pc : prime_crypto) (j : nat) (ks : list nat) (ml t1 t2 : Z) : Z :=
  match ks with
  | [] => t1
  | k :: r =>
      let ml' := ml - 1 in
      let t2' := t2 * ml' mod nth j (pc_powers pc) 0 in
      inner_loop pc j r ml' (t1 - t2' * precomp_at (pc_table pc) (pc_powers pc) k j) t2'
  end.
Definition outer_loop (pc : prime_crypto) (lu : Z) : Z :=
  fold_left (fun ml j => inner_loop pc j (seq 2 (j - 1)) ml (lu mod nth j (pc_powers pc) 0) ml)
            (seq 1 (pc_s pc)) 0.
Definition pc_decrypt (pc : prime_crypto) (c : Z) : outcome Z :=
  let! x := mod_exp c (pc_p pc - 1) (nth (pc_s pc + 1) (pc_powers pc) 0) in
  let! l := bn_div (x - 1) (pc_p pc) in
  let lu := l * pc_other_inv pc mod nth (pc_s pc) (pc_powers pc) 0 in
  Ok (outer_loop pc lu * pc_lambda_inv pc mod nth (pc_s pc) (pc_powers pc) 0).

(** GeneratePaillierKeyPair, paillier.cc:195-222: [primes] are the results of
    the successive GenerateSafePrime calls; [None] while the loop at 205-207
    is still running after [fuel] of them.  Returns ((n, s), (p, q, s)); the
    numbers are stored with ToBytes (C37). *)
Fixpoint distinct_prime (fuel : nat) (p : Z) (primes : tape) : option Z :=
  match fuel with
  | O => None
  | S k => if p =? primes O then distinct_prime k p (tl_tape primes) else Some (primes O)
  end.
Definition paillier_keygen (fuel : nat) (primes : tape) (modulus_length s : Z) : option (outcome ((Z * Z) * (Z * Z * Z))) :=
  if (Z.quot modulus_length 2 <=? 0) || (s <=? 0) then Some (Err InvalidArgument)
  else let p := primes O in
       match distinct_prime fuel p (tl_tape primes) with
       | None => None
       | Some q => Some (Ok ((p * q, s), (p, q, s)))
       end.

(** ** PublicPaillier, paillier.cc:360-439 *)
Record pub := mkPub { pp_n : Z; pp_s : nat; pp_powers : list Z; pp_modulus : Z; pp_fbe : fbe; pp_precomp : list Z }.
(** constructor after GetGeneratorForSafeModulus (103-109) has drawn [x] *)
Definition pub_make (flag : bool) (n : Z) (s : nat) (x : Z) : outcome pub :=
  let powers := get_powers n s in
  let modulus := nth (s + 1) powers 0 in
  let g := n - x * x mod n in
  let! base := mod_exp g (nth s powers 0) modulus in
  let! f := fbe_new flag base modulus in
  let! precomp := get_precomp n modulus s in
  Ok (mkPub n s powers modulus f precomp).
(** the constructor; [None] when the drawing loop is still running. *)
Definition pub_new (flag : bool) (fuel : nat) (n : Z) (s : nat) (t : tape) : option (outcome (pub * tape)) :=
  match rel_prime_less_than fuel n t with
  | None => None
  | Some o => Some (let! xt := o in let! p := pub_make flag n s (fst xt) in Ok (p, snd xt))
  end.
(** Add, Multiply, LeftShift, lines 382-393. *)
Definition pub_add (p : pub) (a b : Z) : Z := a * b mod pp_modulus p.
Definition pub_multiply (p : pub) (c m : Z) : outcome Z := mod_exp c m (pp_modulus p).
Definition pub_left_shift (p : pub) (c : Z) (k : nat) : outcome Z := pub_multiply p c (2 ^ Z.of_nat k).
(** EncryptUsingGeneratorAndRand, lines 407-416. *)
Definition pub_encrypt_gen (p : pub) (m r : Z) : outcome Z :=
  if pp_n p <? r then Err InvalidArgument else
  let c := binomial_expansion (pp_precomp p) (pp_powers p) m in
  let! g := fbe_exp (pp_fbe p) r in
  Ok (c * g mod pp_modulus p).
(** Encrypt, lines 395-405. *)
Definition pub_encrypt (p : pub) (m : Z) : M Z :=
  if m <? 0 then lift (Err InvalidArgument)
  else if nth (pp_s p) (pp_powers p) 0 <=? m then lift (Err InvalidArgument)
  else r <- rand_less_than (pp_n p) ;; lift (pub_encrypt_gen p m r).
(** EncryptWithRand, lines 418-426. *)
Definition pub_encrypt_with_rand (p : pub) (m r : Z) : outcome Z :=
  if Z.gcd r (pp_n p) =? 1 then
    let c := binomial_expansion (pp_precomp p) (pp_powers p) m in
    let! x := mod_exp r (nth (pp_s p) (pp_powers p) 0) (pp_modulus p) in
    Ok (c * x mod pp_modulus p)
  else Err InvalidArgument.
(** ReRand, lines 435-439. *)
Definition pub_rerand (p : pub) (c : Z) : M Z :=
  r <- rand_less_than (pp_n p) ;;
  g <- lift (fbe_exp (pp_fbe p) r) ;; ret (c * g mod pp_modulus p).

(** ** PrivatePaillier, paillier.cc:443-489 *)
Record priv := mkPriv { pv_n : Z; pv_ns : Z; pv_ns1 : Z; pv_p : prime_crypto; pv_q : prime_crypto; pv_enc : crt; pv_dec : crt }.
Definition priv_new (flag : bool) (p q : Z) (s : nat) : outcome priv :=
  let ns := (p * q) ^ Z.of_nat s in
  let! pc := pc_new flag p q s in
  let! qc := pc_new flag q p s in
  let! e := crt_new (nth (s + 1) (pc_powers pc) 0) (nth (s + 1) (pc_powers qc) 0) in
  let! d := crt_new (nth s (pc_powers pc) 0) (nth s (pc_powers qc) 0) in
  Ok (mkPriv (p * q) ns (ns * p * q) pc qc e d).
Definition priv_encrypt (v : priv) (m : Z) : M Z :=
  if m <? 0 then lift (Err InvalidArgument)
  else if pv_ns v <=? m then lift (Err InvalidArgument)
  else cp <- pc_encrypt (pv_p v) m ;; cq <- pc_encrypt (pv_q v) m ;;
       ret (crt_compute (pv_enc v) cp cq).
Definition priv_decrypt (v : priv) (c : Z) : outcome Z :=
  if c <? 0 then Err InvalidArgument
  else if pv_ns1 v <=? c then Err InvalidArgument
  else let! a := pc_decrypt (pv_p v) c in
       let! b := pc_decrypt (pv_q v) c in
       Ok (crt_compute (pv_dec v) a b).

(** PrimeCryptoWithRand::EncryptAndGetRand, paillier.cc:316-348, and
    PrivatePaillierWithRand::EncryptAndGetRand, 491-529. *)
Definition pcr_encrypt_get_rand (rep : fbe) (pc : prime_crypto) (m : Z) : M (Z * Z) :=
  r <- rand_between 1 (pc_p pc) ;;
  c <- lift (pc_encrypt_with_rand pc m r) ;;
  e <- lift (fbe_exp rep r) ;; ret (c, e).
Definition privr_encrypt_get_rand (flag : bool) (v : priv) (m : Z) : M (Z * Z) :=
  rp <- lift (fbe_new flag (pc_g (pv_p v)) (nth (pc_s (pv_p v) + 1) (pc_powers (pv_p v)) 0)) ;;
  rq <- lift (fbe_new flag (pc_g (pv_q v)) (nth (pc_s (pv_q v) + 1) (pc_powers (pv_q v)) 0)) ;;
  cr <- lift (crt_new (nth 1 (pc_powers (pv_p v)) 0) (nth 1 (pc_powers (pv_q v)) 0)) ;;
  if m <? 0 then lift (Err InvalidArgument)
  else if pv_ns v <=? m then lift (Err InvalidArgument)
  else ep <- pcr_encrypt_get_rand rp (pv_p v) m ;;
       eq <- pcr_encrypt_get_rand rq (pv_q v) m ;;
       ret (crt_compute (pv_enc v) (fst ep) (fst eq), crt_compute cr (snd ep) (snd eq)).

(** ** ThresholdPaillier, threshold_paillier.cc *)
(** GenerateThresholdPaillierKeys, lines 11-64: [p], [q] are the results of the
    two GenerateSafePrime calls, [bits] = modulus_length + statistical_param;
    returns (n, share1, share2).  The shares are stored with ToBytes and read
    back with CreateBigNum, which is the identity on them (C37). *)
Definition threshold_keygen (p q : Z) (bits : nat) : M (Z * Z * Z) :=
  let n := p * q in
  let phi := n - p - q + 1 in
  r1 <- rand_less_than n ;;
  r2 <- rand_less_than (2 ^ Z.of_nat bits) ;;
  let r0 := phi * r1 + n * r2 in
  r0inv <- lift (value (mod_inverse r0 n)) ;;
  let d := r1 * phi * r0inv in
  if negb (d mod phi =? 0) then lift (Err InvalidArgument)
  else if negb (d mod n =? 1) then lift (Err InvalidArgument)
  else sk1 <- rand_less_than d ;;
       let sk2 := d - sk1 in
       if negb (sk1 + sk2 =? d) then lift (Err InvalidArgument) else ret (n, sk1, sk2).
(** PartialDecrypt, lines 101-115. *)
Definition thr_partial (n share c : Z) : outcome Z :=
  if c <? 0 then Err InvalidArgument
  else if n * n <=? c then Err InvalidArgument
  else mod_exp c share (n * n).
(** Decrypt, lines 116-147. *)
Definition thr_decrypt (n share c partial : Z) : outcome Z :=
  if c <? 0 then Err InvalidArgument
  else if partial <? 0 then Err InvalidArgument
  else if n * n <=? c then Err InvalidArgument
  else if n * n <=? partial then Err InvalidArgument
  else let! ours := thr_partial n share c in
       bn_div (partial * ours mod (n * n) - 1) n.
(** Add, lines 149-154. *)
Definition thr_add (n a b : Z) : Z := a * b mod (n * n).
