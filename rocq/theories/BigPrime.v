(** A prime above 2 * 10^15 (for concrete instances of groups that are large
    enough for the protocols), proved by trial division and Pocklington's
    criterion. *)
Require Import List Arith Lia ZArith Znumtheory Zpow_facts Bool.
Import ListNotations.
From Verif Require Import Prelude Coins NumTheory ContextModel PaillierModel PaillierProofs PropsPaillier.
Local Open Scope Z_scope.

Lemma prime_divisor n : 1 < n -> exists p, prime p /\ (p | n).
Proof.
  intros H. assert (0 <= n) by lia. revert H. pattern n. apply Z_lt_induction; auto. clear. intros n IH H.
  destruct (prime_dec n) as [P|P]. { exists n. split; auto. apply Z.divide_refl. }
  destruct (not_prime_divide n H P) as (d & B & DV). destruct (IH d ltac:(lia) ltac:(lia)) as (p & Pp & D2).
  exists p. split; auto. eapply Z.divide_trans; eauto.
Qed.
Lemma small_prime_divisor n : 1 < n -> ~ prime n -> exists p, prime p /\ (p | n) /\ p * p <= n.
Proof.
  intros H NP. destruct (not_prime_divide n H NP) as (d & B & (e & E)).
  assert (1 < e < n) by nia.
  destruct (Z.le_ge_cases d e).
  - destruct (prime_divisor d ltac:(lia)) as (p & Pp & D). exists p. split; auto. assert (p <= d) by (apply Z.divide_pos_le; auto; lia).
    split; [|assert (1 < p) by (destruct Pp; auto); nia]. eapply Z.divide_trans; eauto. exists e. auto.
  - destruct (prime_divisor e ltac:(lia)) as (p & Pp & D). exists p. split; auto. assert (p <= e) by (apply Z.divide_pos_le; auto; lia).
    split; [|assert (1 < p) by (destruct Pp; auto); nia]. eapply Z.divide_trans; eauto. exists d. lia.
Qed.
Lemma eqm_pow_1 p b k : 0 <= k -> eqm p b 1 -> eqm p (b ^ k) 1.
Proof. intros H E. rewrite <- (Z.pow_1_l k) by auto. apply eqm_pow; auto. Qed.
Lemma abs_mul u c : 1 <= c -> 0 <= u + Z.abs u * c /\ 0 <= Z.abs u * c.
Proof. intros H. pose proof (Z.abs_spec u). split; nia. Qed.
Theorem pocklington n q k a : prime q -> 0 < k -> n = k * q + 1 -> n < (q + 1) * (q + 1) ->
  eqm n (a ^ (n - 1)) 1 -> rel_prime (a ^ k - 1) n -> prime n.
Proof.
  intros Pq Hk En Sz E1 RP. assert (1 < q) by (destruct Pq; auto). assert (1 < n) by nia.
  destruct (prime_dec n) as [|NP]; auto. exfalso.
  destruct (small_prime_divisor n H0 NP) as (p & Pp & D & S). assert (1 < p) by (destruct Pp; auto).
  set (b := a ^ k) in *.
  assert (Bq : eqm p (b ^ q) 1).
  { unfold b. rewrite <- Z.pow_mul_r by lia. replace (k * q) with (n - 1) by lia. eapply eqm_divide; eauto. }
  assert (B1 : ~ eqm p b 1).
  { intros X. assert (DD : (p | b - 1)) by (destruct X as (z & Hz); exists z; lia).
    pose proof (rel_prime_ndiv p (b - 1) H1) as R. apply R; auto. apply rel_prime_sym. apply rel_prime_sym in RP.
    eapply rel_prime_div; eauto. }
  assert (Bp : ~ (p | b)).
  { intros X. destruct Bq as (z & Hz). assert (p | 1).
    { replace 1 with (b ^ q - z * p) by lia. apply Z.divide_sub_r; [|exists z; lia].
      replace q with (1 + (q - 1)) by lia. rewrite Z.pow_add_r by lia. rewrite Z.pow_1_r. apply Z.divide_mul_l; auto. }
    apply Z.divide_pos_le in H2; lia. }
  pose proof (fermat p b Pp Bp) as F.
  destruct (Zdivide_dec q (p - 1)) as [DQ|NQ].
  - apply Z.divide_pos_le in DQ; [|lia]. nia.
  - pose proof (prime_rel q (p - 1) Pq NQ) as R. apply rel_prime_bezout in R as [u v BZ].
    (* b^(uq + v(p-1)) = b; choose nonnegative multiples *)
    set (w := Z.abs u * (p - 1)). set (w' := Z.abs v * q).
    assert (EX : (u + w) * q + (v + w') * (p - 1) = 1 + (w * q + w' * (p - 1))) by lia.
    destruct (abs_mul u (p - 1) ltac:(lia)) as (W1 & W2). destruct (abs_mul v q ltac:(lia)) as (W3 & W4). fold w in W1, W2. fold w' in W3, W4.
    clearbody w w'. assert (0 <= w * q) by (apply Z.mul_nonneg_nonneg; lia). assert (0 <= w' * (p - 1)) by (apply Z.mul_nonneg_nonneg; lia).
    assert (0 <= (u + w) * q) by (apply Z.mul_nonneg_nonneg; lia). assert (0 <= (v + w') * (p - 1)) by (apply Z.mul_nonneg_nonneg; lia).
    assert (X1 : eqm p (b ^ (1 + (w * q + w' * (p - 1)))) 1).
    { rewrite <- EX, Z.pow_add_r by lia. rewrite !(Z.mul_comm _ q), !(Z.mul_comm _ (p - 1)), !Z.pow_mul_r by lia.
      rewrite <- (Z.mul_1_l 1). apply eqm_mul; apply eqm_pow_1; auto. }
    apply B1. eapply eqm_trans; [|exact X1]. rewrite Z.pow_add_r, Z.pow_1_r by lia.
    rewrite <- (Z.mul_1_r b) at 1. apply eqm_mul; [apply eqm_refl|]. apply eqm_sym.
    rewrite Z.pow_add_r by lia. rewrite (Z.mul_comm w q), (Z.mul_comm w' (p - 1)), !Z.pow_mul_r by lia.
    rewrite <- (Z.mul_1_l 1). apply eqm_mul; apply eqm_pow_1; auto.
Qed.

(** the same as a computation *)
Definition pocklington_b (n q k a : Z) : bool :=
  (0 <? k) && (n =? k * q + 1) && (n <? (q + 1) * (q + 1)) && (1 <? n) && (pow_mod a (n - 1) n =? 1) && (Z.gcd (pow_mod a k n - 1) n =? 1).
Lemma pocklington_b_prime n q k a : prime q -> pocklington_b n q k a = true -> prime n.
Proof.
  intros Pq H. unfold pocklington_b in H. rewrite !andb_true_iff, !Z.ltb_lt, !Z.eqb_eq in H. destruct H as (((((H1 & H2) & H3) & H4) & H5) & H6).
  rewrite pow_mod_correct in H5, H6 by lia. apply (pocklington n q k a); auto.
  - apply eqm_iff; [lia|]. rewrite H5. symmetry. apply Z.mod_small. lia.
  - apply (rel_prime_eqm _ (a ^ k mod n - 1)).
    + apply eqm_sub; [|apply eqm_refl]. apply eqm_mod. lia.
    + apply Zgcd_1_rel_prime. auto.
Qed.
Definition big_q : Z := 50000017.
Definition big_prime : Z := 2000001980000443.
Lemma big_prime_prime : prime big_prime.
Proof.
  apply (pocklington_b_prime _ big_q 40000026 2); [|vm_compute; reflexivity].
  apply prime_b_prime. vm_compute. reflexivity.
Qed.

(** ** Paillier keys for concrete runs: safe primes above 10^8 and above 2^33,
    built without repeating the primality tests *)
Lemma safe_prime_true p q : prime p -> prime q -> p = 2 * q + 1 -> safe_prime_b p = true.
Proof.
  intros Pp Pq ->. unfold safe_prime_b. replace ((2 * q + 1 - 1) / 2) with q by (replace (2 * q + 1 - 1) with (q * 2) by ring; rewrite Z.div_mul; lia).
  rewrite !(proj2 (prime_b_prime _)) by auto. rewrite (Z.add_comm (2 * q) 1), Z.odd_add_mul_2. reflexivity.
Qed.
Definition safe_b (p r k a b : Z) : bool :=
  let q := (p - 1) / 2 in (p =? 2 * q + 1) && prime_b r && pocklington_b q r k a && pocklington_b p q 2 b.
Lemma safe_b_ok p r k a b : safe_b p r k a b = true -> safe_prime_b p = true.
Proof.
  unfold safe_b. cbv zeta. rewrite !andb_true_iff, Z.eqb_eq, prime_b_prime. intros (((H1 & H2) & H3) & H4).
  pose proof (pocklington_b_prime _ _ _ _ H2 H3) as Pq. eapply safe_prime_true; [eapply pocklington_b_prime; eauto|exact Pq|exact H1].
Qed.
(** priv_new with the generators found beforehand *)
Definition pc_new_at (g : Z) (flag : bool) (p other : Z) (s : nat) : outcome prime_crypto :=
  let n := p * other in
  let powers := get_powers p s in
  let! precomp := get_precomp n (nth (s + 1) powers 0) s in
  let! lambda_inv := value (mod_inverse (p - 1) (nth s powers 0)) in
  let! other_inv := value (mod_inverse other (nth s powers 0)) in
  let! table := get_decrypt_precomp precomp powers s in
  let! g := (let! e := mod_exp g (p - 1) (p * p) in if e =? 1 then Ok (g + p) else Ok g) in
  let! base := mod_exp g (n ^ Z.of_nat s) (nth (s + 1) powers 0) in
  let! f := fbe_new flag base (nth (s + 1) powers 0) in
  Ok (mkPC p s powers precomp lambda_inv other_inv table g f).
Definition priv_new_at (gp gq : Z) (flag : bool) (p q : Z) (s : nat) : outcome priv :=
  let ns := (p * q) ^ Z.of_nat s in
  let! pc := pc_new_at gp flag p q s in
  let! qc := pc_new_at gq flag q p s in
  let! e := crt_new (nth (s + 1) (pc_powers pc) 0) (nth (s + 1) (pc_powers qc) 0) in
  let! d := crt_new (nth s (pc_powers pc) 0) (nth s (pc_powers qc) 0) in
  Ok (mkPriv (p * q) ns (ns * p * q) pc qc e d).
Lemma generator_at p g : safe_prime_b p = true -> generator_loop 1000 p ((p - 1) / 2) 2 = Ok g -> generator_for_safe_prime p = Ok g.
Proof. intros H1 H2. unfold generator_for_safe_prime. rewrite H1. auto. Qed.
Lemma priv_new_at_ok gp gq flag p q s : generator_for_safe_prime p = Ok gp -> generator_for_safe_prime q = Ok gq ->
  priv_new_at gp gq flag p q s = priv_new flag p q s.
Proof.
  intros H1 H2. unfold priv_new_at, priv_new, pc_new_at, pc_new, generator_of_prime_powers. rewrite H1, H2. reflexivity.
Qed.


Definition a_fbe : fbe := mkFbe 0 0 None.
Definition a_pc : prime_crypto := mkPC 0 0 [] [] 0 0 [] 0 a_fbe.
Definition a_crt : crt := mkCrt 0 0 0.
Definition key_pub (n : Z) : pub := match pub_new false 3 n 1 (fun _ => 2) with Some (Ok (P, _)) => P | _ => mkPub 0 0 [] 0 a_fbe [] end.
Definition key_priv (p q gp gq : Z) : priv := match priv_new_at gp gq false p q 1 with Ok V => V | _ => mkPriv 0 0 0 a_pc a_pc a_crt a_crt end.
Lemma key_pair p q gp gq P V t' : safe_prime_b p = true -> safe_prime_b q = true ->
  generator_loop 1000 p ((p - 1) / 2) 2 = Ok gp -> generator_loop 1000 q ((q - 1) / 2) 2 = Ok gq ->
  pub_new false 3 (p * q) 1 (fun _ => 2) = Some (Ok (P, t')) -> priv_new_at gp gq false p q 1 = Ok V ->
  paillier_pair p q P V.
Proof.
  intros S1 S2 G1 G2 E1 E2. split; [do 4 eexists; exact E1|]. exists false. rewrite <- E2. symmetry. apply priv_new_at_ok; apply generator_at; auto.
Qed.
Ltac key_pair r1 k1 r2 k2 :=
  eapply key_pair;
  [apply (safe_b_ok _ r1 k1 2 2); vm_compute; reflexivity
  |apply (safe_b_ok _ r2 k2 2 2); vm_compute; reflexivity
  |vm_compute; reflexivity|vm_compute; reflexivity|vm_compute; reflexivity|vm_compute; reflexivity].
Definition exk0P : pub := Eval vm_compute in key_pub (100011167 * 100014059).
Definition exk0V : priv := Eval vm_compute in key_priv 100011167 100014059 5 2.
Lemma exk0_pair : paillier_pair 100011167 100014059 exk0P exk0V.
Proof. key_pair 17351 2882 11273 4436. Qed.
Definition exk1P : pub := Eval vm_compute in key_pub (100015079 * 100024187).
Definition exk1V : priv := Eval vm_compute in key_priv 100015079 100024187 13 2.
Lemma exk1_pair : paillier_pair 100015079 100024187 exk1P exk1V.
Proof. key_pair 11867 4214 7573 6604. Qed.
Definition exl0P : pub := Eval vm_compute in key_pub (8589942443 * 8589951347).
Definition exl0V : priv := Eval vm_compute in key_priv 8589942443 8589951347 2 2.
Lemma exl0_pair : paillier_pair 8589942443 8589951347 exl0P exl0V.
Proof. key_pair 128669 33380 253361 16952. Qed.
Definition exl1P : pub := Eval vm_compute in key_pub (8589952139 * 8589957359).
Definition exl1V : priv := Eval vm_compute in key_priv 8589952139 8589957359 2 7.
Lemma exl1_pair : paillier_pair 8589952139 8589957359 exl1P exl1V.
Proof. key_pair 91297 47044 122833 34966. Qed.
