(** * Number theory used by the Paillier and commutative-cipher models:
    congruences, Fermat's little theorem, Euler for two primes, the binomial
    identities modulo a square, and an executable modular inverse. *)
Require Import List Arith Lia ZArith Znumtheory Permutation Bool.
Import ListNotations.
From Verif Require Import Prelude.
Local Open Scope Z_scope.

(** [eqm n a b]: congruent modulo [n]. *)
Definition eqm (n a b : Z) : Prop := (n | a - b).

Lemma eqm_refl n a : eqm n a a.
Proof. unfold eqm. rewrite Z.sub_diag. apply Z.divide_0_r. Qed.
Lemma eqm_sym n a b : eqm n a b -> eqm n b a.
Proof. intros (k & H). exists (-k). lia. Qed.
Lemma eqm_trans n a b c : eqm n a b -> eqm n b c -> eqm n a c.
Proof. intros (k & H) (l & H'). exists (k + l). lia. Qed.
Lemma eqm_add n a b c d : eqm n a b -> eqm n c d -> eqm n (a + c) (b + d).
Proof. intros (k & H) (l & H'). exists (k + l). lia. Qed.
Lemma eqm_sub n a b c d : eqm n a b -> eqm n c d -> eqm n (a - c) (b - d).
Proof. intros (k & H) (l & H'). exists (k - l). lia. Qed.
Lemma eqm_mul n a b c d : eqm n a b -> eqm n c d -> eqm n (a * c) (b * d).
Proof. intros (k & H) (l & H'). exists (k * c + b * l). nia. Qed.
Lemma eqm_mod n a : n <> 0 -> eqm n (a mod n) a.
Proof. intros H. exists (- (a / n)). pose proof (Z.div_mod a n H). lia. Qed.
Lemma eqm_iff n a b : n <> 0 -> (eqm n a b <-> a mod n = b mod n).
Proof.
  intros H. split.
  - intros (k & E). replace a with (b + k * n) by lia. apply Z_mod_plus_full.
  - intros E. eapply eqm_trans; [apply eqm_sym, eqm_mod; auto|]. rewrite E. apply eqm_mod; auto.
Qed.
Lemma eqm_small n a b : 0 <= a < n -> 0 <= b < n -> eqm n a b -> a = b.
Proof. intros Ha Hb (k & E). assert (k = 0) by nia. subst. lia. Qed.
Lemma eqm_divide n m a b : (m | n) -> eqm n a b -> eqm m a b.
Proof. intros H E. eapply Z.divide_trans; eauto. Qed.
Lemma eqm_pow n a b k : 0 <= k -> eqm n a b -> eqm n (a ^ k) (b ^ k).
Proof.
  intros Hk E. revert k Hk. apply natlike_ind.
  - apply eqm_refl.
  - intros k Hk IH. rewrite !Z.pow_succ_r by auto. apply eqm_mul; auto.
Qed.
Lemma eqm_mul_scale n k a b : eqm n a b -> eqm (n * k) (a * k) (b * k).
Proof. intros (c & E). exists c. nia. Qed.
Lemma eqm_cancel n a b c : rel_prime n c -> eqm n (c * a) (c * b) -> eqm n a b.
Proof.
  intros R (k & E). apply (Gauss n c (a - b)); auto. exists k. lia.
Qed.
Lemma eqm_combine p q a b : rel_prime p q -> eqm p a b -> eqm q a b -> eqm (p * q) a b.
Proof.
  intros R (k & H) H2. unfold eqm in *. rewrite H in *.
  assert (D : (q | k)).
  { apply Gauss with p; [|apply rel_prime_sym; auto]. rewrite Z.mul_comm. exact H2. }
  destruct D as (l & ->). exists l. lia.
Qed.

Lemma rel_prime_eqm n a b : eqm n a b -> rel_prime a n -> rel_prime b n.
Proof.
  intros (k & E) R. apply rel_prime_sym in R. apply rel_prime_sym.
  apply Zgcd_1_rel_prime. apply Zgcd_1_rel_prime in R.
  replace b with (a + (-k) * n) by lia. rewrite Z.gcd_add_mult_diag_r. auto.
Qed.

(** ** Fermat *)
Definition zprod (l : list Z) : Z := fold_right Z.mul 1 l.
Lemma zprod_perm l l' : Permutation l l' -> zprod l = zprod l'.
Proof. induction 1; simpl; try lia; congruence. Qed.
Lemma zprod_map n a l : eqm n (zprod (map (fun x => a * x mod n) l)) (a ^ Z.of_nat (length l) * zprod l) \/ n = 0.
Proof.
  destruct (Z.eq_dec n 0) as [|Hn]; auto. left. induction l as [|x l IH].
  - apply eqm_refl.
  - cbn [map zprod fold_right length]. rewrite Nat2Z.inj_succ, Z.pow_succ_r by lia.
    fold (zprod l). fold (zprod (map (fun x => a * x mod n) l)).
    eapply eqm_trans; [apply eqm_mul; [apply eqm_mod; auto|exact IH]|].
    replace (a * x * (a ^ Z.of_nat (length l) * zprod l)) with (a * a ^ Z.of_nat (length l) * (x * zprod l)) by lia.
    apply eqm_refl.
Qed.
Definition units (p : Z) : list Z := map Z.of_nat (seq 1 (Z.to_nat (p - 1))).
Lemma in_units p x : In x (units p) <-> 1 <= x < p.
Proof.
  unfold units. rewrite in_map_iff. split.
  - intros (k & <- & H). apply in_seq in H. lia.
  - intros H. exists (Z.to_nat x). split; [lia|]. apply in_seq. lia.
Qed.
Lemma units_nodup p : NoDup (units p).
Proof.
  unfold units. apply FinFun.Injective_map_NoDup; [|apply seq_NoDup]. intros x y H. apply Nat2Z.inj, H.
Qed.
Lemma prime_ndiv_small p x : prime p -> 1 <= x < p -> ~ (p | x).
Proof. intros _ H D. apply Z.divide_pos_le in D; lia. Qed.
Lemma prime_rel p a : prime p -> ~ (p | a) -> rel_prime p a.
Proof. intros. apply prime_rel_prime; auto. Qed.
Lemma zprod_units_rel p : prime p -> forall l, (forall x, In x l -> 1 <= x < p) -> rel_prime p (zprod l).
Proof.
  intros Hp. induction l as [|x l IH]; intros H.
  - apply rel_prime_sym, rel_prime_1.
  - simpl. apply rel_prime_mult.
    + apply prime_rel; auto. apply prime_ndiv_small; auto. apply H; left; auto.
    + apply IH. intros; apply H; right; auto.
Qed.
Lemma NoDup_map_inj_on {A B} (f : A -> B) l :
  (forall x y, In x l -> In y l -> f x = f y -> x = y) -> NoDup l -> NoDup (map f l).
Proof.
  induction l as [|a l IH]; intros HI N; [constructor|]. inversion N; subst.
  simpl. constructor.
  - rewrite in_map_iff. intros (y & E & Hy). apply HI in E; [subst; auto|right; auto|left; auto].
  - apply IH; auto. intros; apply HI; auto; right; auto.
Qed.
Theorem fermat p a : prime p -> ~ (p | a) -> eqm p (a ^ (p - 1)) 1.
Proof.
  intros Hp Ha. assert (P1 : 1 < p) by (destruct Hp; auto).
  assert (R : rel_prime p a) by (apply prime_rel; auto).
  set (f := fun x => a * x mod p).
  assert (P : Permutation (map f (units p)) (units p)).
  { apply NoDup_Permutation_bis.
    - apply NoDup_map_inj_on; [|apply units_nodup].
      intros x y Hx Hy E. apply in_units in Hx, Hy. unfold f in E.
      apply (eqm_iff p) in E; [|lia]. apply eqm_cancel in E; auto. apply eqm_small in E; auto; lia.
    - rewrite map_length. auto.
    - intros y Hy. apply in_map_iff in Hy as (x & <- & Hx). apply in_units in Hx. apply in_units.
      unfold f. pose proof (Z.mod_pos_bound (a * x) p). 
      assert (a * x mod p <> 0); [|lia]. intros E. apply Z.mod_divide in E; [|lia].
      apply prime_mult in E; auto. destruct E; auto. eapply prime_ndiv_small; eauto. }
  apply zprod_perm in P. destruct (zprod_map p a (units p)) as [E|]; [|lia].
  fold f in E. rewrite P in E. unfold units in E at 2. rewrite map_length, seq_length, Z2Nat.id in E by lia.
  apply eqm_sym. apply eqm_cancel with (zprod (units p)).
  - apply zprod_units_rel; auto. intros; apply in_units; auto.
  - rewrite Z.mul_1_r, Z.mul_comm. auto.
Qed.

Lemma prime_rel_distinct p q : prime p -> prime q -> p <> q -> rel_prime p q.
Proof.
  intros Hp Hq N. apply prime_rel; auto. intros D. apply prime_div_prime in D; auto.
Qed.

Lemma rel_prime_ndiv p a : 1 < p -> rel_prime a p -> ~ (p | a).
Proof.
  intros Hp R D. apply rel_prime_sym in R. destruct R as [_ _ R].
  assert (p | 1) by (apply R; auto; apply Z.divide_refl). apply Z.divide_1_r in H. lia.
Qed.

(** Euler for a product of two distinct primes. *)
Theorem euler_two_primes p q a : prime p -> prime q -> p <> q -> rel_prime a (p * q) ->
  eqm (p * q) (a ^ ((p - 1) * (q - 1))) 1.
Proof.
  intros Hp Hq N R. assert (P1 : 1 < p) by (destruct Hp; auto). assert (Q1 : 1 < q) by (destruct Hq; auto).
  assert (Rp : ~ (p | a)).
  { apply rel_prime_ndiv; auto. apply rel_prime_sym. apply rel_prime_div with (p * q); [apply rel_prime_sym; auto|].
    exists q; lia. }
  assert (Rq : ~ (q | a)).
  { apply rel_prime_ndiv; auto. apply rel_prime_sym. apply rel_prime_div with (p * q); [apply rel_prime_sym; auto|].
    exists p; lia. }
  apply eqm_combine.
  - apply prime_rel_distinct; auto.
  - rewrite Z.pow_mul_r by lia. eapply eqm_trans; [apply eqm_pow; [lia|apply fermat; auto]|]. rewrite Z.pow_1_l by lia. apply eqm_refl.
  - rewrite (Z.mul_comm (p - 1)), Z.pow_mul_r by lia. eapply eqm_trans; [apply eqm_pow; [lia|apply fermat; auto]|]. rewrite Z.pow_1_l by lia. apply eqm_refl.
Qed.

(** (1 + k t)^j = 1 + j k t modulo k^2 *)
Lemma binom_sq k t j : 0 <= j -> eqm (k * k) ((1 + k * t) ^ j) (1 + j * (k * t)).
Proof.
  intros Hj. revert j Hj. apply natlike_ind.
  - apply eqm_refl.
  - intros j Hj IH. rewrite Z.pow_succ_r by auto.
    eapply eqm_trans; [apply eqm_mul; [apply eqm_refl|exact IH]|].
    exists (j * t * t). unfold Z.succ. ring.
Qed.
Lemma binom_sq' k x j : (k | x) -> 0 <= j -> eqm (k * k) ((1 + x) ^ j) (1 + j * x).
Proof. intros (t & ->) Hj. replace (t * k) with (k * t) by lia. apply binom_sq; auto. Qed.

(** congruent modulo k implies k-th powers congruent modulo k^2 *)
Lemma pow_lift_1 k x : 0 <= k -> eqm k x 1 -> eqm (k * k) (x ^ k) 1.
Proof.
  intros Hk (t & E). replace x with (1 + k * t) by lia.
  eapply eqm_trans; [apply binom_sq; auto|]. exists t. ring.
Qed.
Lemma pow_lift k x y : 0 <= k -> eqm k x y -> eqm (k * k) (x ^ k) (y ^ k).
Proof.
  intros Hk (t & E). replace x with (y + t * k) by lia. clear E x.
  assert (G : forall j, 0 <= j -> eqm (k * k) ((y + t * k) ^ (Z.succ j)) (y ^ Z.succ j + Z.succ j * (t * k) * y ^ j)).
  { apply natlike_ind.
    - change (Z.succ 0) with 1. rewrite !Z.pow_1_r, Z.pow_0_r. exists 0. lia.
    - intros j Hj IH. rewrite Z.pow_succ_r by lia.
      eapply eqm_trans; [apply eqm_mul; [apply eqm_refl|exact IH]|].
      rewrite !(Z.pow_succ_r y) by lia.
      exists (Z.succ j * t * t * y ^ j). unfold Z.succ. ring. }
  destruct (Z.eq_dec k 0) as [->|N]; [apply eqm_refl|].
  specialize (G (k - 1) ltac:(lia)). replace (Z.succ (k - 1)) with k in G by lia.
  eapply eqm_trans; [exact G|]. exists (t * y ^ (k - 1)). ring.
Qed.

(** ** Executable modular inverse (extended Euclid) *)
Fixpoint egcd (fuel : nat) (r0 r1 s0 s1 : Z) : Z * Z :=
  match fuel with
  | O => (r0, s0)
  | S f => if r1 =? 0 then (r0, s0) else egcd f r1 (r0 mod r1) s1 (s0 - r0 / r1 * s1)
  end.
(** [inv_mod a m]: the inverse of [a] in [0, m). *)
Definition inv_mod (a m : Z) : Z :=
  snd (egcd (2 * Z.to_nat (Z.log2 m) + 3) m (a mod m) 0 1) mod m.

Lemma egcd_spec a m fuel : forall r0 r1 s0 s1, 0 <= r1 -> r1 < r0 -> r0 * r1 < 2 ^ Z.of_nat fuel ->
  eqm m (s0 * a) r0 -> eqm m (s1 * a) r1 ->
  let '(g, s) := egcd fuel r0 r1 s0 s1 in g = Z.gcd r0 r1 /\ eqm m (s * a) g.
Proof.
  induction fuel as [|f IH]; intros r0 r1 s0 s1 H1 H0 HP E0 E1; cbn [egcd].
  - change (2 ^ Z.of_nat 0) with 1 in HP. assert (r1 = 0) by nia. subst r1.
    rewrite Z.gcd_0_r, Z.abs_eq by lia. auto.
  - destruct (Z.eqb_spec r1 0) as [->|N].
    + rewrite Z.gcd_0_r, Z.abs_eq by lia. auto.
    + assert (M : 0 <= r0 mod r1 < r1) by (apply Z.mod_pos_bound; lia).
      assert (DM : r0 = r1 * (r0 / r1) + r0 mod r1) by (apply Z.div_mod; lia).
      assert (Q : 1 <= r0 / r1) by (apply Z.div_le_lower_bound; lia).
      rewrite Nat2Z.inj_succ, Z.pow_succ_r in HP by lia.
      specialize (IH r1 (r0 mod r1) s1 (s0 - r0 / r1 * s1)).
      assert (G : Z.gcd r0 r1 = Z.gcd r1 (r0 mod r1)).
      { rewrite (Z.gcd_comm r1 (r0 mod r1)). rewrite Z.gcd_mod by lia. apply Z.gcd_comm. }
      rewrite G. apply IH; try lia; auto.
      * nia.
      * replace ((s0 - r0 / r1 * s1) * a) with (s0 * a - r0 / r1 * (s1 * a)) by ring.
        replace (r0 mod r1) with (r0 - r0 / r1 * r1) by lia.
        apply eqm_sub; auto. apply eqm_mul; auto. apply eqm_refl.
Qed.
Lemma inv_mod_spec a m : 1 < m -> Z.gcd a m = 1 ->
  0 <= inv_mod a m < m /\ a * inv_mod a m mod m = 1.
Proof.
  intros Hm HG. unfold inv_mod. split; [apply Z.mod_pos_bound; lia|].
  pose proof (egcd_spec a m (2 * Z.to_nat (Z.log2 m) + 3) m (a mod m) 0 1) as H.
  assert (B : 0 <= a mod m < m) by (apply Z.mod_pos_bound; lia).
  destruct (egcd _ _ _ _ _) as [g s]. destruct H as [H1 H2]; try lia.
  - assert (L : m < 2 ^ (Z.log2 m + 1)) by (apply Z.log2_spec; lia).
    replace (Z.of_nat (2 * Z.to_nat (Z.log2 m) + 3)) with ((Z.log2 m + 1) + (Z.log2 m + 1) + 1)
      by (pose proof (Z.log2_nonneg m); lia).
    pose proof (Z.log2_nonneg m). rewrite !Z.pow_add_r with (c := 1) by lia.
    rewrite Z.pow_add_r with (b := Z.log2 m + 1) by lia. rewrite Z.pow_add_r with (c := 1) in L by lia.
    rewrite Z.pow_add_r with (c := 1) by lia. nia.
  - exists (-1). lia.
  - rewrite Z.mul_1_l. apply eqm_sym, eqm_mod. lia.
  - rewrite Z.gcd_comm, Z.gcd_mod, Z.gcd_comm, HG in H1 by lia. subst g. simpl.
    rewrite Z.mul_mod_idemp_r, Z.mul_comm by lia.
    apply eqm_iff in H2; [|lia]. rewrite H2. apply Z.mod_small. lia.
Qed.
Lemma inv_mod_eqm a m : 1 < m -> Z.gcd a m = 1 -> eqm m (a * inv_mod a m) 1.
Proof.
  intros Hm HG. apply eqm_iff; [lia|]. rewrite (proj2 (inv_mod_spec a m Hm HG)). rewrite Z.mod_small; lia.
Qed.
