(** * Proofs about CRT, fixed-base exponentiation and Paillier. *)
Require Import List Arith Lia ZArith Znumtheory Bool.
Import ListNotations.
From Verif Require Import Prelude Coins NumTheory BytesModel BytesProofs ContextModel ContextProofs PaillierModel.
Local Open Scope Z_scope.

Lemma Ok_inj {A} (a b : A) : Ok a = Ok b -> a = b.
Proof. congruence. Qed.

(** ** basic operations *)
Lemma pow_mod_correct b e m : pow_mod b e m = b ^ e mod m.
Proof.
  destruct e as [|e|e]; [reflexivity| |reflexivity]. cbn [pow_mod].
  induction e as [e IH|e IH|]; cbn [pow_mod_pos].
  - rewrite IH, <- Zmult_mod, Zmult_mod_idemp_l. f_equal. rewrite Pos2Z.inj_xI.
    rewrite Z.pow_add_r, Z.pow_1_r by lia. replace (2 * Z.pos e) with (Z.pos e + Z.pos e) by lia. rewrite Z.pow_add_r by lia. reflexivity.
  - rewrite IH, <- Zmult_mod. f_equal. rewrite Pos2Z.inj_xO. replace (2 * Z.pos e) with (Z.pos e + Z.pos e) by lia. rewrite Z.pow_add_r by lia. reflexivity.
  - rewrite Z.pow_1_r. reflexivity.
Qed.
Lemma mod_exp_Ok b e m r : mod_exp b e m = Ok r -> 0 <= e /\ 0 < m /\ r = b ^ e mod m.
Proof.
  unfold mod_exp. destruct (Z.ltb_spec e 0), (Z.leb_spec m 0); cbn; intros E; try discriminate.
  inversion E. rewrite pow_mod_correct. auto.
Qed.
Lemma mod_exp_total b e m : 0 <= e -> 0 < m -> mod_exp b e m = Ok (b ^ e mod m).
Proof. intros. unfold mod_exp. rewrite pow_mod_correct. destruct (Z.ltb_spec e 0), (Z.leb_spec m 0); auto; lia. Qed.
Lemma mod_inverse_Ok a m r : mod_inverse a m = Ok r ->
  1 < m /\ Z.gcd a m = 1 /\ 0 <= r < m /\ eqm m (a * r) 1.
Proof.
  unfold mod_inverse. destruct (Z.ltb_spec 1 m), (Z.eqb_spec (Z.gcd a m) 1); cbn; intros E; try discriminate.
  inversion E. split; [auto|]. split; [auto|]. split; [apply inv_mod_spec; auto|apply inv_mod_eqm; auto].
Qed.
Lemma mod_inverse_total a m : 1 < m -> Z.gcd a m = 1 -> mod_inverse a m = Ok (inv_mod a m).
Proof. intros. unfold mod_inverse. destruct (Z.ltb_spec 1 m), (Z.eqb_spec (Z.gcd a m) 1); auto; lia. Qed.
Lemma value_Ok {A} (o : outcome A) a : value o = Ok a -> o = Ok a.
Proof. destruct o; simpl; congruence. Qed.

(** ** CRT *)
Lemma crt_spec p q c a b : crt_new p q = Ok c ->
  1 < p /\ 1 < q /\ rel_prime p q /\ crt_product c = p * q /\
  0 <= crt_compute c a b < p * q /\ eqm p (crt_compute c a b) a /\ eqm q (crt_compute c a b) b.
Proof.
  unfold crt_new. intros H. apply obind_Ok in H as (qi & H1 & H). apply obind_Ok in H as (pi & H2 & H).
  apply value_Ok, mod_inverse_Ok in H1 as (Hp & G1 & _ & E1). apply value_Ok, mod_inverse_Ok in H2 as (Hq & G2 & _ & E2).
  inversion H; subst. split; [auto|]. split; [auto|].
  assert (R : rel_prime p q) by (apply Zgcd_1_rel_prime; auto).
  split; [exact R|]. split; [reflexivity|]. unfold crt_compute; cbn [crt_term1 crt_term2 crt_product].
  split; [apply Z.mod_pos_bound; nia|]. split.
  - eapply eqm_trans; [apply eqm_divide with (p * q); [exists q; lia|apply eqm_mod; nia]|].
    destruct E1 as (k & E1). exists (a * k + b * pi). replace (q * qi) with (1 + k * p) by lia. ring.
  - eapply eqm_trans; [apply eqm_divide with (p * q); [exists p; lia|apply eqm_mod; nia]|].
    destruct E2 as (k & E2). exists (a * qi + b * k). replace (p * pi) with (1 + k * q) by lia. ring.
Qed.
Lemma crt_total p q : 1 < p -> 1 < q -> rel_prime p q -> exists c, crt_new p q = Ok c.
Proof.
  intros Hp Hq R. apply Zgcd_1_rel_prime in R. unfold crt_new.
  rewrite !mod_inverse_total by (auto; rewrite Z.gcd_comm; auto). eexists; reflexivity.
Qed.

(** ** fixed-base exponentiation *)
Lemma fill_cache_length k : forall l g m, length (fill_cache k l g m) = k.
Proof. induction k; simpl; auto. Qed.
Lemma fill_cache_nth k : forall l g m i e, 0 < m -> l = g ^ Z.of_nat e mod m -> (i < k)%nat ->
  nth i (fill_cache k l g m) 0 = g ^ Z.of_nat (e + S i) mod m.
Proof.
  induction k as [|k IH]; intros l g m i e Hm -> Hi; [lia|]. cbn [fill_cache].
  assert (E : (g ^ Z.of_nat e mod m) * g mod m = g ^ Z.of_nat (e + 1) mod m).
  { rewrite Z.mul_mod_idemp_l by lia. rewrite Nat2Z.inj_add, Z.pow_add_r, Z.pow_1_r by lia. auto. }
  destruct i as [|i]; cbn [nth].
  - rewrite E. f_equal. 
  - rewrite (IH _ g m i (e + 1)%nat) by (auto; lia). f_equal. f_equal. lia.
Qed.
Lemma iter_square m k : forall z, 0 < m -> eqm m (Nat.iter k (square m) z) (z ^ (2 ^ Z.of_nat k)).
Proof.
  induction k as [|k IH]; intros z Hm.
  - change (2 ^ Z.of_nat 0) with 1. rewrite Z.pow_1_r. apply eqm_refl.
  - cbn [Nat.iter nat_rect]. unfold square at 1. eapply eqm_trans; [apply eqm_mod; lia|].
    eapply eqm_trans; [apply eqm_mul; apply IH; auto|].
    rewrite Nat2Z.inj_succ, Z.pow_succ_r by lia. rewrite Z.pow_mul_r by lia.
    rewrite <- Z.pow_mul_r by lia. replace (2 * 2 ^ Z.of_nat k) with (2 ^ Z.of_nat k + 2 ^ Z.of_nat k) by lia.
    rewrite Z.pow_add_r by lia. apply eqm_refl.
Qed.
Section TwoKAry.
  Variables (g m : Z).
  Hypothesis Hm : 1 < m.
  Hypothesis Hg : 0 <= g < m.
  Let cache := 1 :: g :: fill_cache 256 g g m.
  Lemma cache_nth b : 0 <= b < 258 -> nth_error cache (Z.to_nat b) = Some (g ^ b mod m).
  Proof.
    intros Hb. assert (L : (Z.to_nat b < length cache)%nat) by (unfold cache; cbn [length]; rewrite fill_cache_length; lia).
    rewrite nth_error_nth' with (d := 0) by auto. f_equal.
    unfold cache. destruct (Z.to_nat b) as [|[|i]] eqn:E; cbn [nth].
    - assert (b = 0) by lia. subst. rewrite Z.pow_0_r, Z.mod_small; lia.
    - assert (b = 1) by lia. subst. rewrite Z.pow_1_r, Z.mod_small; lia.
    - rewrite (fill_cache_nth 256 g g m i 1) by (try rewrite Z.pow_1_r, Z.mod_small; lia). f_equal. f_equal. lia.
  Qed.
  Lemma two_k_ary_fold bs : Forall is_byte bs -> forall e z, 0 <= e -> z = g ^ e mod m ->
    fold_left (two_k_ary_step cache m) bs (Ok z) = Ok (g ^ (fold_left (fun a b => a * 256 + b) bs e) mod m).
  Proof.
    induction 1 as [|b bs Hb _ IH]; intros e z He ->; cbn [fold_left]; [reflexivity|].
    unfold is_byte in Hb. unfold two_k_ary_step at 2. cbn [obind].
    rewrite cache_nth by lia. apply IH; [lia|].
    apply eqm_iff; [lia|]. eapply eqm_trans; [apply eqm_mul; [apply iter_square; lia|apply eqm_mod; lia]|].
    change (2 ^ Z.of_nat 8) with 256.
    eapply eqm_trans; [apply eqm_mul; [apply eqm_pow; [lia|apply eqm_mod; lia]|apply eqm_refl]|].
    rewrite <- Z.pow_mul_r, <- Z.pow_add_r by lia. apply eqm_refl.
  Qed.
End TwoKAry.
Lemma fbe_exp_spec flag base m f e : fbe_new flag base m = Ok f -> 0 < m -> 0 <= e ->
  fbe_exp f e = Ok (base ^ e mod m).
Proof.
  intros H Hm He. unfold fbe_new in H. destruct flag.
  - unfold two_k_ary_new in H.
    destruct (Z.leb_spec m 1), (Z.even m), (Z.leb_spec m base), (Z.ltb_spec base 0); cbn [orb] in H; try discriminate.
    apply Ok_inj in H. subst f. unfold fbe_exp; cbn [fb_cache fb_mod]. destruct (Z.ltb_spec e 0); [lia|].
    pose proof (bn2bin_spec e He) as (B1 & B2 & _). change (nth 0 (1 :: base :: fill_cache 256 base base m) 1) with 1.
    rewrite (two_k_ary_fold base m) with (e := 0); auto; try lia.
    + do 2 f_equal. exact (f_equal (Z.pow base) B2).
    + rewrite Z.pow_0_r, Z.mod_small; lia.
  - inversion H; subst. unfold fbe_exp; cbn. destruct (Z.ltb_spec e 0); [lia|]. apply mod_exp_total; auto.
Qed.
Lemma fbe_exp_neg f e : e < 0 -> fbe_exp f e = Err InvalidArgument.
Proof. intros. unfold fbe_exp. destruct (Z.ltb_spec e 0); auto; lia. Qed.

(** ** helper functions at s = 1 *)
Lemma powers_1 p : nth 0 (get_powers p 1) 0 = 1 /\ nth 1 (get_powers p 1) 0 = p /\ nth 2 (get_powers p 1) 0 = p * p.
Proof. cbn [get_powers map seq Nat.add nth]. change (Z.of_nat 0) with 0. change (Z.of_nat 1) with 1. change (Z.of_nat 2) with 2.
  rewrite Z.pow_0_r, Z.pow_1_r, Z.pow_2_r. auto. Qed.
Lemma precomp_1 num m l : get_precomp num m 1 = Ok l -> 1 < m /\ exists x, l = [1; x] /\ eqm m x num.
Proof.
  unfold get_precomp. intros H. apply obind_Ok in H as (r & H & E). inversion E; subst; clear E.
  cbn [precomp_loop] in H. apply obind_Ok in H as (inv & H1 & H). cbn [obind] in H. apply Ok_inj in H. subst r.
  apply value_Ok, mod_inverse_Ok in H1 as (Hm & _ & _ & E). change (Z.of_nat 1) with 1 in E.
  split; auto. eexists. split; [reflexivity|].
  eapply eqm_trans; [apply eqm_mod; lia|]. rewrite Z.mul_1_l.
  eapply eqm_trans; [apply eqm_mod; lia|]. rewrite Z.mul_1_l in E.
  eapply eqm_trans; [apply eqm_mul; [exact E|apply eqm_refl]|]. rewrite Z.mul_1_l. apply eqm_refl.
Qed.
Lemma binomial_1 p num x m : 1 < p -> (p | num) -> eqm (p * p) x num ->
  eqm (p * p) (binomial_expansion [1; x] (get_powers p 1) m) (1 + m * num).
Proof.
  intros Hp D E. destruct (powers_1 p) as (P0 & P1 & P2).
  unfold binomial_expansion. change (length [1%Z; x] - 1)%nat with 1%nat. rewrite P1.
  cbn [binomial_loop]. change (1 - 1 + 1)%nat with 1%nat. change (1 + 1)%nat with 2%nat. rewrite P1, P2.
  change (nth 1 [1; x] 0) with x. change (Z.of_nat 1) with 1.
  assert (K : eqm (p * p) (m mod p * num) (m * num)).
  { destruct D as (k & ->). rewrite !Z.mul_assoc. apply eqm_mul_scale.
    apply eqm_mul; [apply eqm_mod; lia|apply eqm_refl]. }
  destruct (Z.ltb_spec (m mod p) 1) as [L|L].
  - assert (m mod p = 0) by (pose proof (Z.mod_pos_bound m p); lia).
    rewrite H in K. replace 1 with (1 + 0 * num) at 1 by lia. apply eqm_add; [apply eqm_refl|exact K].
  - apply eqm_add; [apply eqm_refl|]. eapply eqm_trans; [apply eqm_mod; nia|].
    replace (1 * (m mod p - 1 + 1)) with (m mod p) by lia. rewrite Z.mod_mod by lia.
    eapply eqm_trans; [apply eqm_mul; [apply eqm_refl|exact E]|]. exact K.
Qed.

(** ** ciphertexts of a message *)
Definition ct_of (n m c : Z) : Prop :=
  0 <= c < n * n /\ exists u, rel_prime u n /\ eqm (n * n) c ((1 + m * n) * u ^ n).
Lemma rel_prime_pow a n k : 0 <= k -> rel_prime a n -> rel_prime (a ^ k) n.
Proof.
  intros Hk R. revert k Hk. apply natlike_ind; [apply rel_prime_1|].
  intros k Hk IH. rewrite Z.pow_succ_r by auto. apply rel_prime_sym, rel_prime_mult; apply rel_prime_sym; auto.
Qed.
Lemma rel_prime_mul a b n : rel_prime a n -> rel_prime b n -> rel_prime (a * b) n.
Proof. intros. apply rel_prime_sym, rel_prime_mult; apply rel_prime_sym; auto. Qed.
Lemma ct_mul_1 n m c u k : 1 < n -> ct_of n m c -> rel_prime u n -> eqm (n * n) k (u ^ n) ->
  ct_of n m (c * k mod (n * n)).
Proof.
  intros Hn (Hc & v & Rv & Ev) Ru Ek. split; [apply Z.mod_pos_bound; nia|].
  exists (v * u). split; [apply rel_prime_mul; auto|].
  eapply eqm_trans; [apply eqm_mod; nia|]. rewrite Z.pow_mul_l, Z.mul_assoc. apply eqm_mul; auto.
Qed.
Lemma ct_add n a b ca cb : 1 < n -> ct_of n a ca -> ct_of n b cb -> ct_of n (a + b) (ca * cb mod (n * n)).
Proof.
  intros Hn (_ & u & Ru & Eu) (_ & v & Rv & Ev). split; [apply Z.mod_pos_bound; nia|].
  exists (u * v). split; [apply rel_prime_mul; auto|].
  eapply eqm_trans; [apply eqm_mod; nia|]. eapply eqm_trans; [apply eqm_mul; eauto|].
  rewrite Z.pow_mul_l. exists (a * b * u ^ n * v ^ n). ring.
Qed.
Lemma ct_pow n a c k : 1 < n -> 0 <= k -> ct_of n a c -> ct_of n (a * k) (c ^ k mod (n * n)).
Proof.
  intros Hn Hk (_ & u & Ru & Eu). split; [apply Z.mod_pos_bound; nia|].
  exists (u ^ k). split; [apply rel_prime_pow; auto|].
  eapply eqm_trans; [apply eqm_mod; nia|]. eapply eqm_trans; [apply eqm_pow; [auto|exact Eu]|].
  rewrite Z.pow_mul_l. rewrite <- !Z.pow_mul_r by lia. rewrite (Z.mul_comm n k).
  apply eqm_mul; [|apply eqm_refl]. eapply eqm_trans; [apply binom_sq'; [exists a; lia|auto]|].
  replace (k * (a * n)) with (a * k * n) by ring. apply eqm_refl.
Qed.
Lemma ct_ext n a b c : eqm n a b -> ct_of n a c -> ct_of n b c.
Proof.
  intros (k & E) (Hc & u & Ru & Eu). split; auto. exists u. split; auto.
  eapply eqm_trans; [exact Eu|]. apply eqm_mul; [|apply eqm_refl].
  exists k. replace a with (b + k * n) by lia. ring.
Qed.

(** ** public encryption *)
Lemma pub_make_spec flag n x P : 1 < n -> Z.gcd x n = 1 -> pub_make flag n 1 x = Ok P ->
  pp_n P = n /\ pp_s P = 1%nat /\ pp_powers P = get_powers n 1 /\ pp_modulus P = n * n /\
  (exists y, pp_precomp P = [1; y] /\ eqm (n * n) y n) /\
  exists g, rel_prime g n /\ forall r, 0 <= r -> fbe_exp (pp_fbe P) r = Ok ((g ^ n mod (n * n)) ^ r mod (n * n)).
Proof.
  intros Hn HG H. unfold pub_make in H. destruct (powers_1 n) as (P0 & P1 & P2).
  change (1 + 1)%nat with 2%nat in H. rewrite P1, P2 in H.
  apply obind_Ok in H as (base & H1 & H). apply obind_Ok in H as (f & H2 & H). apply obind_Ok in H as (pre & H3 & H).
  inversion H; subst; clear H. cbn [pp_n pp_s pp_powers pp_modulus pp_precomp pp_fbe].
  apply precomp_1 in H3 as (_ & y & -> & Ey). apply mod_exp_Ok in H1 as (_ & _ & ->).
  repeat (split; [solve [auto | eauto]|]).
  exists (n - x * x mod n). split.
  - apply rel_prime_eqm with (- (x * x)).
    + exists (-1 - x * x / n). pose proof (Z.div_mod (x * x) n). lia.
    + apply Zgcd_1_rel_prime. rewrite Z.gcd_opp_l. apply Zgcd_1_rel_prime.
      apply rel_prime_mul; apply Zgcd_1_rel_prime; auto.
  - intros r Hr. apply fbe_exp_spec with flag; auto. nia.
Qed.
Section Pub.
  Variables (P : pub) (n : Z).
  Hypothesis Hn : 1 < n.
  Hypothesis En : pp_n P = n.
  Hypothesis Es : pp_s P = 1%nat.
  Hypothesis Ep : pp_powers P = get_powers n 1.
  Hypothesis Em : pp_modulus P = n * n.
  Hypothesis Ec : exists y, pp_precomp P = [1; y] /\ eqm (n * n) y n.
  Hypothesis Ef : exists g, rel_prime g n /\ forall r, 0 <= r -> fbe_exp (pp_fbe P) r = Ok ((g ^ n mod (n * n)) ^ r mod (n * n)).

  Lemma fbe_unit r : 0 <= r -> exists u k, fbe_exp (pp_fbe P) r = Ok k /\ rel_prime u n /\ eqm (n * n) k (u ^ n).
  Proof.
    intros Hr. destruct Ef as (g & Rg & F). exists (g ^ r), ((g ^ n mod (n * n)) ^ r mod (n * n)).
    split; [apply F; auto|]. split; [apply rel_prime_pow; auto|].
    eapply eqm_trans; [apply eqm_mod; nia|]. eapply eqm_trans; [apply eqm_pow; [auto|apply eqm_mod; nia]|].
    rewrite <- !Z.pow_mul_r, (Z.mul_comm n r) by lia. apply eqm_refl.
  Qed.
  Lemma binomial_pub m : eqm (n * n) (binomial_expansion (pp_precomp P) (pp_powers P) m) (1 + m * n).
  Proof.
    destruct Ec as (y & -> & Ey). rewrite Ep. apply binomial_1; auto. apply Z.divide_refl.
  Qed.
  Lemma pub_encrypt_gen_spec m r : 0 <= r -> r <= n -> exists c, pub_encrypt_gen P m r = Ok c /\ ct_of n m c.
  Proof.
    intros Hr Hr'. destruct (fbe_unit r Hr) as (u & k & E & Ru & Ek). unfold pub_encrypt_gen.
    rewrite En, E. destruct (Z.ltb_spec n r); [lia|]. cbn [obind]. eexists. split; [reflexivity|].
    rewrite Em. split; [apply Z.mod_pos_bound; nia|]. exists u. split; auto.
    eapply eqm_trans; [apply eqm_mod; nia|]. apply eqm_mul; auto. apply binomial_pub.
  Qed.
  Lemma pub_encrypt_spec m t :
    (m < 0 \/ n <= m -> pub_encrypt P m t = Err InvalidArgument)
    /\ (0 <= m < n -> exists c t', pub_encrypt P m t = Ok (c, t') /\ ct_of n m c).
  Proof.
    unfold pub_encrypt. rewrite Es, Ep, (proj1 (proj2 (powers_1 n))), En.
    split; intros H; destruct (Z.ltb_spec m 0), (Z.leb_spec n m); try reflexivity; try lia.
    unfold bind, rand_less_than. destruct (Z.ltb_spec 0 n); [|lia].
    pose proof (Z.mod_pos_bound (t O) n ltac:(lia)).
    destruct (pub_encrypt_gen_spec m (t O mod n)) as (c & E & C); try lia.
    rewrite E. eexists _, _. split; [reflexivity|auto].
  Qed.
  Lemma pub_encrypt_with_rand_spec m r :
    (Z.gcd r n <> 1 -> pub_encrypt_with_rand P m r = Err InvalidArgument)
    /\ (Z.gcd r n = 1 -> exists c, pub_encrypt_with_rand P m r = Ok c /\ ct_of n m c
         /\ eqm (n * n) c ((1 + m * n) * r ^ n)).
  Proof.
    unfold pub_encrypt_with_rand. rewrite En, Es, Ep, Em, (proj1 (proj2 (powers_1 n))).
    split; intros H; destruct (Z.eqb_spec (Z.gcd r n) 1); try lia; auto.
    rewrite mod_exp_total by nia. cbn [obind]. eexists. split; [reflexivity|].
    assert (E : eqm (n * n) (binomial_expansion (pp_precomp P) (get_powers n 1) m * (r ^ n mod (n * n)) mod (n * n))
                  ((1 + m * n) * r ^ n)).
    { eapply eqm_trans; [apply eqm_mod; nia|]. apply eqm_mul; [rewrite <- Ep; apply binomial_pub|apply eqm_mod; nia]. }
    split; auto. split; [apply Z.mod_pos_bound; nia|]. exists r. split; auto. apply Zgcd_1_rel_prime; auto.
  Qed.
  Lemma pub_rerand_spec m c t : ct_of n m c -> exists c' t', pub_rerand P c t = Ok (c', t') /\ ct_of n m c'.
  Proof.
    intros C. unfold pub_rerand, bind, rand_less_than. rewrite En. destruct (Z.ltb_spec 0 n); [|lia].
    pose proof (Z.mod_pos_bound (t O) n ltac:(lia)).
    destruct (fbe_unit (t O mod n)) as (u & k & E & Ru & Ek); [lia|]. rewrite E. cbn.
    eexists _, _. split; [reflexivity|]. rewrite Em. apply ct_mul_1 with u; auto.
  Qed.
  Lemma pub_add_spec a b ca cb : ct_of n a ca -> ct_of n b cb -> ct_of n (a + b) (pub_add P ca cb).
  Proof. intros. unfold pub_add. rewrite Em. apply ct_add; auto. Qed.
  Lemma pub_multiply_spec a c k : 0 <= k -> ct_of n a c -> exists c', pub_multiply P c k = Ok c' /\ ct_of n (a * k) c'.
  Proof.
    intros Hk C. unfold pub_multiply. rewrite Em, mod_exp_total by nia. eexists. split; [reflexivity|]. apply ct_pow; auto.
  Qed.
End Pub.

(** ** primality test and generator *)
Lemma no_divisor_spec p : forall k d, no_divisor k d p = true <-> forall x, d <= x < d + Z.of_nat k -> p mod x <> 0.
Proof.
  induction k as [|k IH]; intros d; cbn [no_divisor]; [split; [intros; lia|auto]|].
  rewrite andb_true_iff, IH, negb_true_iff, Z.eqb_neq. split.
  - intros (A & B) x Hx. destruct (Z.eq_dec x d) as [->|]; [auto|apply B; lia].
  - intros A. split; [apply A; lia|intros; apply A; lia].
Qed.
Lemma prime_b_prime p : prime_b p = true <-> prime p.
Proof.
  unfold prime_b. rewrite andb_true_iff, Z.ltb_lt, no_divisor_spec, <- prime_alt. unfold prime'. split.
  - intros (H1 & H). split; auto.
    assert (G : forall d, 1 < d -> d <= Z.sqrt p -> ~ (d | p)).
    { intros d Hd L D. apply (H d); [lia|]. apply Z.mod_divide; auto; lia. }
    intros d Hd (c & D). destruct (Z.le_gt_cases d (Z.sqrt p)) as [L|L]; [apply (G d); [lia|auto|exists c; auto]|].
    apply (G c); [nia| |exists d; lia]. apply Z.sqrt_le_square; [lia|nia|].
    assert (p < d * d) by (apply Z.sqrt_lt_square; lia). nia.
  - intros (H1 & H). split; auto. intros d Hd.
    assert (Z.sqrt p < p) by (apply Z.sqrt_lt_lin; auto).
    intros E. apply (H d); [lia|]. apply Z.mod_divide; auto; lia.
Qed.
Lemma safe_prime_spec p : safe_prime_b p = true ->
  prime p /\ prime ((p - 1) / 2) /\ p = 2 * ((p - 1) / 2) + 1 /\ 5 <= p.
Proof.
  unfold safe_prime_b. rewrite !andb_true_iff, !prime_b_prime. intros ((H1 & H2) & H3).
  apply Z.odd_spec in H2 as (k & E). assert (K : (p - 1) / 2 = k).
  { rewrite E. replace (2 * k + 1 - 1) with (k * 2) by lia. apply Z.div_mul. lia. }
  rewrite K in *. assert (1 < k) by (destruct H3; auto). split; [auto|]. split; [auto|]. lia.
Qed.
Lemma generator_loop_spec p q : forall tries g0 g, generator_loop tries p q g0 = Ok g ->
  g0 <= g /\ forall x, g0 <= x < g -> x * x mod p = 1 \/ x ^ q mod p = 1.
Proof.
  induction tries as [|k IH]; intros g0 g H; cbn [generator_loop] in H; [discriminate|]. rewrite pow_mod_correct in H.
  destruct (Z.eqb_spec (g0 * g0 mod p) 1) as [E|E]; cbn [orb] in H.
  - apply IH in H as (H & H'). split; [lia|]. intros x Hx. destruct (Z.eq_dec x g0); [subst; auto|]. apply H'; lia.
  - destruct (Z.eqb_spec (g0 ^ q mod p) 1) as [E'|E'].
    + apply IH in H as (H & H'). split; [lia|]. intros x Hx. destruct (Z.eq_dec x g0); [subst; auto|]. apply H'; lia.
    + inversion H; subst. split; [lia|]. intros; lia.
Qed.
Lemma pm4_passes p : prime p -> prime ((p - 1) / 2) -> p = 2 * ((p - 1) / 2) + 1 -> 7 <= p ->
  (p - 4) * (p - 4) mod p <> 1 /\ (p - 4) ^ ((p - 1) / 2) mod p <> 1.
Proof.
  intros Hp Hq E H7. set (q := (p - 1) / 2) in *. split; intros A.
  - assert (D : eqm p ((p - 4) * (p - 4)) 1) by (apply eqm_iff; [lia|]; rewrite A, Z.mod_small; lia).
    assert (D15 : (p | 15)).
    { destruct D as (k & D). exists (k - p + 8). nia. }
    assert (p <= 15) by (apply Z.divide_pos_le in D15; lia).
    assert (P15 : p <> 15).
    { intros ->. apply prime_alt in Hp as (_ & Hp). apply (Hp 3); [lia|]. exists 5. reflexivity. }
    destruct D15 as (k & K). assert (0 < k < 3) by nia. assert (k = 1 \/ k = 2) as [-> | ->] by lia; lia.
  - assert (Oq : Z.odd q = true).
    { destruct (Z.odd q) eqn:O; auto. exfalso. assert (Ev : Z.even q = true) by (rewrite <- Z.negb_odd, O; auto).
      apply Z.even_spec in Ev as (k & Ek). apply prime_alt in Hq as (_ & Hq). apply (Hq 2); [lia|]. exists k. lia. }
    apply Z.odd_spec in Oq as (k & Ek).
    assert (F : eqm p (2 ^ (p - 1)) 1).
    { apply fermat; auto. apply prime_ndiv_small; auto. lia. }
    assert (S : eqm p ((p - 4) ^ q) (-1)).
    { eapply eqm_trans; [apply eqm_pow; [lia|]; instantiate (1 := -4); exists 1; lia|].
      replace (-4) with (-1 * 2 ^ 2) by lia. rewrite Z.pow_mul_l, <- Z.pow_mul_r by lia.
      replace (2 * q) with (p - 1) by lia.
      replace ((-1) ^ q) with (-1).
      - rewrite <- (Z.mul_1_r (-1)) at 2. apply eqm_mul; [apply eqm_refl|auto].
      - rewrite Ek, Z.pow_add_r, Z.pow_mul_r, Z.pow_1_r by lia. change ((-1) ^ 2) with 1. rewrite Z.pow_1_l by lia. lia. }
    assert (S2 : eqm p ((p - 4) ^ q) 1) by (apply eqm_iff; [lia|]; rewrite A, Z.mod_small; lia).
    pose proof (eqm_trans _ _ _ _ (eqm_sym _ _ _ S) S2) as (j & J).
    assert (j = 0 \/ j >= 1 \/ j <= -1) by lia. nia.
Qed.
Lemma generator_unit p g : generator_of_prime_powers p = Ok g -> prime p /\ ~ (p | g).
Proof.
  unfold generator_of_prime_powers. intros H. apply obind_Ok in H as (g0 & H1 & H).
  apply obind_Ok in H as (e & H2 & H). unfold generator_for_safe_prime in H1.
  destruct (safe_prime_b p) eqn:SP; [|discriminate]. apply safe_prime_spec in SP as (Pp & Pq & Ep & H5).
  split; auto. assert (B : 2 <= g0 < p).
  { destruct (Z.eq_dec p 5) as [->|N5].
    - vm_compute in H1. inversion H1; subst. lia.
    - assert (p <> 6) by (intros ->; revert Ep; vm_compute; discriminate).
      pose proof (generator_loop_spec _ _ _ _ _ H1) as (L & A). split; auto.
      destruct (Z.lt_ge_cases g0 p); auto. exfalso.
      destruct (pm4_passes p) as [N1 N2]; auto; try lia. destruct (A (p - 4)); try lia; auto. }
  destruct (e =? 1); inversion H; subst; clear H; intros (k & E).
  - assert (D : (p | g0)) by (exists (k - 1); lia). apply (prime_ndiv_small p g0); auto. lia.
  - assert (D : (p | g)) by (exists k; lia). apply (prime_ndiv_small p g); auto. lia.
Qed.

(** ** prime parts *)
Lemma pc_new_spec flag p o pc : pc_new flag p o 1 = Ok pc ->
  prime p /\ Z.gcd o p = 1 /\ pc_p pc = p /\ pc_s pc = 1%nat /\ pc_powers pc = get_powers p 1 /\
  (exists y, pc_precomp pc = [1; y] /\ eqm (p * p) y (p * o)) /\
  eqm p ((p - 1) * pc_lambda_inv pc) 1 /\ eqm p (o * pc_other_inv pc) 1 /\
  ~ (p | pc_g pc) /\
  (0 <= o -> forall r, 0 <= r -> fbe_exp (pc_fbe pc) r = Ok ((pc_g pc ^ (p * o) mod (p * p)) ^ r mod (p * p))).
Proof.
  intros H. unfold pc_new in H. destruct (powers_1 p) as (P0 & P1 & P2).
  change (1 + 1)%nat with 2%nat in H. rewrite P1, P2 in H.
  apply obind_Ok in H as (pre & H1 & H). apply obind_Ok in H as (li & H2 & H). apply obind_Ok in H as (oi & H3 & H).
  apply obind_Ok in H as (tb & H4 & H). apply obind_Ok in H as (g & H5 & H). apply obind_Ok in H as (base & H6 & H).
  apply obind_Ok in H as (f & H7 & H). inversion H; subst; clear H.
  cbn [pc_p pc_s pc_powers pc_precomp pc_lambda_inv pc_other_inv pc_g pc_fbe].
  apply precomp_1 in H1 as (_ & y & -> & Ey). apply value_Ok, mod_inverse_Ok in H2 as (_ & _ & _ & E2).
  apply value_Ok, mod_inverse_Ok in H3 as (P & G & _ & E3). apply generator_unit in H5 as (Pp & U).
  apply mod_exp_Ok in H6 as (_ & _ & ->).
  repeat (split; [solve [auto | eauto]|]).
  intros Ho r Hr. change (Z.of_nat 1) with 1 in H7. rewrite Z.pow_1_r in H7. apply fbe_exp_spec with flag; auto. nia.
Qed.

Section PC.
  Variables (pc : prime_crypto) (p o : Z).
  Hypothesis Pp : prime p.
  Hypothesis Ho : 1 < o.
  Hypothesis Go : Z.gcd o p = 1.
  Hypothesis E1 : pc_p pc = p.
  Hypothesis E2 : pc_s pc = 1%nat.
  Hypothesis E3 : pc_powers pc = get_powers p 1.
  Hypothesis E4 : exists y, pc_precomp pc = [1; y] /\ eqm (p * p) y (p * o).
  Hypothesis E5 : eqm p ((p - 1) * pc_lambda_inv pc) 1.
  Hypothesis E6 : eqm p (o * pc_other_inv pc) 1.
  Hypothesis E7 : ~ (p | pc_g pc).
  Hypothesis E8 : forall r, 0 <= r -> fbe_exp (pc_fbe pc) r = Ok ((pc_g pc ^ (p * o) mod (p * p)) ^ r mod (p * p)).
  Let n := p * o.
  Let P1 : 1 < p. Proof. destruct Pp; auto. Qed.

  Lemma pc_encrypt_with_rand_spec m r : 0 <= r -> exists c, pc_encrypt_with_rand pc m r = Ok c /\ 0 <= c < p * p /\
    eqm (p * p) c ((1 + m * n) * (pc_g pc ^ r) ^ n).
  Proof.
    intros Hr. unfold pc_encrypt_with_rand. rewrite E8 by auto. cbn [obind]. rewrite E2, E3.
    change (1 + 1)%nat with 2%nat. rewrite (proj2 (proj2 (powers_1 p))). eexists. split; [reflexivity|].
    split; [apply Z.mod_pos_bound; nia|]. eapply eqm_trans; [apply eqm_mod; nia|].
    destruct E4 as (y & -> & Ey). apply eqm_mul.
    - apply binomial_1; auto. exists o. unfold n. lia.
    - eapply eqm_trans; [apply eqm_mod; nia|]. eapply eqm_trans; [apply eqm_pow; [auto|apply eqm_mod; nia]|].
      rewrite <- !Z.pow_mul_r by nia. fold n. rewrite (Z.mul_comm n r). apply eqm_refl.
  Qed.

  Lemma pc_decrypt_spec m c u : ~ (p | u) -> eqm (p * p) c ((1 + m * n) * u ^ n) ->
    pc_decrypt pc c = Ok (m mod p).
  Proof.
    intros Hu Ec. unfold pc_decrypt. rewrite E1, E2, E3. change (1 + 1)%nat with 2%nat.
    destruct (powers_1 p) as (Q0 & Q1 & Q2). rewrite Q1, Q2. rewrite mod_exp_total by nia. cbn [obind].
    set (x := c ^ (p - 1) mod (p * p)).
    assert (Hx : 0 <= x < p * p) by (apply Z.mod_pos_bound; nia).
    assert (X : eqm (p * p) x (1 + (p - 1) * (m * n))).
    { unfold x. eapply eqm_trans; [apply eqm_mod; nia|].
      eapply eqm_trans; [apply eqm_pow; [lia|exact Ec]|]. rewrite Z.pow_mul_l.
      rewrite <- (Z.mul_1_r (1 + (p - 1) * (m * n))). apply eqm_mul.
      - apply binom_sq'; [exists (m * o); unfold n; ring|lia].
      - rewrite <- Z.pow_mul_r by (unfold n; nia). unfold n.
        replace (p * o * (p - 1)) with ((p - 1) * p * o) by ring. rewrite Z.pow_mul_r, Z.pow_mul_r by nia.
        eapply eqm_trans; [apply eqm_pow; [lia|apply pow_lift_1; [lia|apply fermat; auto]]|].
        rewrite Z.pow_1_l by lia. apply eqm_refl. }
    assert (D : exists l, x - 1 = l * p /\ eqm p l ((p - 1) * m * o)).
    { destruct X as (k & X). unfold n in X. exists ((p - 1) * m * o + k * p). split; [lia|]. exists k. lia. }
    destruct D as (l & Dl & El). unfold bn_div. rewrite Dl.
    destruct (Z.eqb_spec p 0); [lia|]. rewrite Z.rem_mul, Z.quot_mul by lia. cbn [Z.eqb obind]. f_equal.
    unfold outer_loop. rewrite E2, E3. cbn [seq fold_left Nat.sub inner_loop]. rewrite Q1.
    apply eqm_iff; [lia|]. rewrite Z.mod_mod by lia.
    eapply eqm_trans; [apply eqm_mul; [apply eqm_mod; lia|apply eqm_refl]|].
    eapply eqm_trans; [apply eqm_mul; [apply eqm_mul; [exact El|apply eqm_refl]|apply eqm_refl]|].
    replace ((p - 1) * m * o * pc_other_inv pc * pc_lambda_inv pc)
      with (((p - 1) * pc_lambda_inv pc) * (o * pc_other_inv pc) * m) by ring.
    eapply eqm_trans; [apply eqm_mul; [apply eqm_mul; eauto|apply eqm_refl]|].
    replace (1 * 1 * m) with m by lia. apply eqm_refl.
  Qed.
End PC.

(** ** private key *)
Definition pc_ok (pc : prime_crypto) (p o : Z) : Prop :=
  pc_p pc = p /\ pc_s pc = 1%nat /\ pc_powers pc = get_powers p 1 /\
  (exists y, pc_precomp pc = [1; y] /\ eqm (p * p) y (p * o)) /\
  eqm p ((p - 1) * pc_lambda_inv pc) 1 /\ eqm p (o * pc_other_inv pc) 1 /\
  ~ (p | pc_g pc) /\
  (forall r, 0 <= r -> fbe_exp (pc_fbe pc) r = Ok ((pc_g pc ^ (p * o) mod (p * p)) ^ r mod (p * p))).
Lemma priv_new_spec flag p q V : priv_new flag p q 1 = Ok V ->
  prime p /\ prime q /\ p <> q /\ pv_n V = p * q /\ pv_ns V = p * q /\ pv_ns1 V = (p * q) * (p * q) /\
  pc_ok (pv_p V) p q /\ pc_ok (pv_q V) q p /\
  crt_new (p * p) (q * q) = Ok (pv_enc V) /\ crt_new p q = Ok (pv_dec V).
Proof.
  unfold priv_new. intros H. apply obind_Ok in H as (pc & H1 & H). apply obind_Ok in H as (qc & H2 & H).
  apply obind_Ok in H as (e & H3 & H). apply obind_Ok in H as (d & H4 & H).
  apply Ok_inj in H; subst V. cbn [pv_n pv_ns pv_ns1 pv_p pv_q pv_enc pv_dec].
  apply pc_new_spec in H1 as (Pp & G1 & A1 & A2 & A3 & A4 & A5 & A6 & A7 & A8).
  apply pc_new_spec in H2 as (Pq & G2 & B1 & B2 & B3 & B4 & B5 & B6 & B7 & B8).
  assert (1 < p) by (destruct Pp; auto). assert (1 < q) by (destruct Pq; auto).
  change (1 + 1)%nat with 2%nat in H3. rewrite A3, B3 in *.
  destruct (powers_1 p) as (_ & Q1 & Q2). destruct (powers_1 q) as (_ & R1 & R2).
  rewrite Q1, R1 in H4. rewrite Q2, R2 in H3. change (Z.of_nat 1) with 1. rewrite Z.pow_1_r.
  assert (p <> q). { intros ->. rewrite Z.gcd_diag, Z.abs_eq in G1 by lia. lia. }
  repeat (split; [solve [auto | lia]|]).
  split; [repeat (split; [solve [auto|eauto]|]); intros; apply A8; lia|].
  split; [repeat (split; [solve [auto|eauto]|]); intros; apply B8; lia|]. auto.
Qed.
Section Priv.
  Variables (V : priv) (p q : Z).
  Hypothesis Pp : prime p.
  Hypothesis Pq : prime q.
  Hypothesis Npq : p <> q.
  Hypothesis V1 : pv_ns V = p * q.
  Hypothesis V2 : pv_ns1 V = (p * q) * (p * q).
  Hypothesis Cp : pc_ok (pv_p V) p q.
  Hypothesis Cq : pc_ok (pv_q V) q p.
  Hypothesis Ce : crt_new (p * p) (q * q) = Ok (pv_enc V).
  Hypothesis Cd : crt_new p q = Ok (pv_dec V).
  Let p1 : 1 < p. Proof. destruct Pp; auto. Qed.
  Let q1 : 1 < q. Proof. destruct Pq; auto. Qed.
  Let Gpq : Z.gcd q p = 1.
  Proof. apply Zgcd_1_rel_prime, rel_prime_sym, prime_rel_distinct; auto. Qed.
  Let Gqp : Z.gcd p q = 1.
  Proof. apply Zgcd_1_rel_prime, prime_rel_distinct; auto. Qed.

  Lemma priv_decrypt_spec m c : ct_of (p * q) m c -> priv_decrypt V c = Ok (m mod (p * q)).
  Proof.
    intros (Hc & u & Ru & Eu). unfold priv_decrypt. rewrite V2.
    destruct (Z.ltb_spec c 0); [lia|]. destruct (Z.leb_spec (p * q * (p * q)) c); [lia|].
    destruct Cp as (A1 & A2 & A3 & A4 & A5 & A6 & A7 & A8). destruct Cq as (B1 & B2 & B3 & B4 & B5 & B6 & B7 & B8).
    assert (Rp : rel_prime u p). { apply rel_prime_sym. apply rel_prime_div with (p * q); [apply rel_prime_sym; auto|exists q; lia]. }
    assert (Rq : rel_prime u q). { apply rel_prime_sym. apply rel_prime_div with (p * q); [apply rel_prime_sym; auto|exists p; lia]. }
    rewrite (pc_decrypt_spec (pv_p V) p q Pp q1 A1 A2 A3 A5 A6 m c u).
    - cbn [obind]. rewrite (pc_decrypt_spec (pv_q V) q p Pq p1 B1 B2 B3 B5 B6 m c u).
      + cbn [obind]. f_equal.
        destruct (crt_spec p q _ (m mod p) (m mod q) Cd) as (_ & _ & R & _ & Hr & X1 & X2).
        apply eqm_small with (p * q); auto; [apply Z.mod_pos_bound; nia|].
        apply eqm_trans with m; [|apply eqm_sym, eqm_mod; nia].
        apply eqm_combine; auto; [eapply eqm_trans; [exact X1|]|eapply eqm_trans; [exact X2|]]; apply eqm_mod; lia.
      + apply rel_prime_ndiv; auto.
      + rewrite (Z.mul_comm q p). apply eqm_divide with (p * q * (p * q)); auto. exists (p * p). ring.
    - apply rel_prime_ndiv; auto.
    - apply eqm_divide with (p * q * (p * q)); auto. exists (q * q). ring.
  Qed.
  Lemma priv_decrypt_range c : c < 0 \/ (p * q) * (p * q) <= c -> priv_decrypt V c = Err InvalidArgument.
  Proof.
    intros H. unfold priv_decrypt. rewrite V2. destruct (Z.ltb_spec c 0); auto.
    destruct (Z.leb_spec (p * q * (p * q)) c); auto. lia.
  Qed.

  Lemma combine_ct m cp cq up uq :
    ~ (p | up) -> ~ (q | uq) ->
    eqm (p * p) cp ((1 + m * (p * q)) * up ^ (p * q)) ->
    eqm (q * q) cq ((1 + m * (p * q)) * uq ^ (p * q)) ->
    forall u, eqm p u up -> eqm q u uq ->
    ct_of (p * q) m (crt_compute (pv_enc V) cp cq)
    /\ rel_prime u (p * q) /\ eqm ((p * q) * (p * q)) (crt_compute (pv_enc V) cp cq) ((1 + m * (p * q)) * u ^ (p * q)).
  Proof.
    intros Up Uq Ep Eq u E1 E2.
    destruct (crt_spec _ _ _ cp cq Ce) as (_ & _ & R & _ & Hr & X1 & X2).
    assert (Ru : rel_prime u (p * q)).
    { apply rel_prime_sym, rel_prime_sym. apply rel_prime_mult.
      - apply rel_prime_sym, prime_rel; auto. intros D. apply Up. destruct E1 as (k & E1), D as (l & D). exists (l - k). lia.
      - apply rel_prime_sym, prime_rel; auto. intros D. apply Uq. destruct E2 as (k & E2), D as (l & D). exists (l - k). lia. }
    assert (E : eqm ((p * q) * (p * q)) (crt_compute (pv_enc V) cp cq) ((1 + m * (p * q)) * u ^ (p * q))).
    { replace (p * q * (p * q)) with (p * p * (q * q)) by ring. apply eqm_combine; auto.
      - eapply eqm_trans; [exact X1|]. eapply eqm_trans; [exact Ep|]. apply eqm_mul; [apply eqm_refl|].
        rewrite !Z.pow_mul_r by lia. apply eqm_pow; [lia|]. apply pow_lift; [lia|]. apply eqm_sym; auto.
      - eapply eqm_trans; [exact X2|]. eapply eqm_trans; [exact Eq|]. apply eqm_mul; [apply eqm_refl|].
        rewrite (Z.mul_comm p q), !Z.pow_mul_r by lia. apply eqm_pow; [lia|]. apply pow_lift; [lia|]. apply eqm_sym; auto. }
    split; [|auto]. split; [|eauto]. replace (p * q * (p * q)) with (p * p * (q * q)) by ring. auto.
  Qed.
  Lemma ndiv_pow a b k : prime a -> 0 <= k -> ~ (a | b) -> ~ (a | b ^ k).
  Proof.
    intros Pa Hk H. apply rel_prime_ndiv; [destruct Pa; auto|]. apply rel_prime_pow; auto.
    apply rel_prime_sym, prime_rel; auto.
  Qed.
  Lemma priv_encrypt_spec m t :
    (m < 0 \/ p * q <= m -> priv_encrypt V m t = Err InvalidArgument)
    /\ (0 <= m < p * q -> exists c t', priv_encrypt V m t = Ok (c, t') /\ ct_of (p * q) m c).
  Proof.
    unfold priv_encrypt. rewrite V1.
    split; intros H; destruct (Z.ltb_spec m 0), (Z.leb_spec (p * q) m); try reflexivity; try lia.
    destruct Cp as (A1 & A2 & A3 & A4 & A5 & A6 & A7 & A8). destruct Cq as (B1 & B2 & B3 & B4 & B5 & B6 & B7 & B8).
    unfold pc_encrypt. rewrite A1, B1. unfold bind, rand_between, bind, rand_less_than, ret, lift.
    destruct (Z.ltb_spec 1 p); [|lia]. destruct (Z.ltb_spec 0 (p - 1)); [|lia].
    pose proof (Z.mod_pos_bound (t O) (p - 1) ltac:(lia)).
    destruct (pc_encrypt_with_rand_spec (pv_p V) p q Pp q1 A2 A3 A4 A8 m (t O mod (p - 1) + 1)) as (cp & Ep & _ & Xp); [lia|].
    rewrite Ep. destruct (Z.ltb_spec 1 q); [|lia]. destruct (Z.ltb_spec 0 (q - 1)); [|lia].
    pose proof (Z.mod_pos_bound (tl_tape t O) (q - 1) ltac:(lia)).
    destruct (pc_encrypt_with_rand_spec (pv_q V) q p Pq p1 B2 B3 B4 B8 m (tl_tape t O mod (q - 1) + 1)) as (cq & Eq & _ & Xq); [lia|].
    rewrite Eq. eexists _, _. split; [reflexivity|].
    rewrite (Z.mul_comm q p) in Xq.
    destruct (crt_spec p q _ (pc_g (pv_p V) ^ (t O mod (p - 1) + 1)) (pc_g (pv_q V) ^ (tl_tape t O mod (q - 1) + 1)) Cd)
      as (_ & _ & _ & _ & _ & Y1 & Y2).
    destruct (combine_ct m cp cq _ _ (ndiv_pow _ _ (t O mod (p - 1) + 1) Pp ltac:(lia) A7)
        (ndiv_pow _ _ (tl_tape t O mod (q - 1) + 1) Pq ltac:(lia) B7) Xp Xq _ Y1 Y2) as (C & _). exact C.
  Qed.
  (** EncryptAndGetRand: the ciphertext is the deterministic encryption under the reported randomness *)
  Lemma privr_spec flag m t c r t' : privr_encrypt_get_rand flag V m t = Ok ((c, r), t') ->
    0 <= m < p * q /\ ct_of (p * q) m c /\ rel_prime r (p * q) /\ 0 <= r < p * q /\
    eqm ((p * q) * (p * q)) c ((1 + m * (p * q)) * r ^ (p * q)).
  Proof.
    destruct Cp as (A1 & A2 & A3 & A4 & A5 & A6 & A7 & A8). destruct Cq as (B1 & B2 & B3 & B4 & B5 & B6 & B7 & B8).
    unfold privr_encrypt_get_rand. rewrite A2, A3, B2, B3. change (1 + 1)%nat with 2%nat.
    destruct (powers_1 p) as (_ & Q1 & Q2). destruct (powers_1 q) as (_ & R1 & R2). rewrite Q1, Q2, R1, R2, V1.
    intros H. apply bind_Ok in H as (rp & t1 & H1 & H). apply lift_Ok in H1 as (H1 & ->).
    apply bind_Ok in H as (rq & t2 & H2 & H). apply lift_Ok in H2 as (H2 & ->).
    apply bind_Ok in H as (cr & t3 & H3 & H). apply lift_Ok in H3 as (H3 & ->).
    destruct (Z.ltb_spec m 0) as [|L0]; [discriminate|]. destruct (Z.leb_spec (p * q) m) as [|L1]; [discriminate|].
    apply bind_Ok in H as ([cp ep] & t4 & Hp & H). apply bind_Ok in H as ([cq eq] & t5 & Hq & H).
    apply ret_Ok in H as (H & ->). cbn [fst snd] in H. injection H as -> ->.
    unfold pcr_encrypt_get_rand in Hp, Hq. rewrite A1 in Hp. rewrite B1 in Hq.
    apply bind_Ok in Hp as (sp & u1 & Dp & Hp). apply rand_between_range in Dp.
    apply bind_Ok in Hp as (x1 & u2 & Kp & Hp). apply lift_Ok in Kp as (Kp & ->).
    apply bind_Ok in Hp as (x2 & u3 & Fp & Hp). apply lift_Ok in Fp as (Fp & ->). apply ret_Ok in Hp as (Hp & _). inversion Hp; subst x1 x2; clear Hp.
    apply bind_Ok in Hq as (sq & w1 & Dq & Hq). apply rand_between_range in Dq.
    apply bind_Ok in Hq as (x1 & w2 & Kq & Hq). apply lift_Ok in Kq as (Kq & ->).
    apply bind_Ok in Hq as (x2 & w3 & Fq & Hq). apply lift_Ok in Fq as (Fq & ->). apply ret_Ok in Hq as (Hq & _). inversion Hq; subst x1 x2; clear Hq.
    destruct (pc_encrypt_with_rand_spec (pv_p V) p q Pp q1 A2 A3 A4 A8 m sp) as (cp' & Ep & _ & Xp); [lia|].
    destruct (pc_encrypt_with_rand_spec (pv_q V) q p Pq p1 B2 B3 B4 B8 m sq) as (cq' & Eq & _ & Xq); [lia|].
    rewrite Ep in Kp. inversion Kp; subst cp'. rewrite Eq in Kq. inversion Kq; subst cq'. clear Kp Kq.
    rewrite (Z.mul_comm q p) in Xq.
    rewrite (fbe_exp_spec _ _ _ _ sp H1) in Fp by nia. rewrite (fbe_exp_spec _ _ _ _ sq H2) in Fq by nia.
    inversion Fp; subst ep. inversion Fq; subst eq. clear Fp Fq.
    destruct (crt_spec p q cr (pc_g (pv_p V) ^ sp mod (p * p)) (pc_g (pv_q V) ^ sq mod (q * q)) H3) as (_ & _ & _ & _ & RR & Y1 & Y2).
    split; [lia|].
    destruct (combine_ct m cp cq _ _ (ndiv_pow _ _ sp Pp ltac:(lia) A7) (ndiv_pow _ _ sq Pq ltac:(lia) B7) Xp Xq
       (crt_compute cr (pc_g (pv_p V) ^ sp mod (p * p)) (pc_g (pv_q V) ^ sq mod (q * q)))) as (C1 & C2 & C3).
    - eapply eqm_trans; [exact Y1|]. apply eqm_divide with (p * p); [exists p; lia|]. apply eqm_mod. nia.
    - eapply eqm_trans; [exact Y2|]. apply eqm_divide with (q * q); [exists q; lia|]. apply eqm_mod. nia.
    - auto.
  Qed.
End Priv.

(** ** threshold keys *)
Lemma keygen_spec p q bits t n sk1 sk2 t' : 1 < p -> 1 < q ->
  threshold_keygen p q bits t = Ok ((n, sk1, sk2), t') ->
  n = p * q /\ 0 <= sk1 /\ 0 < sk2 /\ eqm n (sk1 + sk2) 1 /\ ((p - 1) * (q - 1) | sk1 + sk2).
Proof.
  intros Hp Hq H. unfold threshold_keygen in H.
  apply bind_Ok in H as (r1 & t1 & D1 & H). apply bind_Ok in H as (r2 & t2 & D2 & H).
  apply bind_Ok in H as (inv & t3 & D3 & H). set (phi := p * q - p - q + 1) in *.
  destruct (Z.eqb_spec (r1 * phi * inv mod phi) 0) as [E1|]; [|discriminate].
  destruct (Z.eqb_spec (r1 * phi * inv mod (p * q)) 1) as [E2|]; [|discriminate]. cbn [negb] in H.
  apply bind_Ok in H as (s1 & t4 & D4 & H). apply rand_less_than_range in D4.
  destruct (Z.eqb_spec (s1 + (r1 * phi * inv - s1)) (r1 * phi * inv)); [|discriminate].
  cbn [negb] in H. apply ret_Ok in H as (H & _). injection H as -> -> ->.
  assert (P : phi = (p - 1) * (q - 1)) by (unfold phi; lia).
  split; [auto|]. split; [lia|]. split; [lia|].
  replace (s1 + (r1 * phi * inv - s1)) with (r1 * phi * inv) by lia. split.
  - apply eqm_iff; [nia|]. rewrite E2, Z.mod_small; nia.
  - rewrite <- P. exists (r1 * inv). ring.
Qed.
Section Thr.
  Variables (p q n sk1 sk2 : Z).
  Hypothesis Pp : prime p.
  Hypothesis Pq : prime q.
  Hypothesis Npq : p <> q.
  Hypothesis En : n = p * q.
  Hypothesis S1 : 0 <= sk1.
  Hypothesis S2 : 0 <= sk2.
  Hypothesis D1 : eqm n (sk1 + sk2) 1.
  Hypothesis D2 : ((p - 1) * (q - 1) | sk1 + sk2).
  Let p1 : 1 < p. Proof. destruct Pp; auto. Qed.
  Let q1 : 1 < q. Proof. destruct Pq; auto. Qed.

  Lemma ct_pow_d m c : ct_of n m c -> eqm (n * n) (c ^ sk1 * c ^ sk2) (1 + m * n).
  Proof.
    intros (Hc & u & Ru & Eu). rewrite <- Z.pow_add_r by lia. set (d := sk1 + sk2) in *.
    assert (0 <= d) by lia. assert (1 < n) by nia.
    eapply eqm_trans; [apply eqm_pow; [lia|exact Eu]|]. rewrite Z.pow_mul_l.
    rewrite <- (Z.mul_1_r (1 + m * n)) at 2. apply eqm_mul.
    - eapply eqm_trans; [apply binom_sq'; [exists m; lia|auto]|]. apply eqm_add; [apply eqm_refl|].
      destruct D1 as (k & D). exists (m * k). replace d with (1 + k * n) by lia. ring.
    - rewrite <- Z.pow_mul_r, (Z.mul_comm n d), Z.pow_mul_r by lia. apply pow_lift_1; [lia|].
      destruct D2 as (k & D). assert (0 <= k) by nia. rewrite D, (Z.mul_comm k), Z.pow_mul_r by nia.
      eapply eqm_trans; [apply eqm_pow; [auto|rewrite En; apply euler_two_primes; auto; rewrite <- En; auto]|].
      rewrite Z.pow_1_l by lia. apply eqm_refl.
  Qed.
  Lemma thr_decrypt_spec m c : ct_of n m c ->
    exists a, thr_partial n sk1 c = Ok a /\ thr_decrypt n sk2 c a = Ok (m mod n).
  Proof.
    intros C. assert (N : 1 < n) by nia. pose proof C as ((H0 & H1) & _).
    unfold thr_partial at 1. destruct (Z.ltb_spec c 0); [lia|]. destruct (Z.leb_spec (n * n) c); [lia|].
    rewrite mod_exp_total by nia. eexists. split; [reflexivity|].
    pose proof (Z.mod_pos_bound (c ^ sk1) (n * n) ltac:(nia)).
    unfold thr_decrypt. destruct (Z.ltb_spec c 0); [lia|].
    destruct (Z.ltb_spec (c ^ sk1 mod (n * n)) 0); [lia|]. destruct (Z.leb_spec (n * n) c); [lia|].
    destruct (Z.leb_spec (n * n) (c ^ sk1 mod (n * n))); [lia|].
    unfold thr_partial. destruct (Z.ltb_spec c 0); [lia|]. destruct (Z.leb_spec (n * n) c); [lia|].
    rewrite mod_exp_total by nia. cbn [obind].
    replace ((c ^ sk1 mod (n * n)) * (c ^ sk2 mod (n * n)) mod (n * n)) with (1 + n * (m mod n)).
    - unfold bn_div. destruct (Z.eqb_spec n 0); [lia|]. replace (1 + n * (m mod n) - 1) with (m mod n * n) by lia.
      rewrite Z.rem_mul, Z.quot_mul by lia. reflexivity.
    - pose proof (Z.mod_pos_bound m n ltac:(lia)).
      apply eqm_small with (n * n); [nia|apply Z.mod_pos_bound; nia|].
      apply eqm_sym. eapply eqm_trans; [apply eqm_mod; nia|].
      eapply eqm_trans; [apply eqm_mul; apply eqm_mod; nia|].
      eapply eqm_trans; [apply ct_pow_d; exact C|]. apply eqm_add; [apply eqm_refl|].
      exists (m / n). pose proof (Z.div_mod m n). nia.
  Qed.
End Thr.
Lemma thr_partial_range n share c : c < 0 \/ n * n <= c -> thr_partial n share c = Err InvalidArgument.
Proof.
  intros H. unfold thr_partial. destruct (Z.ltb_spec c 0); auto. destruct (Z.leb_spec (n * n) c); auto. lia.
Qed.
Lemma thr_decrypt_range n share c a : c < 0 \/ n * n <= c \/ a < 0 \/ n * n <= a -> thr_decrypt n share c a = Err InvalidArgument.
Proof.
  intros H. unfold thr_decrypt. destruct (Z.ltb_spec c 0); auto. destruct (Z.ltb_spec a 0); auto.
  destruct (Z.leb_spec (n * n) c); auto. destruct (Z.leb_spec (n * n) a); auto. lia.
Qed.
