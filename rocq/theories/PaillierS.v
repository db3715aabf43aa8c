(** * Proofs about Paillier objects of any exponent s (Damgard-Jurik). *)
Require Import List Arith Lia ZArith Znumtheory Bool.
Import ListNotations.
From Verif Require Import Prelude Coins NumTheory BytesModel BytesProofs ContextModel ContextProofs PaillierModel PaillierProofs.
Local Open Scope Z_scope.

(** ** binomial coefficients *)
Fixpoint binom (m k : nat) : Z :=
  match m, k with
  | _, O => 1
  | O, S _ => 0
  | S m', S k' => binom m' k' + binom m' (S k')
  end.
Fixpoint ff (m : Z) (k : nat) : Z := match k with O => 1 | S k' => ff m k' * (m - Z.of_nat k') end.
Fixpoint zfact (k : nat) : Z := match k with O => 1 | S k' => Z.of_nat (S k') * zfact k' end.
Fixpoint zsum (f : nat -> Z) (k : nat) : Z := match k with O => f O | S k' => zsum f k' + f (S k') end.
Lemma binom_0 m : binom m 0 = 1. Proof. destruct m; reflexivity. Qed.
Lemma binom_big m : forall k, (m < k)%nat -> binom m k = 0.
Proof.
  induction m as [|m IH]; intros [|k] H; cbn [binom]; try lia. rewrite !IH by lia. reflexivity.
Qed.
Lemma ff_pascal M k : ff (M + 1) (S k) = (M + 1) * ff M k.
Proof.
  induction k as [|k IH]; [cbn [ff]; change (Z.of_nat 0) with 0; ring|].
  change (ff (M + 1) (S (S k))) with (ff (M + 1) (S k) * (M + 1 - Z.of_nat (S k))). rewrite IH.
  change (ff M (S k)) with (ff M k * (M - Z.of_nat k)). rewrite Nat2Z.inj_succ. ring.
Qed.
Lemma ff_0_S k : ff 0 (S k) = 0.
Proof. induction k as [|k IH]; [reflexivity|]. change (ff 0 (S (S k))) with (ff 0 (S k) * (0 - Z.of_nat (S k))). rewrite IH. reflexivity. Qed.
Lemma binom_fact m : forall k, binom m k * zfact k = ff (Z.of_nat m) k.
Proof.
  induction m as [|m IH]; intros [|k].
  - reflexivity.
  - change (Z.of_nat 0) with 0. rewrite ff_0_S. cbn [binom]. lia.
  - reflexivity.
  - cbn [binom]. replace (Z.of_nat (S m)) with (Z.of_nat m + 1) by lia. rewrite ff_pascal.
    pose proof (IH k) as A. pose proof (IH (S k)) as B.
    change (ff (Z.of_nat m) (S k)) with (ff (Z.of_nat m) k * (Z.of_nat m - Z.of_nat k)) in B.
    change (zfact (S k)) with (Z.of_nat (S k) * zfact k) in *. rewrite Nat2Z.inj_succ in *.
    rewrite Z.mul_add_distr_r. rewrite B.
    replace (binom m k * (Z.succ (Z.of_nat k) * zfact k)) with (Z.succ (Z.of_nat k) * (binom m k * zfact k)) by ring.
    rewrite A. ring.
Qed.
Lemma zsum_ext f g k : (forall i, (i <= k)%nat -> f i = g i) -> zsum f k = zsum g k.
Proof. induction k as [|k IH]; intros H; cbn [zsum]; [apply H; lia|]. rewrite IH, (H (S k)); auto. Qed.
Lemma zsum_eqm n f g k : (forall i, (i <= k)%nat -> eqm n (f i) (g i)) -> eqm n (zsum f k) (zsum g k).
Proof. induction k as [|k IH]; intros H; cbn [zsum]; [apply H; lia|]. apply eqm_add; auto. Qed.
Lemma zsum_cut n f k k' : (k <= k')%nat -> (forall i, (k < i <= k')%nat -> eqm n (f i) 0) -> eqm n (zsum f k') (zsum f k).
Proof.
  induction k' as [|k' IH]; intros L H.
  - replace k with O by lia. apply eqm_refl.
  - destruct (Nat.eq_dec k (S k')) as [->|N]; [apply eqm_refl|]. cbn [zsum].
    replace (zsum f k) with (zsum f k + 0) by lia. apply eqm_add; [apply IH; [lia|intros; apply H; lia]|apply H; lia].
Qed.
Lemma zsum_mul c f k : zsum (fun i => c * f i) k = c * zsum f k.
Proof. induction k as [|k IH]; cbn [zsum]; [reflexivity|]. rewrite IH. ring. Qed.
Lemma zsum_shift f k : zsum f (S k) = f O + zsum (fun i => f (S i)) k.
Proof. induction k as [|k IH]; [reflexivity|]. change (zsum f (S (S k))) with (zsum f (S k) + f (S (S k))). rewrite IH. cbn [zsum]. ring. Qed.

Definition bsum (x : Z) (m s : nat) : Z := zsum (fun k => binom m k * x ^ Z.of_nat k) s.
Lemma bsum_step x m s : (1 + x) * bsum x m s = bsum x (S m) s + binom m s * x ^ Z.of_nat (S s).
Proof.
  unfold bsum. induction s as [|s IH].
  - cbn [zsum]. change (Z.of_nat 0) with 0. change (Z.of_nat 1) with 1. rewrite Z.pow_0_r, Z.pow_1_r, !binom_0. ring.
  - cbn [zsum]. rewrite Z.mul_add_distr_l, IH. cbn [binom].
    rewrite (Nat2Z.inj_succ (S s)), (Z.pow_succ_r x (Z.of_nat (S s))) by lia. ring.
Qed.
Lemma binomial_mod x b s : (b | x) -> forall m, eqm (b ^ Z.of_nat (S s)) ((1 + x) ^ Z.of_nat m) (bsum x m s).
Proof.
  intros D. induction m as [|m IH].
  - change (Z.of_nat 0) with 0. rewrite Z.pow_0_r.
    assert (G : forall k, bsum x 0 k = 1).
    { unfold bsum. induction k as [|k IHk]; [cbn [zsum]; rewrite binom_0, Z.pow_0_r; reflexivity|].
      change (zsum ?f (S k)) with (zsum f k + f (S k)). rewrite IHk. rewrite (binom_big 0 (S k)) by lia. ring. }
    rewrite G. apply eqm_refl.
  - rewrite (Nat2Z.inj_succ m), (Z.pow_succ_r (1 + x)) by lia.
    eapply eqm_trans; [apply eqm_mul; [apply eqm_refl|exact IH]|]. rewrite bsum_step.
    destruct D as (t & ->). exists (binom m s * t ^ Z.of_nat (S s)). rewrite Z.pow_mul_l. ring.
Qed.

(** ** lifting *)
Lemma pow_sub_lift y t : forall j, 0 <= j -> exists w, (y + t) ^ Z.succ j = y ^ Z.succ j + Z.succ j * t * y ^ j + w * (t * t).
Proof.
  apply (natlike_ind (fun j => exists w, (y + t) ^ Z.succ j = y ^ Z.succ j + Z.succ j * t * y ^ j + w * (t * t))).
  - exists 0. change (Z.succ 0) with 1. rewrite !Z.pow_1_r, Z.pow_0_r. ring.
  - intros j Hj (w & Ew).
    exists (Z.succ j * y ^ j + w * (y + t)).
    rewrite Z.pow_succ_r by lia. rewrite Ew. rewrite !(Z.pow_succ_r y) by lia. unfold Z.succ. ring.
Qed.
Lemma pow_lift_gen b i x y : 0 < b -> (0 < i)%nat -> eqm (b ^ Z.of_nat i) x y -> eqm (b ^ Z.of_nat (S i)) (x ^ b) (y ^ b).
Proof.
  intros Hb Hi (t & E). replace x with (y + t * b ^ Z.of_nat i) by lia.
  destruct (pow_sub_lift y (t * b ^ Z.of_nat i) (b - 1) ltac:(lia)) as (w & Ew).
  replace (Z.succ (b - 1)) with b in Ew by lia. rewrite Ew.
  destruct i as [|i]; [lia|].
  exists (t * y ^ (b - 1) + w * t * t * b ^ Z.of_nat i).
  rewrite (Nat2Z.inj_succ (S i)), (Nat2Z.inj_succ i), !Z.pow_succ_r by lia. ring.
Qed.
Lemma pow_lift_s b s x y : 0 < b -> eqm b x y -> eqm (b ^ Z.of_nat (S s)) (x ^ (b ^ Z.of_nat s)) (y ^ (b ^ Z.of_nat s)).
Proof.
  intros Hb E. induction s as [|s IH].
  - change (Z.of_nat 1) with 1. change (Z.of_nat 0) with 0. rewrite Z.pow_0_r, !Z.pow_1_r. exact E.
  - rewrite (Nat2Z.inj_succ s), (Z.pow_succ_r b) by lia. rewrite (Z.mul_comm b).
    rewrite !Z.pow_mul_r by (try lia; apply Z.pow_nonneg; lia).
    apply pow_lift_gen; auto. lia.
Qed.
(** the order of 1 + n divides b^s modulo b^(s+1) *)
Lemma one_plus_order b n s : 0 < b -> (b | n) -> eqm (b ^ Z.of_nat (S s)) ((1 + n) ^ (b ^ Z.of_nat s)) 1.
Proof.
  intros Hb (k & ->). eapply eqm_trans; [apply pow_lift_s with (y := 1); auto; exists k; ring|].
  rewrite Z.pow_1_l; [apply eqm_refl|]. apply Z.pow_nonneg. lia.
Qed.
Lemma one_plus_ext b n s a a' : 0 < b -> (b | n) -> 0 <= a -> 0 <= a' -> eqm (b ^ Z.of_nat s) a a' ->
  eqm (b ^ Z.of_nat (S s)) ((1 + n) ^ a) ((1 + n) ^ a').
Proof.
  intros Hb D.
  assert (G : forall a k, 0 <= a -> 0 <= k ->
    eqm (b ^ Z.of_nat (S s)) ((1 + n) ^ (a + k * b ^ Z.of_nat s)) ((1 + n) ^ a)).
  { intros x k Hx Hk. assert (0 < b ^ Z.of_nat s) by (apply Z.pow_pos_nonneg; lia).
    rewrite Z.pow_add_r by nia. rewrite <- (Z.mul_1_r ((1 + n) ^ x)) at 2. apply eqm_mul; [apply eqm_refl|].
    rewrite (Z.mul_comm k), Z.pow_mul_r by lia.
    eapply eqm_trans; [apply eqm_pow; [auto|apply one_plus_order; auto]|]. rewrite Z.pow_1_l by auto. apply eqm_refl. }
  intros Ha Ha' (k & E). destruct (Z.le_ge_cases 0 k).
  - replace a with (a' + k * b ^ Z.of_nat s) by lia. apply G; auto.
  - replace a' with (a + (- k) * b ^ Z.of_nat s) by lia. apply eqm_sym, G; auto. lia.
Qed.

(** ** helper functions at any s *)
Lemma powers_nth num s i : (i <= s + 1)%nat -> nth i (get_powers num s) 0 = num ^ Z.of_nat i.
Proof.
  intros H. unfold get_powers. rewrite nth_indep with (d' := num ^ Z.of_nat 0) by (rewrite map_length, seq_length; lia).
  rewrite map_nth with (f := fun i => num ^ Z.of_nat i). rewrite seq_nth by lia. reflexivity.
Qed.
(** entry i of the table is num^i / i! modulo m *)
Definition precomp_ok (b num m : Z) (l : list Z) : Prop :=
  forall i, (i < length l)%nat -> (b ^ Z.of_nat i | nth i l 0) /\ eqm m (zfact i * nth i l 0) (num ^ Z.of_nat i).
Lemma divide_mod a x m : (a | x) -> (a | m) -> (a | x mod m).
Proof.
  intros A B. destruct (Z.eq_dec m 0) as [->|N]; [rewrite Zmod_0_r; auto|].
  rewrite Z.mod_eq by auto. apply Z.divide_sub_r; auto. apply Z.divide_mul_l. auto.
Qed.
Lemma precomp_loop_spec b num m : (b | num) -> forall k i last l,
  (forall j, (j <= i + k)%nat -> (b ^ Z.of_nat j | m)) ->
  (b ^ Z.of_nat i | last) -> eqm m (zfact i * last) (num ^ Z.of_nat i) ->
  precomp_loop num m (S i) k last = Ok l ->
  length l = k /\ (k <> O -> 1 < m) /\
  forall j, (j < k)%nat -> (b ^ Z.of_nat (S i + j) | nth j l 0) /\ eqm m (zfact (S i + j) * nth j l 0) (num ^ Z.of_nat (S i + j)).
Proof.
  intros D. induction k as [|k IH]; intros i last l DM Dl El H; cbn [precomp_loop] in H.
  - apply Ok_inj in H. subst l. split; [auto|]. split; [congruence|]. intros; lia.
  - apply obind_Ok in H as (inv & H1 & H). apply value_Ok, mod_inverse_Ok in H1 as (Hm & _ & _ & Ei).
    apply obind_Ok in H as (r & H2 & H). apply Ok_inj in H. subst l.
    set (x := last * (inv * num mod m) mod m) in *.
    assert (Dx : (b ^ Z.of_nat (S i) | x)).
    { unfold x. apply divide_mod; [|apply DM; lia]. rewrite Nat2Z.inj_succ, Z.pow_succ_r, Z.mul_comm by lia.
      apply Z.mul_divide_mono_r with (p := inv * num mod m) in Dl.
      eapply Z.divide_trans; [|exact Dl]. apply Z.mul_divide_mono_l.
      apply divide_mod; [apply Z.divide_mul_r; auto|]. specialize (DM 1%nat). change (Z.of_nat 1) with 1 in DM.
      rewrite Z.pow_1_r in DM. apply DM. lia. }
    assert (Ex : eqm m (zfact (S i) * x) (num ^ Z.of_nat (S i))).
    { unfold x. eapply eqm_trans; [apply eqm_mul; [apply eqm_refl|apply eqm_mod; lia]|].
      eapply eqm_trans; [apply eqm_mul; [apply eqm_refl|apply eqm_mul; [apply eqm_refl|apply eqm_mod; lia]]|].
      change (zfact (S i)) with (Z.of_nat (S i) * zfact i).
      replace (Z.of_nat (S i) * zfact i * (last * (inv * num)))
        with ((Z.of_nat (S i) * inv) * (zfact i * last) * num) by ring.
      eapply eqm_trans; [apply eqm_mul; [apply eqm_mul; [exact Ei|exact El]|apply eqm_refl]|].
      rewrite (Nat2Z.inj_succ i), Z.pow_succ_r by lia. replace (1 * num ^ Z.of_nat i * num) with (num * num ^ Z.of_nat i) by ring.
      apply eqm_refl. }
    apply IH in H2 as (L & _ & R); auto; [|intros; apply DM; lia].
    split; [cbn [length]; lia|]. split; [auto|]. intros [|j] Hj; cbn [nth].
    + rewrite Nat.add_0_r. auto.
    + replace (S i + S j)%nat with (S (S i) + j)%nat by lia. apply R. lia.
Qed.
Lemma get_precomp_spec b num s l : (b | num) -> get_precomp num (b ^ Z.of_nat (S s)) s = Ok l ->
  length l = S s /\ precomp_ok b num (b ^ Z.of_nat (S s)) l.
Proof.
  intros D H. unfold get_precomp in H. apply obind_Ok in H as (r & H & E). apply Ok_inj in E. subst l.
  apply precomp_loop_spec with (b := b) in H as (L & _ & R); auto.
  - split; [cbn [length]; lia|]. intros [|i] Hi; cbn [length nth] in *.
    + split; [exists 1; reflexivity|apply eqm_refl].
    + apply (R i). lia.
  - intros j Hj. exists (b ^ Z.of_nat (S s - j)). rewrite <- Z.pow_add_r by lia. f_equal. lia.
  - exists 1. reflexivity.
  - apply eqm_refl.
Qed.

(** ComputeByBinomialExpansion computes (1 + num)^m modulo b^(s+1) *)
Lemma eqm_mod_div n m a : n <> 0 -> (m | n) -> eqm m (a mod n) a.
Proof. intros Hn D. apply eqm_divide with n; auto. apply eqm_mod; auto. Qed.
Lemma eqm_ndiv p u v : eqm p u v -> ~ (p | v) -> ~ (p | u).
Proof. intros (k & E) N (l & D). apply N. exists (l - k). lia. Qed.
Lemma pow_divide b i j : (i <= j)%nat -> (b ^ Z.of_nat i | b ^ Z.of_nat j).
Proof. intros H. exists (b ^ Z.of_nat (j - i)). rewrite <- Z.pow_add_r by lia. f_equal. lia. Qed.
Lemma eqm_times_divisible n a b k c : eqm n a b -> (k | c) -> eqm (n * k) (a * c) (b * c).
Proof. intros (x & Ex) (y & ->). exists (x * y). replace a with (b + x * n) by lia. ring. Qed.
Lemma binomial_loop_spec b num s pre r : 1 < b -> (b | num) -> length pre = S s ->
  precomp_ok b num (b ^ Z.of_nat (S s)) pre -> 0 <= r ->
  forall rem j c tmp, (j + rem = s + 1)%nat -> (0 < j)%nat ->
  eqm (b ^ Z.of_nat (S s)) c (zsum (fun k => binom (Z.to_nat r) k * num ^ Z.of_nat k) (j - 1)) ->
  eqm (b ^ Z.of_nat (s - (j - 1) + 1)) tmp (ff r (j - 1)) ->
  eqm (b ^ Z.of_nat (S s)) (binomial_loop pre (get_powers b s) s r j rem c tmp) ((1 + num) ^ r).
Proof.
  intros Hb D L P Hr.
  assert (F : eqm (b ^ Z.of_nat (S s)) (bsum num (Z.to_nat r) s) ((1 + num) ^ r)).
  { rewrite <- (Z2Nat.id r) at 2 by auto. apply eqm_sym, binomial_mod; auto. }
  induction rem as [|rem IH]; intros j c tmp Hj J0 Ec Et; cbn [binomial_loop].
  - eapply eqm_trans; [exact Ec|]. replace (j - 1)%nat with s by lia. apply F.
  - destruct (Z.ltb_spec r (Z.of_nat j)) as [LT|LE].
    + eapply eqm_trans; [exact Ec|]. eapply eqm_trans; [|apply F]. unfold bsum. apply eqm_sym.
      apply zsum_cut; [lia|]. intros i Hi. rewrite binom_big by lia. exists 0. ring.
    + rewrite !powers_nth by lia. replace (s + 1)%nat with (S s) by lia.
      set (tmp' := tmp * (r - Z.of_nat j + 1) mod b ^ Z.of_nat (s - j + 1)).
      assert (B0 : forall i, b ^ Z.of_nat i <> 0) by (intros i; apply Z.pow_nonzero; lia).
      assert (Et' : eqm (b ^ Z.of_nat (s - j + 1)) tmp' (ff r j)).
      { unfold tmp'. eapply eqm_trans; [apply eqm_mod; auto|].
        replace (ff r j) with (ff r (j - 1) * (r - Z.of_nat j + 1)).
        - apply eqm_mul; [|apply eqm_refl]. apply eqm_divide with (2 := Et). apply pow_divide. lia.
        - destruct j as [|j']; [lia|]. cbn [ff]. replace (S j' - 1)%nat with j' by lia.
          replace (r - Z.of_nat (S j') + 1) with (r - Z.of_nat j') by lia. reflexivity. }
      apply IH; [lia|lia| |].
      * replace (S j - 1)%nat with (S (j - 1)) by lia. cbn [zsum]. replace (S (j - 1)) with j by lia.
        apply eqm_add; [exact Ec|]. eapply eqm_trans; [apply eqm_mod; auto|].
        destruct (P j) as (Dj & Ej); [lia|].
        assert (K : eqm (b ^ Z.of_nat (s - j + 1) * b ^ Z.of_nat j) (tmp' * nth j pre 0) (ff r j * nth j pre 0)).
        { apply eqm_times_divisible; auto. }
        rewrite <- Z.pow_add_r, <- Nat2Z.inj_add in K by lia. replace (s - j + 1 + j)%nat with (S s) in K by lia.
        eapply eqm_trans; [exact K|]. rewrite <- (Z2Nat.id r) at 1 by auto. rewrite <- binom_fact, <- Z.mul_assoc.
        apply eqm_mul; [apply eqm_refl|exact Ej].
      * replace (S j - 1)%nat with j by lia. exact Et'.
Qed.
Lemma binomial_spec b num s pre m : 1 < b -> (b | num) -> length pre = S s ->
  precomp_ok b num (b ^ Z.of_nat (S s)) pre ->
  eqm (b ^ Z.of_nat (S s)) (binomial_expansion pre (get_powers b s) m) ((1 + num) ^ (m mod b ^ Z.of_nat s)).
Proof.
  intros Hb D L P. unfold binomial_expansion. rewrite L. replace (S s - 1)%nat with s by lia. rewrite powers_nth by lia.
  assert (0 < b ^ Z.of_nat s) by (apply Z.pow_pos_nonneg; lia). pose proof (Z.mod_pos_bound m (b ^ Z.of_nat s) ltac:(lia)).
  apply binomial_loop_spec with (num := num); auto; try lia.
  - cbn [Nat.sub zsum]. rewrite binom_0, Z.pow_0_r. apply eqm_refl.
  - apply eqm_refl.
Qed.

(** ** ciphertexts of a message, any s *)
Definition cts (s : nat) (n m c : Z) : Prop :=
  0 <= c < n ^ Z.of_nat (S s) /\
  exists u, rel_prime u n /\ eqm (n ^ Z.of_nat (S s)) c ((1 + n) ^ (m mod n ^ Z.of_nat s) * u ^ (n ^ Z.of_nat s)).
Lemma pow_pos' n i : 1 < n -> 0 < n ^ Z.of_nat i.
Proof. intros. apply Z.pow_pos_nonneg; lia. Qed.
Lemma cts_mul_1 s n m c u k : 1 < n -> cts s n m c -> rel_prime u n ->
  eqm (n ^ Z.of_nat (S s)) k (u ^ (n ^ Z.of_nat s)) -> cts s n m (c * k mod n ^ Z.of_nat (S s)).
Proof.
  intros Hn (Hc & v & Rv & Ev) Ru Ek. pose proof (pow_pos' n (S s) Hn). split; [apply Z.mod_pos_bound; auto|].
  exists (v * u). split; [apply rel_prime_mul; auto|].
  eapply eqm_trans; [apply eqm_mod; lia|]. rewrite Z.pow_mul_l, Z.mul_assoc. apply eqm_mul; auto.
Qed.
Lemma cts_add s n a b ca cb : 1 < n -> cts s n a ca -> cts s n b cb -> cts s n (a + b) (ca * cb mod n ^ Z.of_nat (S s)).
Proof.
  intros Hn (_ & u & Ru & Eu) (_ & v & Rv & Ev). pose proof (pow_pos' n (S s) Hn). pose proof (pow_pos' n s Hn).
  split; [apply Z.mod_pos_bound; auto|].
  exists (u * v). split; [apply rel_prime_mul; auto|].
  eapply eqm_trans; [apply eqm_mod; lia|]. eapply eqm_trans; [apply eqm_mul; eauto|].
  rewrite Z.pow_mul_l. set (N := n ^ Z.of_nat s) in *.
  replace ((1 + n) ^ (a mod N) * u ^ N * ((1 + n) ^ (b mod N) * v ^ N))
    with ((1 + n) ^ (a mod N) * (1 + n) ^ (b mod N) * (u ^ N * v ^ N)) by ring.
  apply eqm_mul; [|apply eqm_refl]. pose proof (Z.mod_pos_bound a N). pose proof (Z.mod_pos_bound b N). pose proof (Z.mod_pos_bound (a + b) N).
  rewrite <- Z.pow_add_r by lia. apply one_plus_ext; try lia; [apply Z.divide_refl|].
  fold N. eapply eqm_trans; [apply eqm_add; apply eqm_mod; lia|]. apply eqm_sym, eqm_mod. lia.
Qed.
Lemma cts_pow s n a c k : 1 < n -> 0 <= k -> cts s n a c -> cts s n (a * k) (c ^ k mod n ^ Z.of_nat (S s)).
Proof.
  intros Hn Hk (_ & u & Ru & Eu). pose proof (pow_pos' n (S s) Hn). pose proof (pow_pos' n s Hn).
  split; [apply Z.mod_pos_bound; auto|].
  exists (u ^ k). split; [apply rel_prime_pow; auto|].
  eapply eqm_trans; [apply eqm_mod; lia|]. eapply eqm_trans; [apply eqm_pow; [auto|exact Eu]|].
  set (N := n ^ Z.of_nat s) in *. pose proof (Z.mod_pos_bound a N). pose proof (Z.mod_pos_bound (a * k) N).
  rewrite Z.pow_mul_l. rewrite <- !Z.pow_mul_r by lia. rewrite (Z.mul_comm N k).
  apply eqm_mul; [|apply eqm_refl]. apply one_plus_ext; try lia; [apply Z.divide_refl|].
  fold N. eapply eqm_trans; [apply eqm_mul; [apply eqm_mod; lia|apply eqm_refl]|]. apply eqm_sym, eqm_mod. lia.
Qed.
(** the case s = 1 *)
Lemma cts_1 n m c : 1 < n -> cts 1 n m c <-> ct_of n m c.
Proof.
  intros Hn. unfold cts, ct_of. change (Z.of_nat 2) with 2. change (Z.of_nat 1) with 1. rewrite Z.pow_1_r, Z.pow_2_r.
  pose proof (Z.mod_pos_bound m n).
  assert (G : eqm (n * n) ((1 + n) ^ (m mod n)) (1 + m * n)).
  { eapply eqm_trans; [apply binom_sq'; [apply Z.divide_refl|lia]|]. apply eqm_add; [apply eqm_refl|].
    apply eqm_mul_scale. apply eqm_mod. lia. }
  split; intros (Hc & u & Ru & Eu); (split; [auto|]); exists u; (split; [auto|]); (eapply eqm_trans; [exact Eu|]);
    (apply eqm_mul; [|apply eqm_refl]); auto. apply eqm_sym; auto.
Qed.

(** ** public objects *)
Lemma pub_make_s flag n s x P : 1 < n -> Z.gcd x n = 1 -> pub_make flag n s x = Ok P ->
  pp_n P = n /\ pp_s P = s /\ pp_powers P = get_powers n s /\ pp_modulus P = n ^ Z.of_nat (S s) /\
  (length (pp_precomp P) = S s /\ precomp_ok n n (n ^ Z.of_nat (S s)) (pp_precomp P)) /\
  exists g, rel_prime g n /\ forall r, 0 <= r ->
    fbe_exp (pp_fbe P) r = Ok ((g ^ (n ^ Z.of_nat s) mod n ^ Z.of_nat (S s)) ^ r mod n ^ Z.of_nat (S s)).
Proof.
  intros Hn HG H. unfold pub_make in H. rewrite !powers_nth in H by lia. replace (s + 1)%nat with (S s) in H by lia.
  apply obind_Ok in H as (base & H1 & H). apply obind_Ok in H as (f & H2 & H). apply obind_Ok in H as (pre & H3 & H).
  apply Ok_inj in H; subst P. cbn [pp_n pp_s pp_powers pp_modulus pp_precomp pp_fbe].
  apply get_precomp_spec in H3; [|apply Z.divide_refl]. apply mod_exp_Ok in H1 as (_ & _ & ->).
  repeat (split; [solve [auto | eauto]|]).
  exists (n - x * x mod n). split.
  - apply rel_prime_eqm with (- (x * x)).
    + exists (-1 - x * x / n). pose proof (Z.div_mod (x * x) n). lia.
    + apply Zgcd_1_rel_prime. rewrite Z.gcd_opp_l. apply Zgcd_1_rel_prime.
      apply rel_prime_mul; apply Zgcd_1_rel_prime; auto.
  - intros r Hr. apply fbe_exp_spec with flag; auto. apply pow_pos'; auto.
Qed.
Definition pub_ok (s : nat) (n : Z) (P : pub) : Prop :=
  1 < n /\ pp_n P = n /\ pp_s P = s /\ pp_powers P = get_powers n s /\ pp_modulus P = n ^ Z.of_nat (S s) /\
  (length (pp_precomp P) = S s /\ precomp_ok n n (n ^ Z.of_nat (S s)) (pp_precomp P)) /\
  exists g, rel_prime g n /\ forall r, 0 <= r ->
    fbe_exp (pp_fbe P) r = Ok ((g ^ (n ^ Z.of_nat s) mod n ^ Z.of_nat (S s)) ^ r mod n ^ Z.of_nat (S s)).
Section Pub.
  Variables (P : pub) (s : nat) (n : Z).
  Hypothesis HP : pub_ok s n P.
  Let Hn : 1 < n. Proof. apply HP. Qed.
  Let Hs : 0 < n ^ Z.of_nat s. Proof. apply pow_pos'; auto. Qed.
  Let Hs1 : 0 < n ^ Z.of_nat (S s). Proof. apply pow_pos'; auto. Qed.

  Lemma fbe_unit_s r : 0 <= r -> exists u k, fbe_exp (pp_fbe P) r = Ok k /\ rel_prime u n
    /\ eqm (n ^ Z.of_nat (S s)) k (u ^ (n ^ Z.of_nat s)).
  Proof.
    intros Hr. destruct HP as (_ & _ & _ & _ & _ & _ & (g & Rg & F)).
    exists (g ^ r), ((g ^ (n ^ Z.of_nat s) mod n ^ Z.of_nat (S s)) ^ r mod n ^ Z.of_nat (S s)).
    split; [apply F; auto|]. split; [apply rel_prime_pow; auto|].
    eapply eqm_trans; [apply eqm_mod; lia|]. eapply eqm_trans; [apply eqm_pow; [auto|apply eqm_mod; lia]|].
    rewrite <- !Z.pow_mul_r, (Z.mul_comm (n ^ Z.of_nat s) r) by lia. apply eqm_refl.
  Qed.
  Lemma binomial_pub_s m : eqm (n ^ Z.of_nat (S s)) (binomial_expansion (pp_precomp P) (pp_powers P) m)
    ((1 + n) ^ (m mod n ^ Z.of_nat s)).
  Proof.
    destruct HP as (_ & _ & _ & Ep & _ & (L & Pr) & _). rewrite Ep. apply binomial_spec; auto. apply Z.divide_refl.
  Qed.
  Lemma pub_encrypt_gen_s m r : 0 <= r -> r <= n -> exists c, pub_encrypt_gen P m r = Ok c /\ cts s n m c.
  Proof.
    intros Hr Hr'. destruct (fbe_unit_s r Hr) as (u & k & E & Ru & Ek). unfold pub_encrypt_gen.
    pose proof HP as (_ & En & _ & _ & Em & _).
    rewrite En, E. destruct (Z.ltb_spec n r); [lia|]. cbn [obind]. eexists. split; [reflexivity|].
    rewrite Em. split; [apply Z.mod_pos_bound; auto|]. exists u. split; auto.
    eapply eqm_trans; [apply eqm_mod; lia|]. apply eqm_mul; auto. apply binomial_pub_s.
  Qed.
  Lemma pub_encrypt_s m t :
    (m < 0 \/ n ^ Z.of_nat s <= m -> pub_encrypt P m t = Err InvalidArgument)
    /\ (0 <= m < n ^ Z.of_nat s -> exists c t', pub_encrypt P m t = Ok (c, t') /\ cts s n m c).
  Proof.
    pose proof HP as (_ & En & Es & Ep & Em & _).
    unfold pub_encrypt. rewrite Es, Ep, En, powers_nth by lia.
    split; intros H; destruct (Z.ltb_spec m 0), (Z.leb_spec (n ^ Z.of_nat s) m); try reflexivity; try lia.
    unfold bind, rand_less_than. destruct (Z.ltb_spec 0 n); [|lia].
    pose proof (Z.mod_pos_bound (t O) n ltac:(lia)).
    destruct (pub_encrypt_gen_s m (t O mod n)) as (c & E & C); try lia.
    rewrite E. eexists _, _. split; [reflexivity|auto].
  Qed.
  Lemma pub_encrypt_with_rand_s m r :
    (Z.gcd r n <> 1 -> pub_encrypt_with_rand P m r = Err InvalidArgument)
    /\ (Z.gcd r n = 1 -> exists c, pub_encrypt_with_rand P m r = Ok c /\ cts s n m c
         /\ eqm (n ^ Z.of_nat (S s)) c ((1 + n) ^ (m mod n ^ Z.of_nat s) * r ^ (n ^ Z.of_nat s))).
  Proof.
    pose proof HP as (_ & En & Es & Ep & Em & _).
    unfold pub_encrypt_with_rand. rewrite En, Es, Em, Ep, powers_nth by lia. rewrite <- Ep.
    split; intros H; destruct (Z.eqb_spec (Z.gcd r n) 1); try lia; auto.
    rewrite mod_exp_total by lia. cbn [obind]. eexists. split; [reflexivity|].
    match goal with |- cts _ _ _ ?c /\ _ =>
      assert (E : eqm (n ^ Z.of_nat (S s)) c ((1 + n) ^ (m mod n ^ Z.of_nat s) * r ^ (n ^ Z.of_nat s))) end.
    { eapply eqm_trans; [apply eqm_mod; lia|]. apply eqm_mul; [apply binomial_pub_s|apply eqm_mod; lia]. }
    split; auto. split; [apply Z.mod_pos_bound; auto|]. exists r. split; auto. apply Zgcd_1_rel_prime; auto.
  Qed.
  Lemma pub_rerand_s m c t : cts s n m c -> exists c' t', pub_rerand P c t = Ok (c', t') /\ cts s n m c'.
  Proof.
    pose proof HP as (_ & En & _ & _ & Em & _).
    intros C. unfold pub_rerand, bind, rand_less_than. rewrite En. destruct (Z.ltb_spec 0 n); [|lia].
    pose proof (Z.mod_pos_bound (t O) n ltac:(lia)).
    destruct (fbe_unit_s (t O mod n)) as (u & k & E & Ru & Ek); [lia|]. rewrite E. cbn [lift ret].
    unfold lift, ret. eexists _, _. split; [reflexivity|]. rewrite Em. apply cts_mul_1 with u; auto.
  Qed.
  Lemma pub_add_s a b ca cb : cts s n a ca -> cts s n b cb -> cts s n (a + b) (pub_add P ca cb).
  Proof. intros. unfold pub_add. destruct HP as (_ & _ & _ & _ & -> & _). apply cts_add; auto. Qed.
  Lemma pub_multiply_s a c k : 0 <= k -> cts s n a c -> exists c', pub_multiply P c k = Ok c' /\ cts s n (a * k) c'.
  Proof.
    intros Hk C. unfold pub_multiply. destruct HP as (_ & _ & _ & _ & -> & _).
    rewrite mod_exp_total by lia. eexists. split; [reflexivity|]. apply cts_pow; auto.
  Qed.
End Pub.

(** ** prime parts *)
Definition pcs_ok (s : nat) (pc : prime_crypto) (p o : Z) : Prop :=
  pc_p pc = p /\ pc_s pc = s /\ pc_powers pc = get_powers p s /\
  (length (pc_precomp pc) = S s /\ precomp_ok p (p * o) (p ^ Z.of_nat (S s)) (pc_precomp pc)) /\
  eqm (p ^ Z.of_nat s) ((p - 1) * pc_lambda_inv pc) 1 /\ eqm (p ^ Z.of_nat s) (o * pc_other_inv pc) 1 /\
  (forall k, (2 <= k <= s)%nat -> (p | nth (k - 2) (pc_table pc) 0)
     /\ eqm (p ^ Z.of_nat s) (zfact k * nth (k - 2) (pc_table pc) 0) ((p * o) ^ Z.of_nat (k - 1))) /\
  ~ (p | pc_g pc) /\
  (forall r, 0 <= r -> fbe_exp (pc_fbe pc) r =
     Ok ((pc_g pc ^ ((p * o) ^ Z.of_nat s) mod p ^ Z.of_nat (S s)) ^ r mod p ^ Z.of_nat (S s))).
Lemma decrypt_precomp_spec p num s pre : (p | num) -> length pre = S s -> precomp_ok p num (p ^ Z.of_nat (S s)) pre ->
  forall cnt k l, (2 <= k)%nat -> (k + cnt = s + 1)%nat -> decrypt_precomp_loop pre (get_powers p s) s k cnt = Ok l ->
  forall i, (i < cnt)%nat -> (p | nth i l 0) /\ eqm (p ^ Z.of_nat s) (zfact (k + i) * nth i l 0) (num ^ Z.of_nat (k + i - 1)).
Proof.
  intros D L P. induction cnt as [|cnt IH]; intros k l Hk E H i Hi; [lia|]. cbn [decrypt_precomp_loop] in H.
  rewrite powers_nth in H by lia. apply obind_Ok in H as (inv & H1 & H). apply obind_Ok in H as (r & H2 & H).
  apply Ok_inj in H; subst l. apply value_Ok, mod_inverse_Ok in H1 as (Hm & _ & _ & Ei).
  destruct i as [|i]; cbn [nth].
  - rewrite Nat.add_0_r. destruct (P (k - 1)%nat) as (Dk & Ek); [lia|]. split.
    + apply divide_mod; [|exists (p ^ Z.of_nat (s - 1)); rewrite <- (Z.pow_1_r p) at 3; rewrite <- Z.pow_add_r by lia; f_equal; lia].
      apply Z.divide_mul_r. eapply Z.divide_trans; [|exact Dk].
      rewrite <- (Z.pow_1_r p) at 1. change 1 with (Z.of_nat 1). apply pow_divide. lia.
    + eapply eqm_trans; [apply eqm_mul; [apply eqm_refl|apply eqm_mod; lia]|].
      destruct k as [|k']; [lia|]. replace (S k' - 1)%nat with k' in * by lia.
      change (zfact (S k')) with (Z.of_nat (S k') * zfact k').
      replace (Z.of_nat (S k') * zfact k' * (inv * nth k' pre 0)) with ((Z.of_nat (S k') * inv) * (zfact k' * nth k' pre 0)) by ring.
      replace (num ^ Z.of_nat k') with (1 * num ^ Z.of_nat k') by ring.
      apply eqm_mul; auto. apply eqm_divide with (2 := Ek). apply pow_divide. lia.
  - replace (k + S i)%nat with (S k + i)%nat by lia. apply IH with (l := r); auto; lia.
Qed.
Lemma pc_new_s flag p o s pc : pc_new flag p o s = Ok pc -> 0 <= o -> prime p /\ Z.gcd o p = 1 /\ (0 < s)%nat /\ pcs_ok s pc p o.
Proof.
  intros H Ho. unfold pc_new in H. rewrite !powers_nth in H by lia. replace (s + 1)%nat with (S s) in H by lia.
  apply obind_Ok in H as (pre & H1 & H). apply obind_Ok in H as (li & H2 & H). apply obind_Ok in H as (oi & H3 & H).
  apply obind_Ok in H as (tb & H4 & H). apply obind_Ok in H as (g & H5 & H). apply obind_Ok in H as (base & H6 & H).
  apply obind_Ok in H as (f & H7 & H). apply Ok_inj in H; subst pc.
  unfold pcs_ok. cbn [pc_p pc_s pc_powers pc_precomp pc_lambda_inv pc_other_inv pc_g pc_fbe pc_table].
  assert (Dp : (p | p * o)) by (exists o; ring).
  apply get_precomp_spec with (b := p) in H1 as (L & Pr); auto.
  apply value_Ok, mod_inverse_Ok in H2 as (_ & _ & _ & E2).
  apply value_Ok, mod_inverse_Ok in H3 as (P & G & _ & E3). apply generator_unit in H5 as (Pp & U).
  apply mod_exp_Ok in H6 as (_ & _ & ->). assert (P1 : 1 < p) by (destruct Pp; auto).
  assert (S0 : (0 < s)%nat). { destruct s; [|lia]. change (Z.of_nat 0) with 0 in P. rewrite Z.pow_0_r in P. lia. }
  split; [auto|]. split.
  { apply Zgcd_1_rel_prime. apply Zgcd_1_rel_prime in G. apply rel_prime_sym. apply rel_prime_div with (p ^ Z.of_nat s).
    - apply rel_prime_sym. auto.
    - rewrite <- (Z.pow_1_r p) at 1. change 1 with (Z.of_nat 1). apply pow_divide. lia. }
  split; [auto|].
  repeat (split; [solve [auto]|]). split.
  { intros k Hk. unfold get_decrypt_precomp in H4.
    destruct (decrypt_precomp_spec p (p * o) s pre Dp L Pr (s - 1)%nat 2%nat tb ltac:(lia) ltac:(lia) H4 (k - 2)%nat ltac:(lia)) as (A & B).
    replace (2 + (k - 2))%nat with k in B by lia. auto. }
  split; [auto|]. intros r Hr. apply fbe_exp_spec with flag; auto. apply pow_pos'; auto.
Qed.

Section PC.
  Variables (pc : prime_crypto) (s : nat) (p o : Z).
  Hypothesis Pp : prime p.
  Hypothesis Ho : 1 < o.
  Hypothesis S0 : (0 < s)%nat.
  Hypothesis C : pcs_ok s pc p o.
  Let n := p * o.
  Let P1 : 1 < p. Proof. destruct Pp; auto. Qed.
  Let Hn : 1 < n. Proof. unfold n. nia. Qed.
  Let Pw : forall i, 0 < p ^ Z.of_nat i. Proof. intros. apply pow_pos'; auto. Qed.
  Let Dn : (p | n). Proof. exists o. unfold n. ring. Qed.

  Lemma pc_encrypt_with_rand_s m r : 0 <= r -> exists c, pc_encrypt_with_rand pc m r = Ok c /\ 0 <= c < p ^ Z.of_nat (S s) /\
    eqm (p ^ Z.of_nat (S s)) c ((1 + n) ^ (m mod n ^ Z.of_nat s) * (pc_g pc ^ r) ^ (n ^ Z.of_nat s)).
  Proof.
    intros Hr. destruct C as (E1 & E2 & E3 & (L & Pr) & _ & _ & _ & _ & E8).
    unfold pc_encrypt_with_rand. rewrite E8 by auto. cbn [obind]. rewrite E2, E3, powers_nth by lia.
    replace (s + 1)%nat with (S s) by lia. eexists. split; [reflexivity|].
    pose proof (Pw (S s)). pose proof (Pw s). split; [apply Z.mod_pos_bound; auto|]. eapply eqm_trans; [apply eqm_mod; lia|].
    pose proof (pow_pos' n s Hn). apply eqm_mul.
    - eapply eqm_trans; [apply binomial_spec with (num := n); auto|].
      pose proof (Z.mod_pos_bound m (p ^ Z.of_nat s)). pose proof (Z.mod_pos_bound m (n ^ Z.of_nat s)).
      apply one_plus_ext; auto; try lia. apply eqm_trans with m; [apply eqm_mod; lia|].
      apply eqm_sym, eqm_divide with (n ^ Z.of_nat s); [|apply eqm_mod; lia].
      exists (o ^ Z.of_nat s). unfold n. rewrite Z.pow_mul_l. ring.
    - eapply eqm_trans; [apply eqm_mod; lia|]. eapply eqm_trans; [apply eqm_pow; [auto|apply eqm_mod; lia]|].
      fold n. rewrite <- !Z.pow_mul_r by lia. rewrite (Z.mul_comm (n ^ Z.of_nat s) r). apply eqm_refl.
  Qed.

  (** the value extracted by the loops of Decrypt *)
  Lemma ff_eqm N a b : eqm N a b -> forall k, eqm N (ff a k) (ff b k).
  Proof. intros E. induction k as [|k IH]; cbn [ff]; [apply eqm_refl|]. apply eqm_mul; auto. apply eqm_sub; [auto|apply eqm_refl]. Qed.
  Let T k := nth (k - 2) (pc_table pc) 0.
  Lemma inner_loop_s (M : nat) j : (1 <= j <= s)%nat -> forall cnt k a ml t1 t2,
    (2 <= k)%nat -> (k + cnt = j + 1)%nat -> eqm (p ^ Z.of_nat (j - 1)) a (Z.of_nat M) ->
    ml = a - Z.of_nat (k - 2) -> eqm (p ^ Z.of_nat (j - 1)) t2 (ff a (k - 1)) ->
    eqm (p ^ Z.of_nat j) (inner_loop pc j (seq k cnt) ml t1 t2)
      (t1 - zsum (fun i => binom M i * n ^ Z.of_nat (i - 1)) j + zsum (fun i => binom M i * n ^ Z.of_nat (i - 1)) (k - 1)).
  Proof.
    intros Hj. destruct C as (E1 & E2 & E3 & _ & _ & _ & E7 & _).
    induction cnt as [|cnt IH]; intros k a ml t1 t2 Hk Ek Ea Em Et; cbn [seq inner_loop].
    - replace (k - 1)%nat with j by lia. replace (t1 - _ + _) with t1 by lia. apply eqm_refl.
    - rewrite E3, !powers_nth by lia.
      set (t2' := t2 * (ml - 1) mod p ^ Z.of_nat j).
      assert (Et' : eqm (p ^ Z.of_nat (j - 1)) t2' (ff a k)).
      { unfold t2'. pose proof (Pw j). eapply eqm_trans; [apply eqm_mod_div; [lia|apply pow_divide; lia]|].
        replace (ff a k) with (ff a (k - 1) * (ml - 1)); [apply eqm_mul; [auto|apply eqm_refl]|].
        destruct k as [|k']; [lia|]. cbn [ff]. replace (S k' - 1)%nat with k' by lia. subst ml. f_equal. lia. }
      assert (Et2 : eqm (p ^ Z.of_nat (j - 1)) t2' (ff a (S k - 1))) by (replace (S k - 1)%nat with k by lia; auto).
      rewrite <- E3 at 1. eapply eqm_trans; [apply (IH (S k) a (ml - 1) _ t2' ltac:(lia) ltac:(lia) Ea ltac:(lia) Et2)|].
      replace (S k - 1)%nat with (S (k - 1)) by lia. cbn [zsum]. replace (S (k - 1)) with k by lia.
      assert (K : eqm (p ^ Z.of_nat j) (t2' * precomp_at (pc_table pc) (get_powers p s) k j) (binom M k * n ^ Z.of_nat (k - 1))).
      { destruct (E7 k) as (D & F); [lia|]. fold (T k) in D, F. unfold precomp_at. rewrite powers_nth by lia. fold (T k).
        pose proof (Pw j). eapply eqm_trans; [apply eqm_mul; [apply eqm_refl|apply eqm_mod; lia]|].
        assert (K : eqm (p ^ Z.of_nat (j - 1) * p) (t2' * T k) (ff (Z.of_nat M) k * T k)).
        { apply eqm_times_divisible; auto. eapply eqm_trans; [exact Et'|]. apply ff_eqm; auto. }
        replace (p ^ Z.of_nat (j - 1) * p) with (p ^ Z.of_nat j) in K.
        - eapply eqm_trans; [exact K|]. rewrite <- binom_fact, <- Z.mul_assoc. apply eqm_mul; [apply eqm_refl|].
          apply eqm_divide with (2 := F). apply pow_divide. lia.
        - replace j with (S (j - 1)) at 1 by lia. rewrite Nat2Z.inj_succ, Z.pow_succ_r by lia. ring. }
      destruct K as (w & K). rewrite E3 in *. exists (- w). lia.
  Qed.
  Lemma outer_loop_s (M : nat) lu :
    eqm (p ^ Z.of_nat s) lu (zsum (fun i => binom M (S i) * n ^ Z.of_nat i) (s - 1)) ->
    eqm (p ^ Z.of_nat s) (outer_loop pc lu) (Z.of_nat M).
  Proof.
    intros El. pose proof C as (E1 & E2 & E3 & _ & _ & _ & E7 & _).
    unfold outer_loop. rewrite E2.
    assert (G : forall cnt j ml, (j + cnt = s + 1)%nat -> (1 <= j)%nat -> eqm (p ^ Z.of_nat (j - 1)) ml (Z.of_nat M) ->
      eqm (p ^ Z.of_nat s) (fold_left (fun ml j => inner_loop pc j (seq 2 (j - 1)) ml (lu mod nth j (pc_powers pc) 0) ml) (seq j cnt) ml) (Z.of_nat M)).
    { induction cnt as [|cnt IH]; intros j ml Hj J1 Em; cbn [seq fold_left].
      - replace (j - 1)%nat with s in Em by lia. exact Em.
      - apply IH; [lia|lia|]. replace (S j - 1)%nat with j by lia. rewrite E3, powers_nth by lia.
        pose proof (Pw j).
        eapply eqm_trans; [apply (inner_loop_s M j ltac:(lia) (j - 1) 2 ml); try lia; auto; cbn [Nat.sub ff]|].
        + change (Z.of_nat 0) with 0. replace (1 * (ml - 0)) with ml by lia. apply eqm_refl.
        + change (2 - 1)%nat with 1%nat. cbn [zsum]. rewrite !binom_0.
          destruct j as [|j']; [lia|]. rewrite zsum_shift.
          assert (K : eqm (p ^ Z.of_nat (S j')) (lu mod p ^ Z.of_nat (S j')) (zsum (fun i => binom M (S i) * n ^ Z.of_nat i) j')).
          { eapply eqm_trans; [apply eqm_mod; lia|].
            eapply eqm_trans; [apply eqm_divide with (2 := El); apply pow_divide; lia|].
            apply zsum_cut; [lia|]. intros i Hi. exists (binom M (S i) * p ^ Z.of_nat (i - S j') * o ^ Z.of_nat i).
            unfold n. rewrite Z.pow_mul_l. replace (Z.of_nat i) with (Z.of_nat (i - S j') + Z.of_nat (S j')) at 1 by lia.
            rewrite Z.pow_add_r by lia. ring. }
          rewrite (zsum_ext (fun i => binom M (S i) * n ^ Z.of_nat (S i - 1)) (fun i => binom M (S i) * n ^ Z.of_nat i)).
          2:{ intros i _. replace (S i - 1)%nat with i by lia. reflexivity. }
          destruct K as (w & K). exists w. rewrite binom_0. cbn [Nat.sub]. change (Z.of_nat 0) with 0. rewrite Z.pow_0_r.
          assert (B1 : binom M 1 = Z.of_nat M).
          { pose proof (binom_fact M 1) as B. cbn [zfact ff] in B. change (Z.of_nat 1) with 1 in B. change (Z.of_nat 0) with 0 in B. lia. }
          rewrite B1. lia. }
    apply G; try lia. cbn [Nat.sub]. change (Z.of_nat 0) with 0. rewrite Z.pow_0_r. exists (0 - Z.of_nat M). lia.
  Qed.
  Lemma unit_power u : ~ (p | u) -> eqm (p ^ Z.of_nat (S s)) (u ^ (n ^ Z.of_nat s * (p - 1))) 1.
  Proof.
    intros Hu. unfold n. rewrite Z.pow_mul_l. pose proof (Pw s). assert (0 < o ^ Z.of_nat s) by (apply pow_pos'; auto).
    replace (p ^ Z.of_nat s * o ^ Z.of_nat s * (p - 1)) with ((p - 1) * p ^ Z.of_nat s * o ^ Z.of_nat s) by ring.
    rewrite Z.pow_mul_r, Z.pow_mul_r by nia.
    eapply eqm_trans; [apply eqm_pow; [lia|apply pow_lift_s with (y := 1); [lia|apply fermat; auto]]|].
    rewrite !Z.pow_1_l by lia. apply eqm_refl.
  Qed.
  Lemma pc_decrypt_s m c u : 0 <= m -> ~ (p | u) ->
    eqm (p ^ Z.of_nat (S s)) c ((1 + n) ^ m * u ^ (n ^ Z.of_nat s)) ->
    pc_decrypt pc c = Ok (m mod p ^ Z.of_nat s).
  Proof.
    intros Hm Hu Ec. pose proof C as (E1 & E2 & E3 & _ & E5 & E6 & E7 & _).
    unfold pc_decrypt. rewrite E1, E2, E3, !powers_nth by lia. replace (s + 1)%nat with (S s) by lia.
    pose proof (Pw s). pose proof (Pw (S s)). pose proof (pow_pos' n s Hn).
    rewrite mod_exp_total by lia. cbn [obind].
    set (x := c ^ (p - 1) mod p ^ Z.of_nat (S s)). set (M := Z.to_nat ((p - 1) * m)).
    assert (Mz : Z.of_nat M = (p - 1) * m) by (unfold M; rewrite Z2Nat.id; nia).
    assert (X : eqm (p ^ Z.of_nat (S s)) x (bsum n M s)).
    { apply eqm_trans with ((1 + n) ^ Z.of_nat M); [|apply binomial_mod; auto].
      unfold x. eapply eqm_trans; [apply eqm_mod; lia|].
      eapply eqm_trans; [apply eqm_pow; [lia|exact Ec]|]. rewrite Z.pow_mul_l, <- !Z.pow_mul_r by lia.
      rewrite <- (Z.mul_1_r ((1 + n) ^ Z.of_nat M)). rewrite Mz, (Z.mul_comm m). apply eqm_mul; [apply eqm_refl|]. apply unit_power; auto. }
    assert (Sum : bsum n M s = 1 + p * (o * zsum (fun i => binom M (S i) * n ^ Z.of_nat i) (s - 1))).
    { unfold bsum. destruct s as [|s']; [lia|]. rewrite zsum_shift. cbn [Nat.sub]. rewrite Nat.sub_0_r, binom_0.
      change (Z.of_nat 0) with 0. rewrite Z.pow_0_r, Z.mul_1_r. f_equal.
      rewrite <- !zsum_mul. apply zsum_ext. intros i _. rewrite Nat2Z.inj_succ, Z.pow_succ_r by lia. unfold n. ring. }
    set (Q := zsum (fun i => binom M (S i) * n ^ Z.of_nat i) (s - 1)) in *.
    assert (D : exists l, x - 1 = l * p /\ eqm (p ^ Z.of_nat s) l (o * Q)).
    { destruct X as (k & X). exists (o * Q + k * p ^ Z.of_nat s).
      rewrite Nat2Z.inj_succ, Z.pow_succ_r in X by lia. split; [nia|]. exists k. lia. }
    destruct D as (l & Dl & El). unfold bn_div. rewrite Dl.
    destruct (Z.eqb_spec p 0); [lia|]. rewrite Z.rem_mul, Z.quot_mul by lia. cbn [Z.eqb obind]. f_equal.
    apply eqm_iff; [lia|]. 
    eapply eqm_trans; [apply eqm_mul; [apply outer_loop_s with (M := M)|apply eqm_refl]|].
    - eapply eqm_trans; [apply eqm_mod; lia|]. eapply eqm_trans; [apply eqm_mul; [exact El|apply eqm_refl]|].
      replace (o * Q * pc_other_inv pc) with (o * pc_other_inv pc * Q) by ring.
      eapply eqm_trans; [apply eqm_mul; [exact E6|apply eqm_refl]|]. rewrite Z.mul_1_l. apply eqm_refl.
    - rewrite Mz. replace ((p - 1) * m * pc_lambda_inv pc) with ((p - 1) * pc_lambda_inv pc * m) by ring.
      eapply eqm_trans; [apply eqm_mul; [exact E5|apply eqm_refl]|]. rewrite Z.mul_1_l. apply eqm_refl.
  Qed.
End PC.

(** ** private objects *)
Lemma priv_new_s flag p q s V : priv_new flag p q s = Ok V ->
  prime p /\ prime q /\ p <> q /\ (0 < s)%nat /\ pv_n V = p * q /\ pv_ns V = (p * q) ^ Z.of_nat s /\
  pv_ns1 V = (p * q) ^ Z.of_nat (S s) /\
  pcs_ok s (pv_p V) p q /\ pcs_ok s (pv_q V) q p /\
  crt_new (p ^ Z.of_nat (S s)) (q ^ Z.of_nat (S s)) = Ok (pv_enc V) /\ crt_new (p ^ Z.of_nat s) (q ^ Z.of_nat s) = Ok (pv_dec V).
Proof.
  unfold priv_new. intros H. apply obind_Ok in H as (pc & H1 & H). apply obind_Ok in H as (qc & H2 & H).
  apply obind_Ok in H as (e & H3 & H). apply obind_Ok in H as (d & H4 & H).
  apply Ok_inj in H; subst V. cbn [pv_n pv_ns pv_ns1 pv_p pv_q pv_enc pv_dec].
  assert (Pp : prime p).
  { unfold pc_new in H1. do 4 (apply obind_Ok in H1 as (? & _ & H1)). apply obind_Ok in H1 as (? & G & _). apply generator_unit in G. tauto. }
  assert (Pq : prime q).
  { unfold pc_new in H2. do 4 (apply obind_Ok in H2 as (? & _ & H2)). apply obind_Ok in H2 as (? & G & _). apply generator_unit in G. tauto. }
  assert (1 < p) by (destruct Pp; auto). assert (1 < q) by (destruct Pq; auto).
  apply pc_new_s in H1 as (_ & G1 & S0 & C1); [|lia]. apply pc_new_s in H2 as (_ & G2 & _ & C2); [|lia].
  pose proof C1 as (_ & _ & A3 & _). pose proof C2 as (_ & _ & B3 & _).
  rewrite A3, B3, !powers_nth in H3, H4 by lia. replace (s + 1)%nat with (S s) in H3 by lia.
  assert (p <> q). { intros ->. rewrite Z.gcd_diag, Z.abs_eq in G1 by lia. lia. }
  repeat (split; [solve [auto | rewrite Nat2Z.inj_succ, Z.pow_succ_r by lia; ring]|]). auto.
Qed.
Section Priv.
  Variables (V : priv) (s : nat) (p q : Z).
  Hypothesis HV : exists flag, priv_new flag p q s = Ok V.
  Let n := p * q.

  Lemma priv_decrypt_s m c : cts s n m c -> priv_decrypt V c = Ok (m mod n ^ Z.of_nat s).
  Proof.
    destruct HV as (flag & H). apply priv_new_s in H as (Pp & Pq & Npq & S0 & _ & V1 & V2 & Cp & Cq & Ce & Cd).
    assert (p1 : 1 < p) by (destruct Pp; auto). assert (q1 : 1 < q) by (destruct Pq; auto).
    assert (n1 : 1 < n) by (unfold n; nia). pose proof (pow_pos' n s n1). pose proof (pow_pos' p s p1). pose proof (pow_pos' q s q1).
    intros (Hc & u & Ru & Eu). unfold priv_decrypt. rewrite V2. fold n.
    destruct (Z.ltb_spec c 0); [lia|]. destruct (Z.leb_spec (n ^ Z.of_nat (S s)) c); [lia|].
    assert (Rp : rel_prime u p). { apply rel_prime_sym. apply rel_prime_div with n; [apply rel_prime_sym; auto|exists q; unfold n; lia]. }
    assert (Rq : rel_prime u q). { apply rel_prime_sym. apply rel_prime_div with n; [apply rel_prime_sym; auto|exists p; unfold n; lia]. }
    pose proof (Z.mod_pos_bound m (n ^ Z.of_nat s)).
    rewrite (pc_decrypt_s (pv_p V) s p q Pp q1 S0 Cp (m mod n ^ Z.of_nat s) c u); [|lia|apply rel_prime_ndiv; auto|].
    - cbn [obind]. rewrite (pc_decrypt_s (pv_q V) s q p Pq p1 S0 Cq (m mod n ^ Z.of_nat s) c u); [|lia|apply rel_prime_ndiv; auto|].
      + cbn [obind]. f_equal.
        destruct (crt_spec _ _ _ (m mod n ^ Z.of_nat s mod p ^ Z.of_nat s) (m mod n ^ Z.of_nat s mod q ^ Z.of_nat s) Cd) as (_ & _ & R & _ & Hr & X1 & X2).
        assert (En : n ^ Z.of_nat s = p ^ Z.of_nat s * q ^ Z.of_nat s) by (unfold n; apply Z.pow_mul_l).
        rewrite <- En in Hr. apply eqm_small with (n ^ Z.of_nat s); [auto|lia|]. replace (n ^ Z.of_nat s) with (p ^ Z.of_nat s * q ^ Z.of_nat s) at 1.
        apply eqm_combine; auto; [eapply eqm_trans; [exact X1|]|eapply eqm_trans; [exact X2|]]; apply eqm_mod; lia.
      + rewrite (Z.mul_comm q p). fold n. apply eqm_divide with (2 := Eu).
        exists (p ^ Z.of_nat (S s)). unfold n. apply Z.pow_mul_l.
    - fold n. apply eqm_divide with (2 := Eu). exists (q ^ Z.of_nat (S s)). unfold n. rewrite Z.pow_mul_l. ring.
  Qed.
  Lemma priv_decrypt_range_s c : c < 0 \/ n ^ Z.of_nat (S s) <= c -> priv_decrypt V c = Err InvalidArgument.
  Proof.
    destruct HV as (flag & H). apply priv_new_s in H as (_ & _ & _ & _ & _ & _ & V2 & _).
    intros H. unfold priv_decrypt. rewrite V2. fold n. destruct (Z.ltb_spec c 0); auto.
    destruct (Z.leb_spec (n ^ Z.of_nat (S s)) c); auto. lia.
  Qed.
  Lemma combine_cts m cp cq up uq :
    ~ (p | up) -> ~ (q | uq) ->
    eqm (p ^ Z.of_nat (S s)) cp ((1 + n) ^ (m mod n ^ Z.of_nat s) * up ^ (n ^ Z.of_nat s)) ->
    eqm (q ^ Z.of_nat (S s)) cq ((1 + n) ^ (m mod n ^ Z.of_nat s) * uq ^ (n ^ Z.of_nat s)) ->
    forall u, eqm p u up -> eqm q u uq ->
    cts s n m (crt_compute (pv_enc V) cp cq)
    /\ rel_prime u n /\ eqm (n ^ Z.of_nat (S s)) (crt_compute (pv_enc V) cp cq) ((1 + n) ^ (m mod n ^ Z.of_nat s) * u ^ (n ^ Z.of_nat s)).
  Proof.
    destruct HV as (flag & H). apply priv_new_s in H as (Pp & Pq & Npq & S0 & _ & V1 & V2 & Cp & Cq & Ce & Cd).
    assert (p1 : 1 < p) by (destruct Pp; auto). assert (q1 : 1 < q) by (destruct Pq; auto).
    pose proof (pow_pos' p s p1). pose proof (pow_pos' q s q1).
    intros Up Uq Ep Eq u E1 E2.
    destruct (crt_spec _ _ _ cp cq Ce) as (_ & _ & R & _ & Hr & X1 & X2).
    assert (Ru : rel_prime u n).
    { unfold n. apply rel_prime_sym, rel_prime_sym. apply rel_prime_mult.
      - apply rel_prime_sym, prime_rel; auto. apply eqm_ndiv with up; auto.
      - apply rel_prime_sym, prime_rel; auto. apply eqm_ndiv with uq; auto. }
    assert (En1 : n ^ Z.of_nat (S s) = p ^ Z.of_nat (S s) * q ^ Z.of_nat (S s)) by (unfold n; apply Z.pow_mul_l).
    assert (En : n ^ Z.of_nat s = p ^ Z.of_nat s * q ^ Z.of_nat s) by (unfold n; apply Z.pow_mul_l).
    assert (E : eqm (n ^ Z.of_nat (S s)) (crt_compute (pv_enc V) cp cq) ((1 + n) ^ (m mod n ^ Z.of_nat s) * u ^ (n ^ Z.of_nat s))).
    { rewrite En1. apply eqm_combine; auto.
      - eapply eqm_trans; [exact X1|]. eapply eqm_trans; [exact Ep|]. apply eqm_mul; [apply eqm_refl|].
        rewrite En, !(Z.pow_mul_r _ (p ^ Z.of_nat s)) by lia. apply eqm_pow; [lia|]. apply pow_lift_s; [lia|]. apply eqm_sym; auto.
      - eapply eqm_trans; [exact X2|]. eapply eqm_trans; [exact Eq|]. apply eqm_mul; [apply eqm_refl|].
        rewrite En, (Z.mul_comm (p ^ Z.of_nat s)), !(Z.pow_mul_r _ (q ^ Z.of_nat s)) by lia. apply eqm_pow; [lia|].
        apply pow_lift_s; [lia|]. apply eqm_sym; auto. }
    split; [|auto]. split; [rewrite En1; auto|eauto].
  Qed.
  Lemma priv_encrypt_s m t :
    (m < 0 \/ n ^ Z.of_nat s <= m -> priv_encrypt V m t = Err InvalidArgument)
    /\ (0 <= m < n ^ Z.of_nat s -> exists c t', priv_encrypt V m t = Ok (c, t') /\ cts s n m c).
  Proof.
    destruct HV as (flag & HH). apply priv_new_s in HH as (Pp & Pq & Npq & S0 & _ & V1 & V2 & Cp & Cq & Ce & Cd).
    assert (p1 : 1 < p) by (destruct Pp; auto). assert (q1 : 1 < q) by (destruct Pq; auto).
    assert (Gpq : rel_prime p q) by (apply prime_rel_distinct; auto).
    unfold priv_encrypt. rewrite V1. fold n.
    split; intros H; destruct (Z.ltb_spec m 0), (Z.leb_spec (n ^ Z.of_nat s) m); try reflexivity; try lia.
    pose proof Cp as (A1 & _ & _ & _ & _ & _ & _ & A8 & _). pose proof Cq as (B1 & _ & _ & _ & _ & _ & _ & B8 & _).
    unfold pc_encrypt. rewrite A1, B1. unfold bind, rand_between, bind, rand_less_than, ret, lift.
    destruct (Z.ltb_spec 1 p); [|lia]. destruct (Z.ltb_spec 0 (p - 1)); [|lia].
    pose proof (Z.mod_pos_bound (t O) (p - 1) ltac:(lia)).
    destruct (pc_encrypt_with_rand_s (pv_p V) s p q Pp q1 S0 Cp m (t O mod (p - 1) + 1)) as (cp & Ep & _ & Xp); [lia|].
    rewrite Ep. destruct (Z.ltb_spec 1 q); [|lia]. destruct (Z.ltb_spec 0 (q - 1)); [|lia].
    pose proof (Z.mod_pos_bound (tl_tape t O) (q - 1) ltac:(lia)).
    destruct (pc_encrypt_with_rand_s (pv_q V) s q p Pq p1 S0 Cq m (tl_tape t O mod (q - 1) + 1)) as (cq & Eq & _ & Xq); [lia|].
    rewrite Eq. eexists _, _. split; [reflexivity|].
    rewrite (Z.mul_comm q p) in Xq.
    destruct (crt_total p q p1 q1 Gpq) as (cr & Cr).
    destruct (crt_spec p q _ (pc_g (pv_p V) ^ (t O mod (p - 1) + 1)) (pc_g (pv_q V) ^ (tl_tape t O mod (q - 1) + 1)) Cr)
      as (_ & _ & _ & _ & _ & Y1 & Y2).
    destruct (combine_cts m cp cq _ _ (ndiv_pow _ _ (t O mod (p - 1) + 1) Pp ltac:(lia) A8)
        (ndiv_pow _ _ (tl_tape t O mod (q - 1) + 1) Pq ltac:(lia) B8) Xp Xq _ Y1 Y2) as (C & _). exact C.
  Qed.
  Lemma privr_s flag m t c r t' : privr_encrypt_get_rand flag V m t = Ok ((c, r), t') ->
    0 <= m < n ^ Z.of_nat s /\ cts s n m c /\ rel_prime r n /\ 0 <= r < n /\
    eqm (n ^ Z.of_nat (S s)) c ((1 + n) ^ (m mod n ^ Z.of_nat s) * r ^ (n ^ Z.of_nat s)).
  Proof.
    destruct HV as (fl & HH). apply priv_new_s in HH as (Pp & Pq & Npq & S0 & _ & V1 & V2 & Cp & Cq & Ce & Cd).
    assert (p1 : 1 < p) by (destruct Pp; auto). assert (q1 : 1 < q) by (destruct Pq; auto).
    pose proof Cp as (A1 & A2 & A3 & _ & _ & _ & _ & A8 & _). pose proof Cq as (B1 & B2 & B3 & _ & _ & _ & _ & B8 & _).
    unfold privr_encrypt_get_rand. rewrite A2, A3, B2, B3, !powers_nth by lia. rewrite V1. fold n.
    replace (s + 1)%nat with (S s) by lia. change (Z.of_nat 1) with 1. rewrite !Z.pow_1_r.
    intros H. apply bind_Ok in H as (rp & t1 & H1 & H). apply lift_Ok in H1 as (H1 & ->).
    apply bind_Ok in H as (rq & t2 & H2 & H). apply lift_Ok in H2 as (H2 & ->).
    apply bind_Ok in H as (cr & t3 & H3 & H). apply lift_Ok in H3 as (H3 & ->).
    destruct (Z.ltb_spec m 0) as [|L0]; [discriminate|]. destruct (Z.leb_spec (n ^ Z.of_nat s) m) as [|L1]; [discriminate|].
    apply bind_Ok in H as ([cp ep] & t4 & Hp & H). apply bind_Ok in H as ([cq eq] & t5 & Hq & H).
    apply ret_Ok in H as (H & ->). cbn [fst snd] in H. injection H as -> ->.
    unfold pcr_encrypt_get_rand in Hp, Hq. rewrite A1 in Hp. rewrite B1 in Hq.
    apply bind_Ok in Hp as (sp & u1 & Dp & Hp). apply rand_between_range in Dp.
    apply bind_Ok in Hp as (x1 & u2 & Kp & Hp). apply lift_Ok in Kp as (Kp & ->).
    apply bind_Ok in Hp as (x2 & u3 & Fp & Hp). apply lift_Ok in Fp as (Fp & ->). apply ret_Ok in Hp as (Hp & _). inversion Hp; subst x1 x2; clear Hp.
    apply bind_Ok in Hq as (sq & w1 & Dq & Hq). apply rand_between_range in Dq.
    apply bind_Ok in Hq as (x1 & w2 & Kq & Hq). apply lift_Ok in Kq as (Kq & ->).
    apply bind_Ok in Hq as (x2 & w3 & Fq & Hq). apply lift_Ok in Fq as (Fq & ->). apply ret_Ok in Hq as (Hq & _). inversion Hq; subst x1 x2; clear Hq.
    destruct (pc_encrypt_with_rand_s (pv_p V) s p q Pp q1 S0 Cp m sp) as (cp' & Ep & _ & Xp); [lia|].
    destruct (pc_encrypt_with_rand_s (pv_q V) s q p Pq p1 S0 Cq m sq) as (cq' & Eq & _ & Xq); [lia|].
    rewrite Ep in Kp. inversion Kp; subst cp'. rewrite Eq in Kq. inversion Kq; subst cq'. clear Kp Kq.
    rewrite (Z.mul_comm q p) in Xq.
    rewrite (fbe_exp_spec _ _ _ _ sp H1) in Fp by (try lia; apply pow_pos'; auto).
    rewrite (fbe_exp_spec _ _ _ _ sq H2) in Fq by (try lia; apply pow_pos'; auto).
    inversion Fp; subst ep. inversion Fq; subst eq. clear Fp Fq.
    match type of H3 with _ => 
    destruct (crt_spec p q cr (pc_g (pv_p V) ^ sp mod p ^ Z.of_nat (S s)) (pc_g (pv_q V) ^ sq mod q ^ Z.of_nat (S s)) H3) as (_ & _ & _ & _ & RR & Y1 & Y2) end.
    split; [lia|].
    destruct (combine_cts m cp cq _ _ (ndiv_pow _ _ sp Pp ltac:(lia) A8) (ndiv_pow _ _ sq Pq ltac:(lia) B8) Xp Xq
       (crt_compute cr (pc_g (pv_p V) ^ sp mod p ^ Z.of_nat (S s)) (pc_g (pv_q V) ^ sq mod q ^ Z.of_nat (S s)))) as (C1 & C2 & C3).
    - eapply eqm_trans; [exact Y1|]. apply eqm_divide with (p ^ Z.of_nat (S s)).
      + rewrite <- (Z.pow_1_r p) at 1. change 1 with (Z.of_nat 1). apply pow_divide. lia.
      + apply eqm_mod. pose proof (pow_pos' p (S s) p1). lia.
    - eapply eqm_trans; [exact Y2|]. apply eqm_divide with (q ^ Z.of_nat (S s)).
      + rewrite <- (Z.pow_1_r q) at 1. change 1 with (Z.of_nat 1). apply pow_divide. lia.
      + apply eqm_mod. pose proof (pow_pos' q (S s) q1). lia.
    - auto.
  Qed.
End Priv.
