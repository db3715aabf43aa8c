(** * Proofs about Montgomery arithmetic. *)
Require Import List Arith Lia ZArith Znumtheory Bool.
Import ListNotations.
From Verif Require Import Prelude NumTheory BytesModel BytesProofs PaillierModel PaillierProofs MontModel.
Local Open Scope Z_scope.

Definition odd_modulus (m : Z) : Prop := 0 < m /\ Z.odd m = true.

Section Mont.
  Variable m : Z.
  Hypothesis Hm : odd_modulus m.
  Let r := radix m.
  Let ri := inv_mod (radix m) m.

  Lemma pos : 0 < m. Proof. apply Hm. Qed.
  Lemma gcd_radix : Z.gcd (radix m) m = 1.
  Proof.
    unfold radix. assert (L : 0 <= 64 * limbs m).
    { unfold limbs. pose proof (Z.log2_nonneg m). pose proof (Z.div_pos (Z.log2 m) 64). lia. }
    apply Zgcd_1_rel_prime. apply rel_prime_pow; auto. apply Zgcd_1_rel_prime.
    destruct Hm as (P & O). apply Zodd_bool_iff in O. apply Zodd_ex in O as (k & E).
    rewrite E. rewrite Z.add_comm, Z.mul_comm, Z.gcd_add_mult_diag_r. reflexivity.
  Qed.
  Lemma radix_inv : eqm m (r * ri) 1.
  Proof.
    unfold r, ri. destruct (Z.eq_dec m 1) as [E|N].
    - rewrite E. unfold eqm. apply Z.divide_1_l.
    - apply inv_mod_eqm; [pose proof pos; lia|]. apply gcd_radix.
  Qed.

  Lemma cancel_radix x : eqm m (x * (r * ri)) x.
  Proof.
    destruct radix_inv as (k & E). exists (x * k). fold r ri in E. replace (x * (r * ri) - x) with (x * (r * ri - 1)) by ring.
    rewrite E. ring.
  Qed.
  (** [a] is the Montgomery form of [x] *)
  Definition form (a x : Z) : Prop := 0 <= a < m /\ eqm m a (x * r).
  Lemma mul_mont_form a b x y : form a x -> form b y ->
    exists c, mul_montgomery m a b = Ok c /\ form c (x * y).
  Proof.
    intros (A1 & A2) (B1 & B2). unfold mul_montgomery.
    destruct (Z.ltb_spec a 0), (Z.ltb_spec b 0); try lia. cbn [orb].
    destruct (Z.leb_spec m a), (Z.leb_spec m b); try lia. cbn [orb].
    eexists; split; [reflexivity|]. split; [apply Z.mod_pos_bound, pos|].
    eapply eqm_trans; [apply eqm_mod; pose proof pos; lia|]. fold ri. fold r.
    eapply eqm_trans; [apply eqm_mul; [apply eqm_mul; [exact A2|exact B2]|apply eqm_refl]|].
    replace (x * r * (y * r) * ri) with (x * y * r * (r * ri)) by ring. apply cancel_radix.
  Qed.
  Lemma form_unique a b x y : form a x -> form b y -> (a = b <-> x mod m = y mod m).
  Proof.
    intros (A1 & A2) (B1 & B2). split; intros H.
    - apply eqm_iff; [pose proof pos; lia|]. rewrite <- H in B2.
      assert (C : eqm m (x * r) (y * r)) by (eapply eqm_trans; [apply eqm_sym, A2|exact B2]).
      apply eqm_cancel with r. { apply rel_prime_sym, Zgcd_1_rel_prime, gcd_radix. }
      rewrite (Z.mul_comm r x), (Z.mul_comm r y). exact C.
    - apply eqm_iff in H; [|pose proof pos; lia]. apply eqm_small with m; auto.
      eapply eqm_trans; [exact A2|]. eapply eqm_trans; [|apply eqm_sym, B2].
      apply eqm_mul; [exact H|apply eqm_refl].
  Qed.
  Lemma to_mont_form x : 0 <= x < m -> exists a, to_montgomery m x = Ok a /\ form a x.
  Proof.
    intros Hx. unfold to_montgomery, mul_montgomery.
    pose proof (Z.mod_pos_bound (radix m * radix m) m pos) as B.
    destruct (Z.ltb_spec x 0); try lia. destruct (Z.ltb_spec (radix m * radix m mod m) 0); try lia. cbn [orb].
    destruct (Z.leb_spec m x); try lia. destruct (Z.leb_spec m (radix m * radix m mod m)); try lia. cbn [orb].
    eexists; split; [reflexivity|]. split; [apply Z.mod_pos_bound, pos|].
    eapply eqm_trans; [apply eqm_mod; pose proof pos; lia|]. fold ri. fold r.
    eapply eqm_trans; [apply eqm_mul; [apply eqm_mul; [apply eqm_refl|apply eqm_mod; pose proof pos; lia]|apply eqm_refl]|].
    replace (x * (r * r) * ri) with (x * r * (r * ri)) by ring. apply cancel_radix.
  Qed.
  Lemma from_mont_form a x : form a x -> from_montgomery m a = Ok (x mod m).
  Proof.
    intros (A1 & A2). unfold from_montgomery. destruct (Z.ltb_spec a 0); [lia|].
    destruct (Z.leb_spec m a); [lia|]. f_equal. apply eqm_iff; [pose proof pos; lia|]. fold ri.
    eapply eqm_trans; [apply eqm_mul; [exact A2|apply eqm_refl]|].
    rewrite <- Z.mul_assoc. apply cancel_radix.
  Qed.
  Lemma square_loop_form k : forall a x, form a x ->
    exists c, square_loop k m a = Ok c /\ form c (x ^ (2 ^ Z.of_nat k)).
  Proof.
    induction k as [|k IH]; intros a x F; cbn [square_loop].
    - exists a. split; [reflexivity|]. change (2 ^ Z.of_nat 0) with 1. rewrite Z.pow_1_r. exact F.
    - destruct (mul_mont_form a a x x F F) as (c & -> & G). cbn [obind].
      destruct (IH c _ G) as (d & -> & K). exists d. split; [reflexivity|].
      replace (x ^ 2 ^ Z.of_nat (S k)) with ((x * x) ^ 2 ^ Z.of_nat k); [exact K|].
      rewrite Nat2Z.inj_succ, Z.pow_succ_r by lia. rewrite <- Z.pow_2_r.
      rewrite <- Z.pow_mul_r by lia. reflexivity.
  Qed.

  (** [v] lives in context [c] of modulus [m] and represents [x] *)
  Definition stands (c : nat) (v : mont) (x : Z) : Prop := mn_ctx v = mkMontCtx c m /\ form (mn_bn v) x.

  Lemma context_ok c : mont_context c m = Ok (mkMontCtx c m).
  Proof.
    unfold mont_context. destruct Hm as (P & O). rewrite <- Z.negb_odd, O.
    destruct (Z.leb_spec m 0); [lia|]. reflexivity.
  Qed.
  Lemma create_stands c x : 0 <= x < m ->
    exists v, mont_create (mkMontCtx c m) x = Ok v /\ stands c v x.
  Proof.
    intros Hx. unfold mont_create. cbn [mc_mod]. destruct (Z.ltb_spec x m); [|lia]. cbn [negb].
    destruct (to_mont_form x Hx) as (a & -> & F). cbn [obind]. eexists; split; [reflexivity|]. split; auto.
  Qed.
  Lemma mul_stands c v w x y : stands c v x -> stands c w y ->
    exists u, mont_mul_in_place v w = Ok u /\ stands c u (x * y).
  Proof.
    intros (V1 & V2) (W1 & W2). unfold mont_mul_in_place. rewrite V1, W1. cbn [mc_id mc_mod].
    rewrite Nat.eqb_refl. cbn [negb]. destruct (mul_mont_form _ _ _ _ V2 W2) as (a & -> & F).
    cbn [obind]. eexists; split; [reflexivity|]. split; auto.
  Qed.
  Lemma mul_mixed c d v w x y : stands c v x -> stands d w y -> c <> d -> mont_mul_in_place v w = Abort.
  Proof.
    intros (V1 & _) (W1 & _) N. unfold mont_mul_in_place. rewrite V1, W1. cbn [mc_id].
    destruct (Nat.eqb_spec d c); [congruence|]. reflexivity.
  Qed.
  Lemma pow2_stands c v x k : stands c v x -> 0 <= k ->
    exists u, mont_pow2 v k = Ok u /\ stands c u (x ^ (2 ^ k)).
  Proof.
    intros (V1 & V2) Hk. unfold mont_pow2. destruct (Z.ltb_spec k 0); [lia|]. rewrite V1. cbn [mc_mod].
    destruct (square_loop_form (Z.to_nat k) _ _ V2) as (a & -> & F). rewrite Z2Nat.id in F by lia.
    cbn [obind]. eexists; split; [reflexivity|]. split; auto.
  Qed.
  Lemma bytes_stands c d v x : stands c v x ->
    stands d (mont_create_bytes (mkMontCtx d m) (mont_to_bytes v)) x.
  Proof.
    intros (V1 & V2). split; [reflexivity|]. cbn [mont_create_bytes mn_bn]. unfold mont_to_bytes.
    rewrite Z.abs_eq by apply V2. destruct (bn2bin_spec (mn_bn v)) as (_ & -> & _); [apply V2|exact V2].
  Qed.
  Lemma to_big_num_stands c v x : stands c v x -> mont_to_big_num v = Ok (x mod m).
  Proof. intros (V1 & V2). unfold mont_to_big_num. rewrite V1. apply from_mont_form, V2. Qed.
  Lemma eq_stands c v w x y : stands c v x -> stands c w y ->
    mont_eq v w = Ok (x mod m =? y mod m).
  Proof.
    intros (V1 & V2) (W1 & W2). unfold mont_eq. rewrite V1, W1. cbn [mc_id]. rewrite Nat.eqb_refl. cbn [negb].
    f_equal. pose proof (form_unique _ _ _ _ V2 W2) as U.
    destruct (Z.eqb_spec (mn_bn v) (mn_bn w)), (Z.eqb_spec (x mod m) (y mod m)); auto; tauto.
  Qed.
  Lemma eq_mixed c d v w x y : stands c v x -> stands d w y -> c <> d -> mont_eq v w = Abort.
  Proof.
    intros (V1 & _) (W1 & _) N. unfold mont_eq. rewrite V1, W1. cbn [mc_id].
    destruct (Nat.eqb_spec d c); [congruence|]. reflexivity.
  Qed.

  (** ** the 2^k-ary exponentiation *)
  Lemma stands_eqm c v x y : stands c v x -> eqm m x y -> stands c v y.
  Proof.
    intros (V1 & V2 & V3) Exy. split; auto. split; auto. eapply eqm_trans; [exact V3|].
    apply eqm_mul; [exact Exy|apply eqm_refl].
  Qed.
  Lemma fill_stands c k : forall last g x y, stands c last x -> stands c g y ->
    exists l, mont_fill k last g = Ok l /\ Forall2 (stands c) l (fill_cache k x y m).
  Proof.
    induction k as [|k IH]; intros last g x y L G; cbn [mont_fill fill_cache].
    - exists []. split; auto.
    - unfold mont_mul. destruct (mul_stands _ _ _ _ _ L G) as (u & -> & U). cbn [obind].
      assert (U' : stands c u (x * y mod m)).
      { eapply stands_eqm; [exact U|]. apply eqm_sym, eqm_mod. pose proof pos; lia. }
      destruct (IH u g _ _ U' G) as (l & -> & F). cbn [obind]. eexists; split; [reflexivity|].
      constructor; auto.
  Qed.
  Lemma squares_stands c k : forall z x, stands c z x ->
    exists u, mont_squares k z = Ok u /\ stands c u (Nat.iter k (square m) x).
  Proof.
    induction k as [|k IH]; intros z x Z0.
    - exists z. split; auto.
    - cbn [mont_squares]. destruct (mul_stands _ _ _ _ _ Z0 Z0) as (u & -> & U). cbn [obind].
      assert (U' : stands c u (square m x)).
      { eapply stands_eqm; [exact U|]. apply eqm_sym, eqm_mod. pose proof pos; lia. }
      destruct (IH u _ U') as (w & -> & W0). exists w. split; auto.
      replace (Nat.iter (S k) (square m) x) with (Nat.iter k (square m) (square m x)); auto.
      clear. induction k as [|k IH]; [reflexivity|].
      change (Nat.iter (S k) (square m) (square m x)) with (square m (Nat.iter k (square m) (square m x))).
      rewrite IH. reflexivity.
  Qed.
  (** the fold over the bytes mirrors the one over residues *)
  Definition mirrors (c : nat) (a : outcome mont) (b : outcome Z) : Prop :=
    match a, b with Ok v, Ok x => stands c v x | UB, UB => True | _, _ => False end.
  Lemma fold_mirrors c cache cache' bs : Forall2 (stands c) cache cache' ->
    forall a b, mirrors c a b ->
    mirrors c (fold_left (mont_step cache) bs a) (fold_left (two_k_ary_step cache' m) bs b).
  Proof.
    intros HC. induction bs as [|y bs IH]; intros a b M; cbn [fold_left]; auto. apply IH.
    unfold mont_step, two_k_ary_step. destruct a as [v| | |], b as [x| | |]; try contradiction; cbn [obind]; auto.
    cbn [mirrors] in M. destruct (squares_stands c 8 v x M) as (u & -> & U). cbn [obind].
    assert (K : match nth_error cache (Z.to_nat y), nth_error cache' (Z.to_nat y) with
                | Some p, Some q => stands c p q | None, None => True | _, _ => False end).
    { clear - HC. revert HC. generalize (Z.to_nat y) as i. intros i HC. revert i.
      induction HC; intros [|i]; cbn; auto. apply IHHC. }
    destruct (nth_error cache _) as [p|], (nth_error cache' _) as [q|]; try contradiction; [|exact I].
    destruct (mul_stands _ _ _ _ _ U K) as (w & -> & W0). cbn [mirrors].
    eapply stands_eqm; [exact W0|]. apply eqm_sym, eqm_mod. pose proof pos; lia.
  Qed.
End Mont.

Lemma mont_fbe_refines id base m e :
  (let! f := mont_fbe_new id base m in mont_fbe_exp f e)
  = (let! f := two_k_ary_new base m in fbe_exp f e).
Proof.
  unfold two_k_ary_new, mont_fbe_new, mont_context.
  destruct (Z.leb_spec m 1) as [L|L].
  - cbn [orb obind]. destruct (Z.leb_spec m 0) as [L0|L0]; [reflexivity|]. assert (m = 1) by lia. subst m.
    reflexivity.
  - destruct (Z.leb_spec m 0); [lia|]. cbn [orb]. destruct (Z.even m) eqn:Ev; [reflexivity|]. cbn [obind orb].
    assert (Hm : odd_modulus m). { split; [lia|]. rewrite <- Z.negb_even, Ev. reflexivity. }
    destruct (create_stands m Hm id 1) as (one & E1 & S1); [lia|]. rewrite E1. cbn [obind].
    destruct (Z.leb_spec m base) as [B|B].
    + cbn [orb]. unfold mont_create at 1. cbn [mc_mod]. destruct (Z.ltb_spec base m); [lia|]. reflexivity.
    + destruct (Z.ltb_spec base 0) as [N|N].
      * cbn [orb]. unfold mont_create at 1. cbn [mc_mod]. destruct (Z.ltb_spec base m); [|lia]. cbn [negb].
        unfold to_montgomery, mul_montgomery. destruct (Z.ltb_spec base 0); [|lia]. reflexivity.
      * cbn [orb]. destruct (create_stands m Hm id base) as (g & E2 & S2); [lia|]. rewrite E2. cbn [obind].
        destruct (fill_stands m Hm id 256 g g base base S2 S2) as (l & E3 & S3). rewrite E3.
        set (fc := fill_cache 256 base base m) in *. clearbody fc. cbn [obind].
        unfold mont_fbe_exp, fbe_exp. cbn [mf_cache fb_cache fb_mod nth].
        destruct (Z.ltb_spec e 0) as [N0|N0]; [reflexivity|]. unfold to_bytes. destruct (Z.ltb_spec e 0); [lia|]. cbn [obind].
        assert (F : Forall2 (stands m id) (one :: g :: l) (1 :: base :: fc)) by (repeat constructor; auto; apply S1 || apply S2).
        pose proof (fold_mirrors m Hm id _ _ (bn2bin e) F (Ok one) (Ok 1) S1) as M.
        assert (R0 : forall z, fold_left (two_k_ary_step (1 :: base :: fc) m) (bn2bin e) (Ok 1) = Ok z -> z mod m = z).
        { clear - L. intros z. assert (K : forall bs a, (match a with Ok x => x mod m = x | _ => True end) ->
            match fold_left (two_k_ary_step (1 :: base :: fc) m) bs a with Ok x => x mod m = x | _ => True end).
          { induction bs as [|b bs IH]; intros a Ha; cbn [fold_left]; auto. apply IH. unfold two_k_ary_step.
            destruct a; cbn [obind]; auto. destruct (nth_error _ _); auto. apply Z.mod_mod. lia. }
          specialize (K (bn2bin e) (Ok 1)). intros Q. rewrite Q in K. apply K. apply Z.mod_small. lia. }
        destruct (fold_left (mont_step _) _ _) as [v| | |], (fold_left (two_k_ary_step _ _) _ _) as [x| | |];
          try contradiction; cbn [obind]; auto. cbn [mirrors] in M.
        rewrite (to_big_num_stands m Hm id v x M). f_equal. apply R0. reflexivity.
Qed.
