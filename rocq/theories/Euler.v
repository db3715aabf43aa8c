(** * Euler's criterion for an odd prime modulus (pure number theory; models no code). *)
Require Import List Arith Lia ZArith Znumtheory Bool.
Import ListNotations.
From Verif Require Import Prelude NumTheory.
Local Open Scope Z_scope.

(** monic polynomials, low coefficients first: [c0; ..; c(n-1)] stands for
    c0 + c1 x + .. + x^n *)
Fixpoint evalm (cs : list Z) (x : Z) : Z := match cs with [] => 1 | c :: r => c + x * evalm r x end.
(** A + r B for |A| = |B| + 1 *)
Fixpoint comb (r : Z) (A B : list Z) : list Z :=
  match A, B with
  | a :: A', b :: B' => (a + r * b) :: comb r A' B'
  | a :: A', [] => (a + r) :: A'
  | [], _ => []
  end.
Lemma comb_spec r x : forall A B, length A = S (length B) ->
  length (comb r A B) = length A /\ evalm (comb r A B) x = evalm A x + r * evalm B x.
Proof.
  induction A as [|a A IH]; intros B L; [discriminate|]. destruct B as [|b B]; cbn [comb evalm length] in *.
  - split; auto. ring.
  - injection L as L. destruct (IH B L) as (E1 & E2). rewrite E1, E2. split; auto. ring.
Qed.
(** the quotient of c + x * cs by x - r *)
Fixpoint quo (r : Z) (cs : list Z) : list Z :=
  match cs with [] => [] | c :: t => comb r (c :: t) (quo r t) end.
Lemma quo_length r : forall cs, length (quo r cs) = length cs.
Proof.
  induction cs as [|c t IH]; auto. cbn [quo]. destruct (comb_spec r 0 (c :: t) (quo r t)) as (E & _); auto. cbn [length]. lia.
Qed.
Lemma quo_spec r x : forall cs c, evalm (c :: cs) x - evalm (c :: cs) r = (x - r) * evalm (quo r cs) x.
Proof.
  induction cs as [|c' t IH]; intros c.
  - cbn. ring.
  - cbn [quo]. destruct (comb_spec r x (c' :: t) (quo r t)) as (_ & E). { cbn [length]. rewrite quo_length. auto. }
    rewrite E. specialize (IH c').
    transitivity ((x - r) * evalm (c' :: t) x + r * (evalm (c' :: t) x - evalm (c' :: t) r)).
    + change (evalm (c :: c' :: t) x) with (c + x * evalm (c' :: t) x).
      change (evalm (c :: c' :: t) r) with (c + r * evalm (c' :: t) r). ring.
    + rewrite IH. ring.
Qed.
(** a monic polynomial of degree n has at most n roots modulo a prime *)
Lemma root_bound p : prime p -> forall cs rs, NoDup rs -> (forall r, In r rs -> 0 <= r < p) ->
  (forall r, In r rs -> (p | evalm cs r)) -> (length rs <= length cs)%nat.
Proof.
  intros Hp cs. remember (length cs) as n eqn:En. revert cs En.
  induction n as [|n IH]; intros cs En rs N B D.
  - destruct cs; [|discriminate]. destruct rs as [|r rs]; auto. exfalso.
    specialize (D r (or_introl eq_refl)). cbn in D. apply Z.divide_1_r_nonneg in D; destruct Hp; lia.
  - destruct cs as [|c cs]; [discriminate|]. destruct rs as [|r rs]; [cbn; lia|]. inversion N; subst.
    cbn [length]. apply le_n_S. apply (IH (quo r cs)); auto.
    + rewrite quo_length. cbn in En. lia.
    + intros x Hx. apply B. right. auto.
    + intros x Hx. assert (DD : (p | (x - r) * evalm (quo r cs) x)).
      { rewrite <- (quo_spec r x cs c). apply Z.divide_sub_r; apply D; cbn; auto. }
      apply prime_mult in DD; auto. destruct DD as [DD|]; auto. exfalso.
      pose proof (B x (or_intror Hx)). pose proof (B r (or_introl eq_refl)).
      assert (x = r) by (apply (eqm_small p); auto). subst. auto.
Qed.
Lemma evalm_power x : forall m, evalm (repeat 0 m) x = x ^ Z.of_nat m.
Proof.
  induction m as [|m IH]; auto. cbn [repeat evalm]. rewrite IH, Nat2Z.inj_succ, Z.pow_succ_r by lia. ring.
Qed.
Lemma evalm_power_1 x m : evalm (-1 :: repeat 0 m) x = x ^ Z.of_nat (S m) - 1.
Proof. cbn [evalm]. rewrite evalm_power, Nat2Z.inj_succ, Z.pow_succ_r by lia. ring. Qed.

Section Euler.
Variable p : Z.
Hypothesis Hp : prime p.
Hypothesis Odd : Z.odd p = true.
Let h := (p - 1) / 2.
Lemma p_half : p = 2 * h + 1 /\ 1 <= h.
Proof.
  assert (P1 : 1 < p) by (destruct Hp; auto). apply Z.odd_spec in Odd as (k & E). unfold h.
  replace ((p - 1) / 2) with k; [lia|]. rewrite E. replace (2 * k + 1 - 1) with (k * 2) by lia. rewrite Z.div_mul; lia.
Qed.
Lemma square_has_power w : ~ (p | w) -> eqm p ((w * w) ^ h) 1.
Proof.
  intros D. destruct p_half as (E & H1). rewrite <- Z.pow_2_r, <- Z.pow_mul_r by lia.
  replace (2 * h) with (p - 1) by lia. apply fermat; auto.
Qed.
Lemma power_is_square z : 0 <= z < p -> eqm p (z ^ h) 1 -> exists w, 1 <= w <= h /\ eqm p (w * w) z.
Proof.
  intros Bz Ez. destruct p_half as (Ep & H1).
  set (f := fun w => w * w mod p). set (l := map Z.of_nat (seq 1 (Z.to_nat h))).
  assert (InL : forall x, In x l <-> 1 <= x <= h).
  { intros x. unfold l. rewrite in_map_iff. split.
    - intros (k & <- & H). apply in_seq in H. lia.
    - intros H. exists (Z.to_nat x). split; [lia|]. apply in_seq. lia. }
  destruct (in_dec Z.eq_dec z (map f l)) as [I|NI].
  { apply in_map_iff in I as (w & <- & Hw). apply InL in Hw. exists w. split; auto. unfold f. apply eqm_sym, eqm_mod. lia. }
  exfalso. assert (Dp : Z.of_nat (S (Z.to_nat h - 1)) = h) by lia.
  assert (C : (length (z :: map f l) <= length ((-1)%Z :: repeat 0%Z (Z.to_nat h - 1)))%nat).
  { apply (root_bound p Hp).
    - constructor; auto. apply NoDup_map_inj_on.
      + intros x y Hx Hy Exy. apply InL in Hx, Hy. unfold f in Exy. apply (eqm_iff p) in Exy; [|lia].
        unfold eqm in Exy. replace (x * x - y * y) with ((x - y) * (x + y)) in Exy by ring.
        apply prime_mult in Exy as [D|D]; auto.
        * apply (eqm_small p); auto; lia.
        * apply Z.divide_pos_le in D; lia.
      + unfold l. apply FinFun.Injective_map_NoDup; [|apply seq_NoDup]. intros x y E. apply Nat2Z.inj, E.
    - intros r [<-|Hr]; [lia|]. apply in_map_iff in Hr as (w & <- & _). apply Z.mod_pos_bound. lia.
    - intros r Hr. rewrite evalm_power_1, Dp. destruct Hr as [<-|Hr]; [exact Ez|].
      apply in_map_iff in Hr as (w & <- & Hw). apply InL in Hw. change (eqm p (f w ^ h) 1).
      eapply eqm_trans; [apply eqm_pow; [lia|apply eqm_mod; lia]|]. apply square_has_power.
      intros D. apply Z.divide_pos_le in D; lia. }
  cbn [length] in C. rewrite repeat_length, map_length in C. unfold l in C. rewrite map_length, seq_length in C. lia.
Qed.
(** Euler: the residue [z] is a non-zero square exactly if z^((p-1)/2) is 1 *)
Theorem euler_criterion z : 0 <= z < p ->
  (z ^ ((p - 1) / 2) mod p = 1 <-> exists w, 0 < w < p /\ w * w mod p = z).
Proof.
  intros Bz. destruct p_half as (Ep & H1). fold h. split.
  - intros E. destruct (power_is_square z Bz) as (w & Bw & Ew).
    { apply (eqm_iff p); [lia|]. rewrite E. symmetry. apply Z.mod_small. lia. }
    exists w. split; [lia|]. apply (eqm_iff p) in Ew; [|lia]. rewrite Ew. apply Z.mod_small. auto.
  - intros (w & Bw & <-). rewrite <- (Z.mod_small 1 p) by lia. apply (eqm_iff p); [lia|].
    eapply eqm_trans; [apply eqm_pow; [lia|apply eqm_mod; lia]|]. apply square_has_power.
    intros D. apply Z.divide_pos_le in D; lia.
Qed.
End Euler.
