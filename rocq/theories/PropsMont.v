(** * C57: Montgomery arithmetic computes modular arithmetic. *)
Require Import List Arith Lia ZArith Znumtheory Bool.
Import ListNotations.
From Verif Require Import Prelude NumTheory BytesModel BytesProofs PaillierModel PaillierProofs MontModel MontSpec MontProofs.
Local Open Scope Z_scope.

Lemma execute_stands m p : odd_modulus m -> proper m p ->
  match home p with
  | Some c => exists v, execute m p = Ok v /\ stands m c v (denotes p)
  | None => execute m p = Abort
  end.
Proof.
  intros Hm. induction p as [c x|a IHa b IHb|a IHa k|c a IHa]; cbn [proper home execute denotes]; intros P.
  - rewrite (context_ok m Hm). cbn [obind]. apply create_stands; auto.
  - specialize (IHa (proj1 P)). specialize (IHb (proj2 P)).
    destruct (home a) as [i|]; [|rewrite IHa; reflexivity]. destruct IHa as (v & -> & V). cbn [obind].
    destruct (home b) as [j|]; [|rewrite IHb; reflexivity]. destruct IHb as (w & -> & W0). cbn [obind].
    unfold mont_mul. destruct (Nat.eqb_spec i j) as [E|N].
    + rewrite <- E in W0. apply mul_stands; auto.
    + eapply mul_mixed; eauto.
  - specialize (IHa (proj1 P)). destruct (home a) as [i|]; [|rewrite IHa; reflexivity].
    destruct IHa as (v & -> & V). cbn [obind]. apply pow2_stands; auto. apply P.
  - specialize (IHa P). destruct (home a) as [i|]; [|rewrite IHa; reflexivity].
    destruct IHa as (v & -> & V). cbn [obind]. rewrite (context_ok m Hm). cbn [obind].
    eexists; split; [reflexivity|]. eapply bytes_stands; eauto.
Qed.

(** Every program that keeps each product within one context runs, and converting
    its result back gives the residue of the integer it denotes. *)
Theorem C57_arithmetic :
  forall m p c, 0 < m -> Z.odd m = true -> proper m p -> home p = Some c ->
  exists v, execute m p = Ok v /\ mont_to_big_num v = Ok (denotes p mod m).
Proof.
  intros m p c M1 M2 P Hc. pose proof (execute_stands m p (conj M1 M2) P) as H. rewrite Hc in H.
  destruct H as (v & E & V). exists v. split; auto. eapply to_big_num_stands; eauto. split; auto.
Qed.

(** == and != compare residues *)
Theorem C57_equality :
  forall m p q c, 0 < m -> Z.odd m = true -> proper m p -> proper m q -> home p = Some c -> home q = Some c ->
  exists v w, execute m p = Ok v /\ execute m q = Ok w /\
    mont_eq v w = Ok (denotes p mod m =? denotes q mod m) /\
    mont_neq v w = Ok (negb (denotes p mod m =? denotes q mod m)).
Proof.
  intros m p q c M1 M2 P Q Hp Hq. pose proof (execute_stands m p (conj M1 M2) P) as H. rewrite Hp in H.
  pose proof (execute_stands m q (conj M1 M2) Q) as K. rewrite Hq in K.
  destruct H as (v & E & V), K as (w & F & W0). exists v, w. split; auto. split; auto.
  unfold mont_neq. rewrite (eq_stands m (conj M1 M2) c v w _ _ V W0). auto.
Qed.

(** the serialised form depends only on the residue, so it can be exchanged
    between contexts: equal bytes exactly when the residues are equal *)
Theorem C57_bytes :
  forall m p q c d, 0 < m -> Z.odd m = true -> proper m p -> proper m q -> home p = Some c -> home q = Some d ->
  exists v w, execute m p = Ok v /\ execute m q = Ok w /\
    (mont_to_bytes v = mont_to_bytes w <-> denotes p mod m = denotes q mod m).
Proof.
  intros m p q c d M1 M2 P Q Hp Hq. pose proof (execute_stands m p (conj M1 M2) P) as H. rewrite Hp in H.
  pose proof (execute_stands m q (conj M1 M2) Q) as K. rewrite Hq in K.
  destruct H as (v & E & V), K as (w & F & W0). exists v, w. split; auto. split; auto.
  pose proof (proj2 V) as V'. pose proof (proj2 W0) as W'.
  rewrite <- (form_unique m (conj M1 M2) _ _ _ _ V' W'). unfold mont_to_bytes.
  rewrite !Z.abs_eq by (apply V' || apply W').
  split; intros B; [|rewrite B; reflexivity].
  destruct (bn2bin_spec (mn_bn v)) as (_ & <- & _); [apply V'|].
  destruct (bn2bin_spec (mn_bn w)) as (_ & <- & _); [apply W'|]. rewrite B. reflexivity.
Qed.

(** numbers of different contexts cannot be multiplied or compared, not even with
    equal moduli: the process terminates *)
Theorem C57_mixed :
  forall m p, 0 < m -> Z.odd m = true -> proper m p -> home p = None -> execute m p = Abort.
Proof.
  intros m p M1 M2 P Hp. pose proof (execute_stands m p (conj M1 M2) P) as H. rewrite Hp in H. exact H.
Qed.
Theorem C57_mixed_equality :
  forall m p q c d v w, 0 < m -> Z.odd m = true -> proper m p -> proper m q ->
  home p = Some c -> home q = Some d -> c <> d -> execute m p = Ok v -> execute m q = Ok w ->
  mont_eq v w = Abort /\ mont_neq v w = Abort.
Proof.
  intros m p q c d v w M1 M2 P Q Hp Hq N Ev Ew.
  pose proof (execute_stands m p (conj M1 M2) P) as H. rewrite Hp in H.
  pose proof (execute_stands m q (conj M1 M2) Q) as K. rewrite Hq in K.
  destruct H as (v' & E & V), K as (w' & F & W0). rewrite Ev in E. rewrite Ew in F.
  apply Ok_inj in E, F. rewrite <- E in V. rewrite <- F in W0. unfold mont_neq.
  rewrite (eq_mixed m c d v w _ _ V W0 N). auto.
Qed.

(** refused inputs terminate the process: an even or non-positive modulus, a
    number outside [0, modulus), a negative exponent *)
Theorem C57_refused :
  forall m c x k,
  ((m <= 0 \/ Z.even m = true) -> mont_context c m = Abort) /\
  (forall ctx, mont_context c m = Ok ctx -> ~ 0 <= x < m -> mont_create ctx x = Abort) /\
  (forall v, k < 0 -> mont_pow2 v k = Abort).
Proof.
  intros m c x k. split; [|split].
  - unfold mont_context. intros [H|H]; [destruct (Z.leb_spec m 0); [reflexivity|lia]|].
    rewrite H, orb_true_r. reflexivity.
  - intros ctx E N. unfold mont_context in E. destruct (_ || _); [discriminate|]. apply Ok_inj in E. subst ctx.
    unfold mont_create. cbn [mc_mod]. destruct (Z.ltb_spec x m); [|reflexivity]. cbn [negb].
    unfold to_montgomery, mul_montgomery. destruct (Z.ltb_spec x 0); [reflexivity|lia].
  - intros v Hk. unfold mont_pow2. destruct (Z.ltb_spec k 0); [reflexivity|lia].
Qed.

(** Fixed-base exponentiation over Montgomery numbers: base^e mod m for every
    exponent, an error for a negative one; the process terminates for the moduli
    and bases the contexts refuse. *)
Theorem C57_fixed_base :
  forall id base m e,
  (1 < m -> Z.odd m = true -> 0 <= base < m ->
     exists f, mont_fbe_new id base m = Ok f /\
       mont_fbe_exp f e = if e <? 0 then Err InvalidArgument else Ok (base ^ e mod m)) /\
  (~ (1 < m /\ Z.odd m = true /\ 0 <= base < m) -> mont_fbe_new id base m = Abort).
Proof.
  intros id base m e. split.
  - intros M1 M2 B. pose proof (mont_fbe_refines id base m e) as R0.
    assert (T : exists f, two_k_ary_new base m = Ok f).
    { unfold two_k_ary_new. destruct (Z.leb_spec m 1); [lia|]. rewrite <- Z.negb_odd, M2.
      destruct (Z.leb_spec m base); [lia|]. destruct (Z.ltb_spec base 0); [lia|]. cbn [negb orb]. eauto. }
    destruct T as (f0 & T). rewrite T in R0. cbn [obind] in R0.
    assert (N : exists f, mont_fbe_new id base m = Ok f).
    { unfold mont_fbe_new. assert (Hm : odd_modulus m) by (split; [lia|auto]).
      rewrite (context_ok m Hm). cbn [obind].
      destruct (create_stands m Hm id 1) as (one & -> & S1); [lia|]. cbn [obind].
      destruct (create_stands m Hm id base) as (g & -> & S2); [lia|]. cbn [obind].
      destruct (fill_stands m Hm id 256 g g base base S2 S2) as (l & -> & _). eexists; reflexivity. }
    destruct N as (f & N). exists f. split; auto. rewrite N in R0. cbn [obind] in R0. rewrite R0.
    destruct (Z.ltb_spec e 0) as [L|L]; [apply fbe_exp_neg; auto|].
    apply fbe_exp_spec with true; auto. lia.
  - intros N. unfold mont_fbe_new, mont_context. destruct (Z.leb_spec m 0); [reflexivity|].
    destruct (Z.even m) eqn:Ev; [reflexivity|]. cbn [orb obind].
    assert (O : Z.odd m = true) by (rewrite <- Z.negb_even, Ev; reflexivity).
    destruct (Z.eq_dec m 1) as [->|N1]; [reflexivity|].
    assert (Hm : odd_modulus m) by (split; [lia|auto]).
    destruct (create_stands m Hm id 1) as (one & -> & S1); [lia|]. cbn [obind].
    assert (Q : mont_create (mkMontCtx id m) base = Abort); [|rewrite Q; reflexivity].
    apply (proj1 (proj2 (C57_refused m id base 0))); [apply context_ok; auto|].
    intros B. apply N. split; [lia|auto].
Qed.
(** ... so the exponentiations of the Paillier model are those of the Montgomery code *)
Theorem C57_refines :
  forall id base m e,
  (let! f := mont_fbe_new id base m in mont_fbe_exp f e)
  = (let! f := fbe_new true base m in fbe_exp f e).
Proof. exact mont_fbe_refines. Qed.

(** ** Examples *)
(** (5 * 7)^(2^3) through two contexts, modulo 1009 and modulo a 3-limb number *)
Definition ex_program : program := Times (Create 1 1008) (Reload 1 (PowTwo (Times (Create 0 5) (Create 0 7)) 3)).
Example ex_C57_proper : proper 1009 ex_program /\ home ex_program = Some 1%nat /\ Z.odd 1009 = true.
Proof. cbn [ex_program proper home Nat.eqb]. repeat split; lia. Qed.
Example ex_C57_run : (let! v := execute 1009 ex_program in mont_to_big_num v) = Ok ((1008 * (5 * 7) ^ 8) mod 1009).
Proof. vm_compute. reflexivity. Qed.
Example ex_C57_form : (let! v := execute 1009 ex_program in Ok (mn_bn v =? denotes ex_program mod 1009)) = Ok false.
Proof. vm_compute. reflexivity. Qed.
Example ex_C57_limbs : let m := 2 ^ 130 + 1 in
  (let! v := execute m ex_program in mont_to_big_num v) = Ok ((1008 * (5 * 7) ^ 8) mod m).
Proof. vm_compute. reflexivity. Qed.
Example ex_C57_mixed : execute 1009 (Times (Create 0 5) (Create 1 7)) = Abort.
Proof. vm_compute. reflexivity. Qed.
(** 1008 = -1: (-1)^(2^1) = 1 *)
Example ex_C57_equal : (let! v := execute 1009 (PowTwo (Create 0 1008) 1) in let! w := execute 1009 (Create 0 1) in mont_eq v w) = Ok true.
Proof. vm_compute. reflexivity. Qed.
Example ex_C57_fixed_base : (let! f := mont_fbe_new 3 17 1009 in mont_fbe_exp f 70000) = Ok 922.
Proof. vm_compute. reflexivity. Qed.
