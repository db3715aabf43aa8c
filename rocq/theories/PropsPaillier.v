(** * Properties C32-C36: Paillier, threshold Paillier, CRT, fixed-base
    exponentiation and the commutative cipher. *)
Require Import List Arith Lia ZArith Znumtheory Bool.
Import ListNotations.
From Verif Require Import Prelude Coins Group ElGamalModel NumTheory BytesModel BytesProofs ContextModel ContextProofs
  PaillierModel PaillierProofs PaillierS CipherModel CipherProofs.
Local Open Scope Z_scope.

(** ** C34 *)
(** For coprime moduli the object can be built, and Compute(a, b) is the one
    and only number below p*q that is a modulo p and b modulo q. *)
Theorem C34_crt :
  forall p q : Z, 1 < p -> 1 < q -> Z.gcd p q = 1 ->
  exists c, crt_new p q = Ok c /\
  forall a b r : Z,
    r = crt_compute c a b <-> 0 <= r < p * q /\ r mod p = a mod p /\ r mod q = b mod q.
Proof.
  intros p q Hp Hq G. apply Zgcd_1_rel_prime in G. destruct (crt_total p q Hp Hq G) as (c & E).
  exists c. split; auto. intros a b r.
  destruct (crt_spec p q c a b E) as (_ & _ & _ & _ & R & X1 & X2). split.
  - intros ->. split; [auto|]. split; apply eqm_iff; auto; lia.
  - intros (Hr & A & B). apply eqm_small with (p * q); auto. apply eqm_combine; auto.
    + apply eqm_trans with a; [apply eqm_iff; auto; lia|apply eqm_sym; auto].
    + apply eqm_trans with b; [apply eqm_iff; auto; lia|apply eqm_sym; auto].
Qed.
(** Moduli that share a factor: the constructor terminates the process. *)
Theorem C34_crt_not_coprime : forall p q : Z, Z.gcd p q <> 1 -> crt_new p q = Abort.
Proof.
  intros p q G. unfold crt_new, mod_inverse. rewrite (Z.gcd_comm q p).
  destruct (Z.eqb_spec (Z.gcd p q) 1); [lia|]. rewrite andb_false_r. reflexivity.
Qed.
Example C34_case : exists c, crt_new 7 11 = Ok c /\ crt_compute c 3 5 = 38.
Proof. eexists. split; vm_compute; reflexivity. Qed.

(** ** C35 *)
Theorem C35_fixed_base_exp :
  forall (two_k_ary : bool) (base modulus : Z) f,
    0 < modulus -> fbe_new two_k_ary base modulus = Ok f ->
    (forall e, 0 <= e -> fbe_exp f e = Ok (base ^ e mod modulus))
    /\ (forall e, e < 0 -> fbe_exp f e = Err InvalidArgument).
Proof. intros. split; intros; [eapply fbe_exp_spec; eauto|apply fbe_exp_neg; auto]. Qed.
(** The constructor succeeds for every odd modulus above 1 and reduced base. *)
Theorem C35_constructor :
  forall (two_k_ary : bool) (base modulus : Z),
    1 < modulus -> Z.odd modulus = true -> 0 <= base < modulus ->
    exists f, fbe_new two_k_ary base modulus = Ok f.
Proof.
  intros [|] base m H1 H2 H3; unfold fbe_new; [|eauto]. unfold two_k_ary_new.
  rewrite <- Z.negb_odd, H2. destruct (Z.leb_spec m 1), (Z.leb_spec m base), (Z.ltb_spec base 0); try lia. cbn [orb negb]. eexists. reflexivity.
Qed.
Example C35_case :
  (let! f := fbe_new true 5 1001 in fbe_exp f 1300) = Ok (5 ^ 1300 mod 1001).
Proof. vm_compute. reflexivity. Qed.

(** ** C32 *)
(** [made P V m c]: the ciphertext [c] has been obtained from the public object
    [P] and the private object [V] by any sequence of API calls, and [m] is the
    integer that the same sequence of calls computes on the plaintexts. *)
Inductive made (P : pub) (V : priv) : Z -> Z -> Prop :=
| made_public m t c t' : pub_encrypt P m t = Ok (c, t') -> made P V m c
| made_public_rand m r c : pub_encrypt_with_rand P m r = Ok c -> made P V m c
| made_private m t c t' : priv_encrypt V m t = Ok (c, t') -> made P V m c
| made_private_rand flag m t c r t' : privr_encrypt_get_rand flag V m t = Ok ((c, r), t') -> made P V m c
| made_add a b ca cb : made P V a ca -> made P V b cb -> made P V (a + b) (pub_add P ca cb)
| made_multiply a ca k c : made P V a ca -> pub_multiply P ca k = Ok c -> made P V (a * k) c
| made_shift a ca k c : made P V a ca -> pub_left_shift P ca k = Ok c -> made P V (a * 2 ^ Z.of_nat k) c
| made_rerand a ca t c t' : made P V a ca -> pub_rerand P ca t = Ok (c, t') -> made P V a c.

(** Objects built from the same two primes ([s] = 1; [flag]s choose the
    exponentiation strategy of each object). *)
Definition paillier_pair (p q : Z) (P : pub) (V : priv) : Prop :=
  (exists flag fuel t t', pub_new flag fuel (p * q) 1 t = Some (Ok (P, t'))) /\
  (exists flag, priv_new flag p q 1 = Ok V).

Lemma pair_facts p q P V : paillier_pair p q P V ->
  exists flag x, 1 < p * q /\ Z.gcd x (p * q) = 1 /\ pub_make flag (p * q) 1 x = Ok P.
Proof.
  intros ((flag & fuel & t & t' & H) & (fl & HV)). exists flag.
  apply priv_new_spec in HV as (Pp & Pq & _). assert (1 < p) by (destruct Pp; auto). assert (1 < q) by (destruct Pq; auto).
  unfold pub_new in H. destruct (rel_prime_less_than fuel (p * q) t) as [o|] eqn:E; [|discriminate].
  inversion H as [H']; clear H. apply obind_Ok in H' as ([x t1] & -> & H'). cbn [fst snd] in H'.
  apply obind_Ok in H' as (P' & E' & H'). inversion H'; subst; clear H'.
  apply rel_prime_spec in E as (_ & G). exists x. split; [nia|]. auto.
Qed.
Lemma made_ct p q P V m c : paillier_pair p q P V -> made P V m c -> ct_of (p * q) m c.
Proof.
  intros HP. destruct (pair_facts _ _ _ _ HP) as (flag & x & Hn & G & E).
  destruct HP as (_ & (fl & HV)). apply priv_new_spec in HV as (Pp & Pq & N & _ & V1 & V2 & Cp & Cq & Ce & Cd).
  apply pub_make_spec in E as (En & Es & Ep & Em & Ec & Ef); auto.
  induction 1.
  - destruct (pub_encrypt_spec P (p * q) Hn En Es Ep Em Ec Ef m t) as (B1 & B2).
    destruct (Z.lt_ge_cases m 0). { rewrite B1 in H; [discriminate|lia]. }
    destruct (Z.lt_ge_cases m (p * q)). 2:{ rewrite B1 in H; [discriminate|lia]. }
    destruct B2 as (c' & t1 & E1 & C); [lia|]. rewrite H in E1. inversion E1; subst; auto.
  - destruct (pub_encrypt_with_rand_spec P (p * q) Hn En Es Ep Em Ec m r) as (B1 & B2).
    destruct (Z.eq_dec (Z.gcd r (p * q)) 1). 2:{ rewrite B1 in H; [discriminate|auto]. }
    destruct B2 as (c' & E1 & C & _); [auto|]. rewrite H in E1. inversion E1; subst; auto.
  - destruct (priv_encrypt_spec V p q Pp Pq V1 Cp Cq Ce Cd m t) as (B1 & B2).
    destruct (Z.lt_ge_cases m 0). { rewrite B1 in H; [discriminate|lia]. }
    destruct (Z.lt_ge_cases m (p * q)). 2:{ rewrite B1 in H; [discriminate|lia]. }
    destruct B2 as (c' & t1 & E1 & C); [lia|]. rewrite H in E1. inversion E1; subst; auto.
  - eapply (privr_spec V p q Pp Pq V1 Cp Cq Ce) in H as (_ & C & _); auto.
  - apply pub_add_spec; auto.
  - assert (K : 0 <= k). { unfold pub_multiply in H0. apply mod_exp_Ok in H0 as (? & _). auto. }
    destruct (pub_multiply_spec P (p * q) Hn Es Em a ca k K IHmade) as (c' & E1 & C).
    rewrite H0 in E1. inversion E1; subst; auto.
  - destruct (pub_multiply_spec P (p * q) Hn Es Em a ca (2 ^ Z.of_nat k) ltac:(lia) IHmade) as (c' & E1 & C).
    unfold pub_left_shift in H0. rewrite H0 in E1. inversion E1; subst; auto.
  - destruct (pub_rerand_spec P (p * q) Hn En Es Em Ef a ca t IHmade) as (c' & t1 & E1 & C).
    rewrite H0 in E1. inversion E1; subst; auto.
Qed.

(** ** any s *)
(** Objects built from the same two primes and the same [s]. *)
Definition paillier_objects (s : nat) (p q : Z) (P : pub) (V : priv) : Prop :=
  (exists flag fuel t t', pub_new flag fuel (p * q) s t = Some (Ok (P, t'))) /\
  (exists flag, priv_new flag p q s = Ok V).
Lemma objects_pair p q P V : paillier_objects 1 p q P V <-> paillier_pair p q P V.
Proof. reflexivity. Qed.
Lemma objects_pub_ok s p q P V : paillier_objects s p q P V -> pub_ok s (p * q) P.
Proof.
  intros ((flag & fuel & t & t' & H) & (fl & HV)).
  apply priv_new_s in HV as (Pp & Pq & _). assert (1 < p) by (destruct Pp; auto). assert (1 < q) by (destruct Pq; auto).
  unfold pub_new in H. destruct (rel_prime_less_than fuel (p * q) t) as [o|] eqn:E; [|discriminate].
  inversion H as [H']; clear H. apply obind_Ok in H' as ([x t1] & -> & H'). cbn [fst snd] in H'.
  apply obind_Ok in H' as (P' & E' & H'). inversion H'; subst; clear H'.
  apply rel_prime_spec in E as (_ & G). split; [nia|]. apply pub_make_s with flag x; auto. nia.
Qed.
Lemma made_cts s p q P V m c : paillier_objects s p q P V -> made P V m c -> cts s (p * q) m c.
Proof.
  intros HP. pose proof (objects_pub_ok _ _ _ _ _ HP) as PO. destruct HP as (_ & HV).
  induction 1.
  - destruct (pub_encrypt_s P s (p * q) PO m t) as (B1 & B2).
    destruct (Z.lt_ge_cases m 0). { rewrite B1 in H; [discriminate|lia]. }
    destruct (Z.lt_ge_cases m ((p * q) ^ Z.of_nat s)). 2:{ rewrite B1 in H; [discriminate|lia]. }
    destruct B2 as (c' & t1 & E1 & C); [lia|]. rewrite H in E1. inversion E1; subst; auto.
  - destruct (pub_encrypt_with_rand_s P s (p * q) PO m r) as (B1 & B2).
    destruct (Z.eq_dec (Z.gcd r (p * q)) 1). 2:{ rewrite B1 in H; [discriminate|auto]. }
    destruct B2 as (c' & E1 & C & _); [auto|]. rewrite H in E1. inversion E1; subst; auto.
  - destruct (priv_encrypt_s V s p q HV m t) as (B1 & B2).
    destruct (Z.lt_ge_cases m 0). { rewrite B1 in H; [discriminate|lia]. }
    destruct (Z.lt_ge_cases m ((p * q) ^ Z.of_nat s)). 2:{ rewrite B1 in H; [discriminate|lia]. }
    destruct B2 as (c' & t1 & E1 & C); [lia|]. rewrite H in E1. inversion E1; subst; auto.
  - eapply (privr_s V s p q HV) in H as (_ & C & _); auto.
  - apply pub_add_s; auto.
  - assert (K : 0 <= k). { unfold pub_multiply in H0. apply mod_exp_Ok in H0 as (? & _). auto. }
    destruct (pub_multiply_s P s (p * q) PO a ca k K IHmade) as (c' & E1 & C).
    rewrite H0 in E1. inversion E1; subst; auto.
  - destruct (pub_multiply_s P s (p * q) PO a ca (2 ^ Z.of_nat k) ltac:(lia) IHmade) as (c' & E1 & C).
    unfold pub_left_shift in H0. rewrite H0 in E1. inversion E1; subst; auto.
  - destruct (pub_rerand_s P s (p * q) PO a ca t IHmade) as (c' & t1 & E1 & C).
    rewrite H0 in E1. inversion E1; subst; auto.
Qed.

(** C32. Whatever sequence of calls produced the ciphertext, decryption gives
    the plaintext result modulo n^s, n = p*q, for every s. *)
Theorem C32_paillier_decrypts :
  forall s p q P V, paillier_objects s p q P V ->
  forall m c, made P V m c -> priv_decrypt V c = Ok (m mod (p * q) ^ Z.of_nat s).
Proof.
  intros s p q P V HP m c C. eapply made_cts in C; eauto. destruct HP as (_ & HV).
  eapply priv_decrypt_s; eauto.
Qed.
(** C32. Messages in [0, n^s) are always encrypted, others always refused;
    ciphertexts outside [0, n^(s+1)) are refused. *)
Theorem C32_paillier_ranges :
  forall s p q P V, paillier_objects s p q P V ->
  let ns := (p * q) ^ Z.of_nat s in let ns1 := (p * q) ^ Z.of_nat (s + 1) in
  (forall m t, (exists c t', pub_encrypt P m t = Ok (c, t')) <-> 0 <= m < ns)
  /\ (forall m t, ~ 0 <= m < ns -> pub_encrypt P m t = Err InvalidArgument)
  /\ (forall m t, (exists c t', priv_encrypt V m t = Ok (c, t')) <-> 0 <= m < ns)
  /\ (forall m t, ~ 0 <= m < ns -> priv_encrypt V m t = Err InvalidArgument)
  /\ (forall c, ~ 0 <= c < ns1 -> priv_decrypt V c = Err InvalidArgument)
  /\ (forall m c, made P V m c -> 0 <= c < ns1).
Proof.
  intros s p q P V HP ns ns1. pose proof (objects_pub_ok _ _ _ _ _ HP) as PO. pose proof HP as (_ & HV).
  assert (N1 : ns1 = (p * q) ^ Z.of_nat (S s)) by (unfold ns1; do 2 f_equal; lia).
  assert (B := pub_encrypt_s P s (p * q) PO). assert (B' := priv_encrypt_s V s p q HV). fold ns in B, B'.
  split; [|split; [|split; [|split; [|split]]]].
  - intros m t. destruct (B m t) as (B1 & B2). split.
    + intros (c & t' & H). destruct (Z.lt_ge_cases m 0); [rewrite B1 in H by lia; discriminate|].
      destruct (Z.lt_ge_cases m ns); [lia|rewrite B1 in H by lia; discriminate].
    + intros H. destruct (B2 H) as (c & t' & H' & _). eauto.
  - intros m t H. apply B. lia.
  - intros m t. destruct (B' m t) as (B1 & B2). split.
    + intros (c & t' & H). destruct (Z.lt_ge_cases m 0); [rewrite B1 in H by lia; discriminate|].
      destruct (Z.lt_ge_cases m ns); [lia|rewrite B1 in H by lia; discriminate].
    + intros H. destruct (B2 H) as (c & t' & H' & _). eauto.
  - intros m t H. apply B'. lia.
  - intros c H. rewrite N1 in H. apply (priv_decrypt_range_s V s p q HV). lia.
  - intros m c H. eapply made_cts in H; eauto. rewrite N1. apply H.
Qed.
(** C32. The randomness reported by EncryptAndGetRand reproduces the
    ciphertext with EncryptWithRand on the public key. *)
Theorem C32_reported_randomness :
  forall s p q P V, paillier_objects s p q P V ->
  forall flag m t c r t', privr_encrypt_get_rand flag V m t = Ok ((c, r), t') ->
  pub_encrypt_with_rand P m r = Ok c.
Proof.
  intros s p q P V HP flag m t c r t' H. pose proof (objects_pub_ok _ _ _ _ _ HP) as PO. destruct HP as (_ & HV).
  apply (privr_s V s p q HV) in H as (_ & (Hc & _) & R & _ & Ecr).
  destruct (pub_encrypt_with_rand_s P s (p * q) PO m r) as (_ & B).
  destruct B as (c' & E1 & (Hc' & _) & Ecr'); [apply Zgcd_1_rel_prime; auto|].
  rewrite E1. f_equal. apply eqm_small with ((p * q) ^ Z.of_nat (S s)); auto.
  eapply eqm_trans; [exact Ecr'|]. apply eqm_sym; auto.
Qed.
(** C32. Keys: bad parameters are refused; otherwise the two keys agree on s
    and on n, and the two primes are different draws. *)
Theorem C32_key_generation :
  forall fuel primes len s,
  ((Z.quot len 2 <= 0 \/ s <= 0) -> paillier_keygen fuel primes len s = Some (Err InvalidArgument))
  /\ (0 < Z.quot len 2 -> 0 < s ->
      forall o, paillier_keygen fuel primes len s = Some o ->
      exists i j, (i < j)%nat /\ primes i <> primes j /\
        o = Ok ((primes i * primes j, s), (primes i, primes j, s))).
Proof.
  intros fuel primes len s. unfold paillier_keygen. split.
  - intros [H|H]; [destruct (Z.leb_spec (len ÷ 2) 0); [reflexivity|lia]|].
    destruct (Z.leb_spec s 0); [|lia]. rewrite orb_true_r. reflexivity.
  - intros H1 H2 o. destruct (Z.leb_spec (len ÷ 2) 0); [lia|]. destruct (Z.leb_spec s 0); [lia|]. cbn [orb].
    assert (G : forall fuel k (t : tape), (forall i, t i = primes (k + i)%nat) ->
      match distinct_prime fuel (primes O) t with
      | Some q => exists j, (k <= j)%nat /\ q = primes j /\ primes O <> q | None => True end).
    { clear. induction fuel as [|fuel IH]; intros k t T; cbn [distinct_prime]; [exact I|].
      rewrite (T O), Nat.add_0_r. destruct (Z.eqb_spec (primes O) (primes k)) as [E|N]; [|exists k; auto].
      specialize (IH (S k) (tl_tape t)). destruct (distinct_prime fuel (primes O) (tl_tape t)); auto.
      destruct IH as (j & L & Q); [|exists j; split; [lia|auto]].
      intros i. unfold tl_tape. rewrite T. f_equal. lia. }
    specialize (G fuel 1%nat (tl_tape primes) (fun i => eq_refl)).
    destruct (distinct_prime fuel (primes O) (tl_tape primes)) as [q|]; [|discriminate].
    intros E. inversion E; subst o. destruct G as (j & L & -> & N). exists O, j. split; [lia|]. auto.
Qed.
(** C32. An exponent s that reaches one of the primes cannot be used: the
    constructors terminate the process (no inverse of the prime). *)
Theorem C32_exponent_too_large :
  forall flag p q s, 1 < p -> p <= Z.of_nat s -> pc_new flag p q s = Abort.
Proof.
  intros flag p q s Hp Hs. unfold pc_new. rewrite !powers_nth by lia.
  assert (G : forall num m k i last, (exists d, 1 < d /\ (d | m) /\ exists j, (i <= j < i + k)%nat /\ (d | Z.of_nat j)) ->
    precomp_loop num m i k last = Abort).
  { induction k as [|k IH]; intros i last (d & Hd & Dm & j & Hj & Dj); [lia|]. cbn [precomp_loop].
    destruct (mod_inverse (Z.of_nat i) m) as [inv| | |] eqn:E; try reflexivity.
    - cbn [value obind]. rewrite IH; [reflexivity|]. exists d. split; [auto|]. split; [auto|]. exists j. split; [|auto].
      destruct (Nat.eq_dec i j) as [->|]; [|lia]. exfalso. apply mod_inverse_Ok in E as (_ & Gc & _).
      assert (D1 : (d | 1)) by (rewrite <- Gc; apply Z.gcd_greatest; auto). apply Z.divide_1_r in D1. lia.
    - unfold mod_inverse in E. destruct (_ && _) in E; discriminate. }
  unfold get_precomp. rewrite G; [reflexivity|]. exists p. split; [auto|]. split.
  - rewrite <- (Z.pow_1_r p) at 1. change 1 with (Z.of_nat 1). apply pow_divide. lia.
  - exists (Z.to_nat p). split; [lia|]. rewrite Z2Nat.id by lia. apply Z.divide_refl.
Qed.
(** s = 1, what the protocols use. *)
Corollary C32_decrypts_1 :
  forall p q P V, paillier_pair p q P V ->
  forall m c, made P V m c -> priv_decrypt V c = Ok (m mod (p * q)).
Proof.
  intros p q P V HP m c C. rewrite (C32_paillier_decrypts 1 _ _ _ _ HP _ _ C). change (Z.of_nat 1) with 1. rewrite Z.pow_1_r. reflexivity.
Qed.

(** Non-vacuity: p = 7, q = 11, both exponentiation strategies. *)
Definition demo_tape : tape := fun i => Z.of_nat (i + 2).
Definition demo_pub : option (outcome (pub * tape)) := Eval vm_compute in pub_new true 3 77 1 (fun _ => 2).
Definition demo_priv : outcome priv := Eval vm_compute in priv_new true 7 11 1.
Example C32_case : exists P V c1 t1 c2 t2 c3 t3,
  paillier_pair 7 11 P V /\ pub_encrypt P 40 demo_tape = Ok (c1, t1)
  /\ priv_encrypt V 50 demo_tape = Ok (c2, t2)
  /\ pub_rerand P (pub_add P c1 c2) demo_tape = Ok (c3, t3)
  /\ made P V (40 + 50) c3 /\ priv_decrypt V c3 = Ok 13.
Proof.
  destruct demo_pub as [[[P t]| | |]|] eqn:EP; try discriminate.
  destruct demo_priv as [V| | |] eqn:EV; try discriminate.
  assert (A : exists c t1, pub_encrypt P 40 demo_tape = Ok (c, t1)).
  { injection EP as <- _. eexists _, _. vm_compute. reflexivity. }
  assert (B : exists c t1, priv_encrypt V 50 demo_tape = Ok (c, t1)).
  { injection EV as <-. eexists _, _. vm_compute. reflexivity. }
  destruct A as (c1 & t1 & A), B as (c2 & t2 & B).
  assert (HP : paillier_pair 7 11 P V).
  { split.
    - exists true, 3%nat, (fun _ => 2), t. transitivity demo_pub; [vm_compute; reflexivity|]. exact EP.
    - exists true. transitivity demo_priv; [vm_compute; reflexivity|]. exact EV. }
  assert (C : exists c t1, pub_rerand P (pub_add P c1 c2) demo_tape = Ok (c, t1)).
  { destruct (pair_facts _ _ _ _ HP) as (fl & x & Hn & G & E).
    apply pub_make_spec in E as (En & Es & _ & Em & _ & Ef); auto.
    assert (CT : ct_of (7 * 11) (40 + 50) (pub_add P c1 c2)).
    { eapply made_ct; eauto. apply made_add; [eapply made_public|eapply made_private]; eauto. }
    destruct (pub_rerand_spec P (7 * 11) Hn En Es Em Ef _ _ demo_tape CT) as (c & t' & E & _). eauto. }
  destruct C as (c3 & t3 & C).
  assert (M : made P V (40 + 50) c3).
  { eapply made_rerand; [|exact C]. apply made_add; [eapply made_public|eapply made_private]; eauto. }
  exists P, V, c1, t1, c2, t2, c3, t3. do 5 (split; [assumption|]).
  rewrite (C32_decrypts_1 _ _ _ _ HP _ _ M). reflexivity.
Qed.

(** Non-vacuity at s = 3 with the same primes: 1000 + 400000 encrypted by the two
    objects, added and multiplied by 5, all below 77^3 = 456533. *)
Definition demo_pub3 : option (outcome (pub * tape)) := Eval vm_compute in pub_new true 3 77 3 (fun _ => 2).
Definition demo_priv3 : outcome priv := Eval vm_compute in priv_new true 7 11 3.
Example C32_case_s3 : exists P V c1 t1 c2 t2 c3,
  paillier_objects 3 7 11 P V /\ pub_encrypt P 400000 demo_tape = Ok (c1, t1)
  /\ priv_encrypt V 1000 demo_tape = Ok (c2, t2)
  /\ pub_multiply P (pub_add P c1 c2) 5 = Ok c3
  /\ made P V ((400000 + 1000) * 5) c3 /\ priv_decrypt V c3 = Ok (2005000 - 4 * 456533).
Proof.
  destruct demo_pub3 as [[[P t]| | |]|] eqn:EP; try discriminate.
  destruct demo_priv3 as [V| | |] eqn:EV; try discriminate.
  assert (A : exists c t1, pub_encrypt P 400000 demo_tape = Ok (c, t1)).
  { injection EP as <- _. eexists _, _. vm_compute. reflexivity. }
  assert (B : exists c t1, priv_encrypt V 1000 demo_tape = Ok (c, t1)).
  { injection EV as <-. eexists _, _. vm_compute. reflexivity. }
  destruct A as (c1 & t1 & A), B as (c2 & t2 & B).
  assert (HP : paillier_objects 3 7 11 P V).
  { split.
    - exists true, 3%nat, (fun _ => 2), t. transitivity demo_pub3; [vm_compute; reflexivity|]. exact EP.
    - exists true. transitivity demo_priv3; [vm_compute; reflexivity|]. exact EV. }
  destruct (pub_multiply_s P 3 (7 * 11) (objects_pub_ok _ _ _ _ _ HP) (400000 + 1000) (pub_add P c1 c2) 5) as (c3 & C & _); [lia| |].
  { eapply made_cts; eauto. apply made_add; [eapply made_public|eapply made_private]; eauto. }
  assert (M : made P V ((400000 + 1000) * 5) c3).
  { eapply made_multiply; [|exact C]. apply made_add; [eapply made_public|eapply made_private]; eauto. }
  exists P, V, c1, t1, c2, t2, c3. do 5 (split; [assumption|]).
  rewrite (C32_paillier_decrypts _ _ _ _ _ HP _ _ M). reflexivity.
Qed.
Example C32_case_keygen : paillier_keygen 5 (fun i => if (i <? 3)%nat then 7 else 11) 6 3 = Some (Ok ((77, 3), (7, 11, 3))).
Proof. reflexivity. Qed.

(** ** C33 *)
(** Ciphertexts produced by either party's threshold object ([P0], [P1] are the
    two PublicPaillier objects inside). *)
Inductive thr_made (n : Z) (P0 P1 : pub) : Z -> Z -> Prop :=
| thr_enc (who : bool) m t c t' : pub_encrypt (if who then P1 else P0) m t = Ok (c, t') -> thr_made n P0 P1 m c
| thr_sum a b ca cb : thr_made n P0 P1 a ca -> thr_made n P0 P1 b cb -> thr_made n P0 P1 (a + b) (thr_add n ca cb)
| thr_rerand (who : bool) a ca t c t' : thr_made n P0 P1 a ca ->
    pub_rerand (if who then P1 else P0) ca t = Ok (c, t') -> thr_made n P0 P1 a c.
(** [P] is a PublicPaillier object built by ThresholdPaillier for modulus [n]. *)
Definition thr_object (n : Z) (P : pub) : Prop :=
  exists flag fuel t t', pub_new flag fuel n 1 t = Some (Ok (P, t')).

Lemma thr_object_facts n P : 1 < n -> thr_object n P ->
  pp_n P = n /\ pp_s P = 1%nat /\ pp_powers P = get_powers n 1 /\ pp_modulus P = n * n /\
  (exists y, pp_precomp P = [1; y] /\ eqm (n * n) y n) /\
  exists g, rel_prime g n /\ forall r, 0 <= r -> fbe_exp (pp_fbe P) r = Ok ((g ^ n mod (n * n)) ^ r mod (n * n)).
Proof.
  intros Hn (flag & fuel & t & t' & H). unfold pub_new in H.
  destruct (rel_prime_less_than fuel n t) as [o|] eqn:E; [|discriminate].
  inversion H as [H']; clear H. apply obind_Ok in H' as ([x t1] & -> & H'). cbn [fst snd] in H'.
  apply obind_Ok in H' as (P' & E' & H'). inversion H'; subst; clear H'.
  apply rel_prime_spec in E as (_ & G). eapply pub_make_spec; eauto.
Qed.
Lemma thr_made_ct n P0 P1 m c : 1 < n -> thr_object n P0 -> thr_object n P1 -> thr_made n P0 P1 m c -> ct_of n m c.
Proof.
  intros Hn O0 O1. assert (O : forall who : bool, thr_object n (if who then P1 else P0)) by (intros []; auto).
  induction 1.
  - destruct (thr_object_facts _ _ Hn (O who)) as (En & Es & Ep & Em & Ec & Ef).
    destruct (pub_encrypt_spec _ n Hn En Es Ep Em Ec Ef m t) as (B1 & B2).
    destruct (Z.lt_ge_cases m 0). { rewrite B1 in H; [discriminate|lia]. }
    destruct (Z.lt_ge_cases m n). 2:{ rewrite B1 in H; [discriminate|lia]. }
    destruct B2 as (c' & t1 & E1 & C); [lia|]. rewrite H in E1. inversion E1; subst; auto.
  - apply ct_add; auto.
  - destruct (thr_object_facts _ _ Hn (O who)) as (En & Es & Ep & Em & Ec & Ef).
    destruct (pub_rerand_spec _ n Hn En Es Em Ef a ca t IHthr_made) as (c' & t1 & E1 & C).
    rewrite H0 in E1. inversion E1; subst; auto.
Qed.

(** C33. Keys generated from distinct primes: one party's partial decryption
    and the other party's decryption recover the message, in both directions. *)
Theorem C33_threshold_decrypts :
  forall p q bits t n sk1 sk2 t', prime p -> prime q -> p <> q ->
    threshold_keygen p q bits t = Ok ((n, sk1, sk2), t') ->
    n = p * q /\
    forall P0 P1 m c, thr_object n P0 -> thr_object n P1 -> thr_made n P0 P1 m c ->
      (exists a, thr_partial n sk1 c = Ok a /\ thr_decrypt n sk2 c a = Ok (m mod n))
      /\ (exists a, thr_partial n sk2 c = Ok a /\ thr_decrypt n sk1 c a = Ok (m mod n)).
Proof.
  intros p q bits t n sk1 sk2 t' Pp Pq N K. assert (1 < p) by (destruct Pp; auto). assert (1 < q) by (destruct Pq; auto).
  apply keygen_spec in K as (En & S1 & S2 & D1 & D2); auto. split; auto.
  intros P0 P1 m c O0 O1 C. apply thr_made_ct in C; auto; [|nia]. split.
  - apply (thr_decrypt_spec p q n sk1 sk2); auto; lia.
  - apply (thr_decrypt_spec p q n sk2 sk1); auto; try lia; rewrite Z.add_comm; auto.
Qed.
(** C33. Range checks, and what happens to an in-range partial decryption that
    does not fit: the process is terminated (BigNum::Div CHECK), so a peer can
    crash the decrypting party. *)
Theorem C33_threshold_ranges :
  forall n share : Z, 1 < n -> 0 <= share ->
  (forall c, ~ 0 <= c < n * n -> thr_partial n share c = Err InvalidArgument)
  /\ (forall c a, ~ (0 <= c < n * n /\ 0 <= a < n * n) -> thr_decrypt n share c a = Err InvalidArgument)
  /\ (forall c a, 0 <= c < n * n -> 0 <= a < n * n ->
        (thr_decrypt n share c a = Abort <-> a * c ^ share mod n <> 1)).
Proof.
  intros n share Hn Hs. split; [|split].
  - intros c H. apply thr_partial_range. lia.
  - intros c a H. apply thr_decrypt_range. lia.
  - intros c a Hc Ha. unfold thr_decrypt, thr_partial.
    destruct (Z.ltb_spec c 0); [lia|]. destruct (Z.ltb_spec a 0); [lia|].
    destruct (Z.leb_spec (n * n) c); [lia|]. destruct (Z.leb_spec (n * n) a); [lia|].
    rewrite mod_exp_total by nia. cbn [obind]. rewrite Z.mul_mod_idemp_r by nia.
    unfold bn_div. destruct (Z.eqb_spec n 0); [lia|].
    set (x := a * c ^ share mod (n * n)).
    assert (X : eqm n x (a * c ^ share)).
    { apply eqm_divide with (n * n); [exists n; lia|]. apply eqm_mod. nia. }
    apply eqm_iff in X; [|lia]. rewrite <- X.
    destruct (Z.eqb_spec (Z.rem (x - 1) n) 0) as [E|E]; split; try discriminate; auto; intros M.
    + exfalso. apply Z.rem_divide in E; [|lia]. apply M.
      assert (E1 : eqm n x 1) by exact E. apply eqm_iff in E1; [|lia]. rewrite E1. apply Z.mod_small. lia.
    + clear M; intros M. apply E. apply Z.rem_divide; [lia|]. assert (E1 : eqm n x 1); [|exact E1].
      apply eqm_iff; [lia|]. rewrite M, Z.mod_small; lia.
Qed.
(** C33. The generator does not exclude p = q, and then the scheme is wrong:
    keys are handed out but a fresh encryption decrypts to another value or
    terminates the process. *)
Definition bad_pub : outcome pub := Eval vm_compute in pub_make false 25 1 2.
Definition const_tape (z : Z) : tape := fun _ => z.
Theorem C33_equal_primes_break :
  exists t n sk1 sk2 t' P c tc tc', prime 5 /\ threshold_keygen 5 5 3 t = Ok ((n, sk1, sk2), t') /\
    pub_make false n 1 2 = Ok P /\ Z.gcd 2 n = 1 /\ pub_encrypt P 3 tc = Ok (c, tc') /\
    forall a, thr_partial n sk1 c = Ok a -> thr_decrypt n sk2 c a <> Ok 3.
Proof.
  destruct bad_pub as [P| | |] eqn:EP; try discriminate.
  assert (A : exists c t1, pub_encrypt P 3 (const_tape 1) = Ok (c, t1)).
  { unfold bad_pub in EP. injection EP as <-. eexists _, _. vm_compute. reflexivity. }
  destruct A as (c & tc & A).
  assert (K : exists sk1 sk2 t', threshold_keygen 5 5 3 (const_tape 1) = Ok ((25, sk1, sk2), t')
     /\ (sk1 =? 1) && (sk2 =? 175) = true).
  { eexists _, _, _. split; vm_compute; reflexivity. }
  destruct K as (sk1 & sk2 & t' & K & E). apply andb_prop in E as (E1 & E2). apply Z.eqb_eq in E1, E2. subst sk1 sk2.
  exists (const_tape 1), 25, 1, 175, t', P, c, (const_tape 1), tc.
  split; [apply prime_b_prime; reflexivity|]. split; [exact K|].
  split; [transitivity bad_pub; [vm_compute; reflexivity|exact EP]|]. split; [reflexivity|]. split; [exact A|].
  intros a Ha. unfold bad_pub in EP. injection EP as <-. vm_compute in A. injection A as <- _.
  vm_compute in Ha. injection Ha as <-. vm_compute. discriminate.
Qed.
Example C33_case : exists n sk1 sk2 t', threshold_keygen 7 11 4 (const_tape 6) = Ok ((n, sk1, sk2), t')
  /\ n = 77 /\ prime 7 /\ prime 11.
Proof.
  eexists _, _, _, _. split; [vm_compute; reflexivity|]. split; [reflexivity|].
  split; apply prime_b_prime; reflexivity.
Qed.

(** ** C36 *)
(** Ciphers obtained from the two constructors that check their key. *)
Definition made_cipher (Gr : group) (c : cipher) : Prop :=
  (exists h t t', @cipher_new Gr h t = Ok (c, t')) \/ (exists key h, @cipher_from_key Gr key h = Ok c).
Theorem C36_commutative_cipher :
  forall (Gr : group) (c1 c2 : cipher), made_cipher Gr c1 -> made_cipher Gr c2 ->
  forall (x : Gr), x <> gid ->
    (** encrypting any serialized point works *)
    (exists w1 w2, cipher_reencrypt c1 (WPt x) = Ok w1 /\ cipher_reencrypt c2 (WPt x) = Ok w2
      (** the two layers commute *)
      /\ cipher_reencrypt c2 w1 = cipher_reencrypt c1 w2
      (** decrypting removes the layer *)
      /\ cipher_decrypt c1 w1 = Ok (WPt x)
      (** and exactly that layer *)
      /\ (exists w12, cipher_reencrypt c2 w1 = Ok w12 /\ cipher_decrypt c1 w12 = Ok w2 /\ cipher_decrypt c2 w12 = Ok w1))
    (** encryption of strings is encryption of their hash *)
    /\ (forall hash pt, hash pt = Ok x -> cipher_encrypt hash c1 pt = cipher_reencrypt c1 (WPt x))
    (** different points stay different *)
    /\ (forall y, y <> gid -> cipher_reencrypt c1 (WPt x) = cipher_reencrypt c1 (WPt y) -> x = y).
Proof.
  intros Gr c1 c2 H1 H2 x Hx.
  assert (G : forall c, made_cipher Gr c -> @good_cipher Gr c).
  { intros c [(h & t & t' & E)|(key & h & E)]; [eapply cipher_new_good; eauto|eapply cipher_from_key_good; eauto]. }
  apply G in H1, H2. clear G.
  assert (N : forall c (y : Gr), @good_cipher Gr c -> y <> gid -> gpow y (cc_key c) <> gid).
  { intros c y (K & _) Hy. apply gpow_nonid; auto. }
  split; [|split].
  - exists (WPt (gpow x (cc_key c1))), (WPt (gpow x (cc_key c2))).
    rewrite !cipher_reencrypt_ok by auto. split; [auto|]. split; [auto|].
    rewrite !cipher_decrypt_ok by auto. rewrite cipher_inverts by auto.
    assert (C : gpow (gpow x (cc_key c1)) (cc_key c2) = gpow (gpow x (cc_key c2)) (cc_key c1))
      by (rewrite <- !gpow_mul; f_equal; lia).
    split; [rewrite C; auto|]. split; [auto|].
    exists (WPt (gpow (gpow x (cc_key c1)) (cc_key c2))). split; [auto|]. split.
    + rewrite cipher_decrypt_ok by auto. rewrite C, cipher_inverts by auto. auto.
    + rewrite cipher_decrypt_ok by auto. rewrite cipher_inverts by auto. auto.
  - intros hash pt E. unfold cipher_encrypt, cipher_reencrypt. rewrite E, create_point_ok by auto. reflexivity.
  - intros y Hy. rewrite !cipher_reencrypt_ok by auto. intros E. inversion E as [E'].
    rewrite <- (cipher_inverts c1 x), <- (cipher_inverts c1 y), E' by auto. auto.
Qed.
(** C36. Keys: accepted iff in [1, order) (and the hash type is known). *)
Theorem C36_key_range :
  forall (Gr : group) (key : bytes) (h : Z),
    ((exists c, @cipher_from_key Gr key h = Ok c) <-> 0 <= h <= 3 /\ 1 <= of_bytes key < ord Gr)
    /\ (~ (0 <= h <= 3 /\ 1 <= of_bytes key < ord Gr) -> @cipher_from_key Gr key h = Err InvalidArgument).
Proof.
  intros Gr key h. assert (V : validate_hash_type h = true <-> 0 <= h <= 3).
  { unfold validate_hash_type. rewrite andb_true_iff, !Z.leb_le. tauto. }
  rewrite cipher_from_key_iff, V. split; [tauto|]. intros N. apply cipher_from_key_refused. rewrite V. auto.
Qed.
(** C36. Keys derived from a seed are not checked: a seed whose PRF value is 0
    yields a cipher that cannot encrypt anything. *)
Theorem C36_seed_key_unchecked :
  forall (Gr : group) hmac fuel seed tag h c,
    3 <= ord Gr -> cipher_from_seed (Gr := Gr) hmac fuel seed tag h = Some (Ok c) ->
    prf hmac fuel seed tag (ord Gr) = Some (Ok 0) ->
    forall x : Gr, cipher_reencrypt c (WPt x) <> Ok (WPt x) /\
      (x <> gid -> cipher_reencrypt c (WPt x) = Err Internal).
Proof.
  intros Gr hmac fuel seed tag h c O E P x. unfold cipher_from_seed in E. rewrite P in E.
  destruct (length seed <? 16)%nat; [discriminate|]. destruct (validate_hash_type h); [|discriminate].
  inversion E as [E']. unfold cipher_make in E'. apply obind_Ok in E' as (i & _ & E'). inversion E'; subst c.
  assert (R : x <> gid -> cipher_reencrypt {| cc_key := 0; cc_inv := i; cc_hash := h |} (WPt x) = Err Internal).
  { intros Hx. unfold cipher_reencrypt. rewrite create_point_ok by auto. cbn [obind].
    unfold cipher_encrypt_point; cbn [cc_key]. rewrite gpow_0. apply point_to_bytes_id. }
  split; auto. unfold cipher_reencrypt, create_point. destruct (geqb x gid) eqn:G; [discriminate|].
  apply geqb_false in G. intros H. specialize (R G). unfold cipher_reencrypt in R. rewrite create_point_ok in R by auto.
  cbn [obind] in H, R. rewrite R in H. discriminate.
Qed.
(** Commutative ElGamal objects rebuilt from consistent key bytes decrypt what
    they encrypt; inconsistent ones are refused; without a private key
    decryption is refused. *)
Theorem C36_commutative_elgamal :
  forall (Gr : group) (w : wpoint Gr * wpoint Gr) (sk : bytes) k,
    ceg_from_keys w sk = Ok k ->
    (forall x : Gr, x <> gid -> forall t c t', ceg_encrypt k (WPt x) t = Ok (c, t') -> ceg_decrypt k c = Ok (WPt x))
    /\ (forall t c t', ceg_encrypt_identity k t = Ok (c, t') -> ceg_decrypt k c = Err Internal)
    /\ ceg_public_bytes k = Ok w
    /\ (forall k', ceg_from_public w = Ok k' -> forall c, ceg_decrypt k' c = Err InvalidArgument).
Proof.
  intros Gr w sk k H. apply ceg_from_keys_spec in H as (H1 & H2 & _ & _ & H5).
  split; [|split; [|split]]; auto.
  - intros x Hx t c t' E. unfold ceg_encrypt in E. rewrite create_point_ok in E by auto.
    unfold bind, lift in E. fold (ceg_encrypt_pt k x t) in E.
    assert (E' : ceg_encrypt_pt k x t = Ok (c, t')) by exact E.
    rewrite (ceg_encrypt_dec _ _ _ _ _ _ H2 H5 E'). apply point_to_bytes_ok; auto.
  - intros t c t' E. unfold ceg_encrypt_identity in E.
    rewrite (ceg_encrypt_dec _ _ _ _ _ _ H2 H5 E). apply point_to_bytes_id.
  - intros k' E c. unfold ceg_from_public in E. apply obind_Ok in E as (g & _ & E). apply obind_Ok in E as (y & _ & E).
    inversion E; subst. reflexivity.
Qed.
(** C36. The EC layers on top of an ElGamal encryption: encrypting a point
    with commutative ElGamal and then its ciphertext with any two ciphers, in
    either order, gives the same ciphertext; decrypting the ElGamal layer leaves
    the point under both ciphers, which take their layers off. *)
Theorem C36_elgamal_layers :
  forall (Gr : group) (w : wpoint Gr * wpoint Gr) (sk : bytes) k (c1 c2 : cipher),
    ceg_from_keys w sk = Ok k -> made_cipher Gr c1 -> made_cipher Gr c2 ->
    forall (x : Gr) t ct0 t', x <> gid -> ceg_encrypt k (WPt x) t = Ok (ct0, t') ->
    exists ct1 ct2 ct12 x12, cipher_reencrypt_elgamal c1 ct0 = Ok ct1 /\ cipher_reencrypt_elgamal c2 ct0 = Ok ct2
      /\ cipher_reencrypt_elgamal c2 ct1 = Ok ct12 /\ cipher_reencrypt_elgamal c1 ct2 = Ok ct12
      /\ ceg_decrypt k ct1 = cipher_reencrypt c1 (WPt x)
      /\ ceg_decrypt k ct12 = Ok x12
      /\ (let! y := cipher_decrypt c1 x12 in cipher_decrypt c2 y) = Ok (WPt x)
      /\ (let! y := cipher_decrypt c2 x12 in cipher_decrypt c1 y) = Ok (WPt x).
Proof.
  intros Gr w sk k c1 c2 HK H1 H2 x t ct0 t' Hx HE.
  assert (G : forall c, made_cipher Gr c -> @good_cipher Gr c).
  { intros c [(h & t0 & t0' & E)|(key & h & E)]; [eapply cipher_new_good; eauto|eapply cipher_from_key_good; eauto]. }
  apply G in H1, H2. clear G.
  assert (N : forall c (y : Gr), @good_cipher Gr c -> y <> gid -> gpow y (cc_key c) <> gid).
  { intros c y (K & _) Hy. apply gpow_nonid; auto. }
  apply ceg_from_keys_spec in HK as (_ & Ex & _ & _ & Ey).
  unfold ceg_encrypt in HE. apply bind_Ok in HE as (p & t0 & Hp & HE). apply lift_Ok in Hp as (Hp & ->). rewrite create_point_ok in Hp by auto. injection Hp as <-.
  pose proof (ceg_encrypt_dec _ _ _ _ _ _ Ex Ey HE) as D0.
  assert (exists u e, u <> gid /\ e <> gid /\ ct0 = (WPt u, WPt e)) as (u & e & Nu & Ne & ->).
  { unfold ceg_encrypt_pt in HE. apply bind_Ok in HE as (c & ta & _ & HE). apply bind_Ok in HE as (su & tb & Hu & HE). apply lift_Ok in Hu as (Hu & _).
    apply bind_Ok in HE as (se & tc & Hs & HE). apply lift_Ok in Hs as (Hs & _). apply ret_Ok in HE as (-> & _).
    apply point_to_bytes_Ok in Hu as (Nu & ->). apply point_to_bytes_Ok in Hs as (Ne & ->). eauto 10. }
  assert (RE : forall c (a b : Gr), @good_cipher Gr c -> a <> gid -> b <> gid -> cipher_reencrypt_elgamal c (WPt a, WPt b) = Ok (WPt (gpow a (cc_key c)), WPt (gpow b (cc_key c)))).
  { intros c a b Gc Na Nb. unfold cipher_reencrypt_elgamal. cbn [fst snd]. rewrite !create_point_ok by auto. cbn [obind ct_exp ct_u ct_e]. rewrite !point_to_bytes_ok by auto. reflexivity. }
  assert (DE : forall a b : Gr, a <> gid -> b <> gid -> ceg_decrypt k (WPt a, WPt b) = point_to_bytes (decrypt (of_bytes sk) (mkCt a b))).
  { intros a b Na Nb. unfold ceg_decrypt. rewrite Ex. cbn [fst snd]. rewrite !create_point_ok by auto. reflexivity. }
  rewrite DE in D0 by auto. rewrite (point_to_bytes_ok x) in D0 by auto. apply point_to_bytes_Ok in D0 as (_ & D0). injection D0 as D0.
  assert (DX : forall q, decrypt (of_bytes sk) (mkCt (gpow u q) (gpow e q)) = gpow x q).
  { intros q. change (mkCt (gpow u q) (gpow e q)) with (ct_exp (mkCt u e) q). rewrite ElGamalProofs.decrypt_exp_ct. f_equal. auto. }
  exists (WPt (gpow u (cc_key c1)), WPt (gpow e (cc_key c1))), (WPt (gpow u (cc_key c2)), WPt (gpow e (cc_key c2))),
    (WPt (gpow (gpow u (cc_key c1)) (cc_key c2)), WPt (gpow (gpow e (cc_key c1)) (cc_key c2))), (WPt (gpow (gpow x (cc_key c1)) (cc_key c2))).
  assert (C : forall y : Gr, gpow (gpow y (cc_key c1)) (cc_key c2) = gpow (gpow y (cc_key c2)) (cc_key c1))
    by (intros y; rewrite <- !gpow_mul; f_equal; lia).
  rewrite !RE by auto. repeat (split; [first [reflexivity|rewrite !C; reflexivity]|]).
  split; [rewrite DE, DX, cipher_reencrypt_ok by auto; apply point_to_bytes_ok; auto|].
  split; [rewrite DE, <- !gpow_mul, DX by auto; apply point_to_bytes_ok; rewrite gpow_mul; auto|].
  split.
  - rewrite cipher_decrypt_ok by auto. cbn [obind]. rewrite C, cipher_inverts by auto. rewrite cipher_decrypt_ok by auto. rewrite cipher_inverts by auto. auto.
  - rewrite cipher_decrypt_ok by auto. cbn [obind]. rewrite cipher_inverts by auto. rewrite cipher_decrypt_ok by auto. rewrite cipher_inverts by auto. auto.
Qed.
(** C36. Commutative ElGamal's key bytes: the object rebuilt from the bytes a
    new one reports is that object; the bytes an object rebuilt from key bytes
    reports rebuild it again. *)
Theorem C36_elgamal_key_bytes :
  forall (Gr : group) (k : ceg Gr),
    (exists t t', ceg_new t = Ok (k, t')) \/ (exists w sk, Forall is_byte sk /\ ceg_from_keys w sk = Ok k) ->
    exists w sk, ceg_public_bytes k = Ok w /\ ceg_private_bytes k = Ok sk /\ ceg_from_keys w sk = Ok k
      /\ ceg_from_public w = Ok (mkCeg (ceg_pk k) None).
Proof.
  intros Gr [[g y] s] HK.
  assert (exists x, s = Some x /\ 0 <= x /\ g <> gid /\ y <> gid /\ y = gpow g x) as (x & -> & X0 & Ng & Ny & Ey).
  { destruct HK as [(t & t' & HK)|(w & sk & IB & HK)].
    - unfold ceg_new, gen_key_pair in HK. apply bind_Ok in HK as ([pk x] & t1 & H1 & H2). apply bind_Ok in H1 as (x' & t2 & H1 & H3). apply ret_Ok in H3 as (H3 & _). injection H3 as -> ->.
      apply ret_Ok in H2 as (H2 & _). injection H2 as -> -> ->. apply ElGamalProofs.gen_private_key_range in H1. exists x'. split; auto. split; [lia|].
      assert (@gen Gr <> gid) by apply gen_nontrivial. split; auto. split; auto. apply gpow_nonid; auto.
    - apply ceg_from_keys_spec in HK as (_ & Ex & Ng & Ny & Ey). cbn [ceg_sk ceg_pk pk_g pk_y] in *. exists (of_bytes sk). split; auto. split; auto. apply of_bytes_bound; auto. }
  assert (TB : exists b, to_bytes x = Ok b /\ of_bytes b = x).
  { unfold to_bytes. destruct (Z.ltb_spec x 0); [lia|]. eexists. split; [reflexivity|]. apply bn2bin_spec; auto. }
  destruct TB as (b & B1 & B2). exists (WPt g, WPt y), b.
  unfold ceg_public_bytes, ceg_private_bytes, ceg_from_keys, ceg_from_public. cbn [ceg_pk ceg_sk pk_g pk_y fst snd].
  rewrite !point_to_bytes_ok, !create_point_ok by auto. cbn [obind]. rewrite B2, <- Ey, geqb_refl. auto.
Qed.
Lemma prime_11' : prime 11. Proof. apply prime_b_prime. reflexivity. Qed.
Example C36_case : exists c, @cipher_from_key (zmod_group 11 prime_11') [4] 0 = Ok c /\ cc_inv c = 3.
Proof. eexists. split; vm_compute; reflexivity. Qed.

Print Assumptions C32_paillier_decrypts.
Print Assumptions C32_paillier_ranges.
Print Assumptions C32_reported_randomness.
Print Assumptions C33_threshold_decrypts.
Print Assumptions C33_threshold_ranges.
Print Assumptions C33_equal_primes_break.
Print Assumptions C34_crt.
Print Assumptions C35_fixed_base_exp.
Print Assumptions C36_commutative_cipher.
Print Assumptions C36_key_range.
Print Assumptions C36_seed_key_unchecked.
Print Assumptions C36_commutative_elgamal.
Print Assumptions C36_elgamal_layers.
Print Assumptions C36_elgamal_key_bytes.
