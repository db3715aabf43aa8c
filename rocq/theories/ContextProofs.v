Require Import List Arith Lia ZArith Bool.
Import ListNotations.
From Verif Require Import Prelude BytesModel BytesProofs Coins ContextModel.
Local Open Scope Z_scope.

Lemma bit_length_spec x : 0 < x -> 2 ^ (bit_length x - 1) <= x < 2 ^ bit_length x /\ 0 < bit_length x.
Proof.
  intros H. unfold bit_length. destruct (Z.eqb_spec x 0); [lia|]. rewrite Z.abs_eq by lia.
  pose proof (Z.log2_spec x H). pose proof (Z.log2_nonneg x).
  replace (Z.log2 x + 1 - 1) with (Z.log2 x) by lia. rewrite Z.add_1_r. split; [lia|lia].
Qed.
Lemma bit_length_pow2 k : 0 <= k -> bit_length (2 ^ k) = k + 1.
Proof. intros H. unfold bit_length. destruct (Z.eqb_spec (2 ^ k) 0) as [E|]. { pose proof (Z.pow_pos_nonneg 2 k). lia. }
  rewrite Z.abs_eq by (apply Z.pow_nonneg; lia). rewrite Z.log2_pow2; auto. Qed.

Lemma rne_bounds num den : 0 < den ->
  let m := rne num den in 2 * (num - m * den) <= den /\ -den <= 2 * (num - m * den).
Proof.
  intros Hd m. unfold m, rne. pose proof (Z.div_mod num den). pose proof (Z.mod_pos_bound num den Hd).
  destruct (Z.ltb_spec (2 * (num mod den)) den); [nia|].
  destruct (Z.ltb_spec den (2 * (num mod den))); [nia|].
  destruct (Z.even (num / den)); nia.
Qed.
Lemma rne_le num den q : 0 < den -> num <= q * den -> rne num den <= q.
Proof.
  intros Hd H. pose proof (rne_bounds num den Hd) as B. cbv zeta in B.
  destruct (Z_lt_le_dec q (rne num den)) as [G|]; auto.
  (* m >= q+1: then m*den - num >= den, contradiction with <= den/2 *)
  nia.
Qed.
Lemma f32_div_ceil_exact a b : 256 <= b <= 512 -> b <= a < 2 ^ 24 -> 
  (a < 2 ^ 23 \/ b = 256 \/ b <= 384 \/ 512 <= b) ->
  f32_div_ceil (f32_of_int a) b = (a + b - 1) / b.
Proof.
  intros Hb Ha Hc. unfold f32_of_int. destruct (Z.ltb_spec a (2 ^ 24)); [|lia].
  unfold f32_div_ceil. set (q := a / b). set (e := Z.log2 q).
  assert (Q : 1 <= q) by (apply Z.div_le_lower_bound; lia).
  pose proof (Z.log2_spec q) as L. fold e in L. destruct L as [L1 L2]; [lia|].
  pose proof (Z.log2_nonneg q) as En. fold e in En.
  assert (Hk : 2 ^ (e + 8) < 2 ^ 24 /\ (b = 512 -> 2 ^ (e + 9) < 2 ^ 24)).
  { assert (b * q <= a) by (apply Z.mul_div_le; lia).
    rewrite !Z.pow_add_r by lia. change (2 ^ 8) with 256. change (2 ^ 9) with 512. nia. }
  assert (e < 16) by (destruct Hk as [Hk _]; apply Z.pow_lt_mono_r_iff in Hk; lia).
  destruct (Z.leb_spec e 23); [|lia].
  set (k := 23 - e). set (m := rne (a * 2 ^ k) b).
  assert (P : 0 < 2 ^ k) by (apply Z.pow_pos_nonneg; lia).
  assert (B2 : b < 2 ^ (k + 1)).
  { assert (2 ^ 9 <= 2 ^ (k + 1)) by (apply Z.pow_le_mono_r; lia).
    destruct (Z.eq_dec b 512) as [E5|]; [|lia].
    destruct Hk as [_ Hk]. specialize (Hk E5). apply Z.pow_lt_mono_r_iff in Hk; try lia.
    assert (2 ^ 10 <= 2 ^ (k + 1)) by (apply Z.pow_le_mono_r; lia). lia. }
  rewrite Z.pow_add_r in B2 by lia. change (2 ^ 1) with 2 in B2.
  set (c := (a + b - 1) / b).
  assert (C : (c - 1) * b < a <= c * b).
  { unfold c. pose proof (Z.div_mod (a + b - 1) b). pose proof (Z.mod_pos_bound (a + b - 1) b). nia. }
  assert (U : m <= c * 2 ^ k). { apply rne_le; [lia|]. nia. }
  assert (Lo : (c - 1) * 2 ^ k < m).
  { pose proof (rne_bounds (a * 2 ^ k) b) as R. cbv zeta in R. fold m in R. nia. }
  assert (E : (- m) / 2 ^ k = - c).
  { symmetry. apply Z.div_unique with (c * 2 ^ k - m); nia. }
  rewrite E. lia.
Qed.

Section Oracle.
Variable hlen : Z.
Variable sha : bytes -> bytes.
Hypothesis Hlen : hlen = 256 \/ hlen = 384 \/ hlen = 512.
Hypothesis Hsha : forall s, Z.of_nat (length (sha s)) * 8 = hlen /\ Forall is_byte (sha s).

Definition digests (x : bytes) (n : nat) : bytes :=
  flat_map (fun i => sha (bn2bin (Z.of_nat i) ++ x)) (seq 1 n).

Lemma digests_length x n : Z.of_nat (length (digests x n)) * 8 = Z.of_nat n * hlen.
Proof.
  unfold digests. generalize 1%nat. induction n as [|n IH]; intros k; cbn [seq flat_map]; [reflexivity|].
  rewrite app_length, Nat2Z.inj_add. destruct (Hsha (bn2bin (Z.of_nat k) ++ x)) as [L _]. specialize (IH (S k)). lia.
Qed.
Lemma digests_bytes x n : Forall is_byte (digests x n).
Proof. unfold digests. apply Forall_forall. intros b Hb. apply in_flat_map in Hb as (i & _ & Hi).
  destruct (Hsha (bn2bin (Z.of_nat i) ++ x)) as [_ F]. rewrite Forall_forall in F. auto. Qed.
Lemma seqdig_length x n : forall k,
  Z.of_nat (length (flat_map (fun i => sha (bn2bin (Z.of_nat i) ++ x)) (seq k n))) * 8 = Z.of_nat n * hlen.
Proof.
  induction n as [|n IH]; intros k; cbn [seq flat_map]; [reflexivity|].
  rewrite app_length, Nat2Z.inj_add. destruct (Hsha (bn2bin (Z.of_nat k) ++ x)) as [L _]. specialize (IH (S k)). lia.
Qed.
Lemma oracle_loop_spec x n : forall k acc,
  oracle_loop hlen sha x (Z.of_nat k) n acc =
  acc * 2 ^ (Z.of_nat n * hlen) + of_bytes (flat_map (fun i => sha (bn2bin (Z.of_nat i) ++ x)) (seq k n)).
Proof.
  induction n as [|n IH]; intros k acc; cbn [oracle_loop seq flat_map].
  - change (Z.of_nat 0) with 0. rewrite Z.mul_0_l. change (of_bytes []) with 0. rewrite Z.pow_0_r. lia.
  - replace (Z.of_nat k + 1) with (Z.of_nat (S k)) by lia. rewrite IH.
    rewrite of_bytes_app.
    replace (256 ^ Z.of_nat (length (flat_map (fun i => sha (bn2bin (Z.of_nat i) ++ x)) (seq (S k) n))))
      with (2 ^ (Z.of_nat n * hlen)).
    2:{ change 256 with (2 ^ 8). rewrite <- Z.pow_mul_r by lia. f_equal. rewrite <- (seqdig_length x n (S k)). lia. }
    rewrite Nat2Z.inj_succ, Z.mul_succ_l, Z.pow_add_r by lia. ring.
Qed.

Lemma random_oracle_spec x max : 0 < max -> bit_length max + hlen < 2 ^ 24 ->
  let L := bit_length max + hlen in
  let n := (L + hlen - 1) / hlen in
  L <= n * hlen < L + hlen /\
  random_oracle hlen sha x max =
    if 130048 <=? n * hlen then Abort
    else Ok ((of_bytes (digests x (Z.to_nat n)) / 2 ^ (n * hlen - L)) mod max).
Proof.
  intros Hm HL L n. pose proof (bit_length_spec max Hm) as [_ BP].
  assert (H1 : L <= n * hlen < L + hlen).
  { unfold n. pose proof (Z.div_mod (L + hlen - 1) hlen). pose proof (Z.mod_pos_bound (L + hlen - 1) hlen). nia. }
  split; auto.
  unfold random_oracle, iter_count. fold L. rewrite f32_div_ceil_exact by (fold L in HL; lia). fold n.
  destruct (Z.leb_spec 130048 (n * hlen)); auto.
  destruct (Z.ltb_spec (n * hlen - L) 0); [lia|]. destruct (Z.eqb_spec max 0); [lia|]. simpl orb. cbv iota.
  rewrite Z.abs_eq by lia. change 1 with (Z.of_nat 1). rewrite oracle_loop_spec. reflexivity.
Qed.

Lemma random_oracle_range x max r : 0 < max -> random_oracle hlen sha x max = Ok r -> 0 <= r < max.
Proof.
  intros Hm. unfold random_oracle. destruct (_ <=? _); [discriminate|].
  destruct (_ || _); [discriminate|]. intros E. inversion E. rewrite Z.abs_eq by lia. apply Z.mod_pos_bound. auto.
Qed.
End Oracle.

(** BigNum2bool with 72 bits *)
Lemma bignum2bool_spec sha256 x cnt :
  (forall s, length (sha256 s) = 32%nat /\ Forall is_byte (sha256 s)) -> (0 < cnt <= 1000)%nat -> 0 <= x ->
  exists v, random_oracle 256 sha256 (bn2bin x) (2 ^ (Z.of_nat cnt + 1)) = Ok v /\
    0 <= v < 2 ^ (Z.of_nat cnt + 1) /\
    bignum2bool sha256 x cnt =
      if (8 * length (bn2bin v) <? cnt)%nat then UB else Ok (msb_bits cnt v).
Proof.
  intros HS Hc Hx. set (max := 2 ^ (Z.of_nat cnt + 1)).
  assert (Hmax : 0 < max) by (apply Z.pow_pos_nonneg; lia).
  assert (BL : bit_length max = Z.of_nat cnt + 2).
  { unfold max. rewrite bit_length_pow2 by lia. lia. }
  assert (HS' : forall s, Z.of_nat (length (sha256 s)) * 8 = 256 /\ Forall is_byte (sha256 s)).
  { intros s. destruct (HS s) as [-> ?]. split; auto. }
  destruct (random_oracle_spec 256 sha256 (or_introl eq_refl) HS' (bn2bin x) max Hmax) as (_ & E). { rewrite BL. lia. }
  set (n := (bit_length max + 256 + 256 - 1) / 256) in E.
  assert (n * 256 < 130048).
  { unfold n. pose proof (Z.mul_div_le (bit_length max + 256 + 256 - 1) 256). lia. }
  destruct (Z.leb_spec 130048 (n * 256)); [lia|].
  eexists. split; [exact E|]. pose proof (random_oracle_range 256 sha256 _ _ _ Hmax E) as R.
  split; [exact R|]. unfold bignum2bool, to_bytes. destruct (Z.ltb_spec x 0); [lia|]. cbn [obind].
  fold max. rewrite E. cbn [obind]. set (v := _ mod max) in *.
  destruct (Z.ltb_spec v 0); [lia|]. cbn [obind].
  destruct (bn2bin_spec v) as (F & B & _); [lia|].
  destruct (Nat.ltb_spec (8 * length (bn2bin v)) cnt).
  - apply bytes2bool_ub; auto.
  - rewrite bytes2bool_ok by auto. rewrite B. reflexivity.
Qed.

(** PRF *)
Lemma prf_spec hmac fuel : forall key data max o,
  prf hmac fuel key data max = Some o ->
  match o with
  | Ok r => 0 <= r < max
  | Abort => (length key < 10)%nat \/ 512 < bit_length max
  | _ => False
  end.
Proof.
  induction fuel as [|f IH]; intros key data max o H; cbn [prf] in H; [discriminate|].
  destruct (Z.ltb_spec (Z.of_nat (length key) * 8) 80). { inversion H; subst. left. lia. }
  destruct (Z.ltb_spec 512 (bit_length max)). { inversion H; subst. right. lia. }
  destruct (Z.ltb_spec (of_bytes (hmac key data) mod 2 ^ bit_length max) max).
  - inversion H; subst. split; auto. apply Z.mod_pos_bound. apply Z.pow_pos_nonneg; try lia.
    unfold bit_length. destruct (max =? 0); [lia|]. pose proof (Z.log2_nonneg (Z.abs max)). lia.
  - eapply IH. exact H.
Qed.
Lemma prf_mono hmac fuel : forall fuel' key data max o, (fuel <= fuel')%nat ->
  prf hmac fuel key data max = Some o -> prf hmac fuel' key data max = Some o.
Proof.
  induction fuel as [|f IH]; intros [|f'] key data max o L H; cbn [prf] in *; try discriminate; try lia.
  destruct (_ <? 80); auto. destruct (512 <? _); auto. destruct (_ <? max); auto. apply IH; auto. lia.
Qed.
Lemma prf_diverges hmac fuel : forall key data max, max <= 0 -> (10 <= length key)%nat -> bit_length max <= 512 ->
  prf hmac fuel key data max = None.
Proof.
  induction fuel as [|f IH]; intros key data max H1 H2 H3; cbn [prf]; auto.
  destruct (Z.ltb_spec (Z.of_nat (length key) * 8) 80); [lia|].
  destruct (Z.ltb_spec 512 (bit_length max)); [lia|].
  destruct (Z.ltb_spec (of_bytes (hmac key data) mod 2 ^ bit_length max) max) as [G|]; auto.
  assert (0 <= of_bytes (hmac key data) mod 2 ^ bit_length max).
  { apply Z.mod_pos_bound. apply Z.pow_pos_nonneg; try lia.
    unfold bit_length. destruct (max =? 0); [lia|]. pose proof (Z.log2_nonneg (Z.abs max)). lia. }
  lia.
Qed.

Lemma rel_prime_spec fuel : forall num t r t', rel_prime_less_than fuel num t = Some (Ok (r, t')) ->
  0 <= r < num /\ Z.gcd r num = 1.
Proof.
  induction fuel as [|f IH]; intros num t r t' H; cbn [rel_prime_less_than] in H; [discriminate|].
  destruct (rand_less_than num t) as [[r1 t1]| | |] eqn:E; try (inversion H; fail).
  pose proof (rand_less_than_range _ _ _ _ E).
  destruct (Z.ltb_spec 1 (Z.gcd r1 num)); eauto.
  inversion H; subst. split; auto.
  assert (Z.gcd r num <> 0) by (intro G; apply Z.gcd_eq_0_r in G; lia).
  pose proof (Z.gcd_nonneg r num). lia.
Qed.
Lemma rel_prime_finds num r : 0 <= r < num -> Z.gcd r num = 1 ->
  forall t, t O = r -> forall fuel, rel_prime_less_than (S fuel) num t = Some (Ok (r, tl_tape t)).
Proof.
  intros H G t Ht fuel. cbn [rel_prime_less_than]. unfold rand_less_than.
  destruct (Z.ltb_spec 0 num); [|lia]. rewrite Ht, Z.mod_small by lia. rewrite G. reflexivity.
Qed.
(** the only way to keep running is to keep drawing non-units *)
Lemma rel_prime_running fuel : forall num t, 0 < num -> rel_prime_less_than fuel num t = None ->
  forall i, (i < fuel)%nat -> 1 < Z.gcd (t i mod num) num.
Proof.
  induction fuel as [|f IH]; intros num t Hn H i Hi; [lia|]. cbn [rel_prime_less_than] in H.
  unfold rand_less_than in H. destruct (Z.ltb_spec 0 num); [|lia].
  destruct (Z.ltb_spec 1 (Z.gcd (t O mod num) num)); [|discriminate].
  destruct i; auto. apply (IH num (tl_tape t)); auto. lia.
Qed.
Lemma rel_prime_bad_bound fuel num t : num <= 0 -> rel_prime_less_than (S fuel) num t = Some Abort.
Proof. intros. cbn [rel_prime_less_than]. unfold rand_less_than. destruct (Z.ltb_spec 0 num); [lia|]. reflexivity. Qed.

(** ** statement lemmas *)
Lemma bytes_canonical :
  to_bytes 0 = Ok []
  /\ (forall x, x < 0 -> to_bytes x = Abort)
  /\ (forall x y s, to_bytes x = Ok s -> to_bytes y = Ok s -> x = y)
  /\ (forall s, Forall is_byte s -> hd 1 s <> 0 -> to_bytes (of_bytes s) = Ok s)
  /\ (forall k s, of_bytes (repeat 0 k ++ s) = of_bytes s)
  /\ (forall s, Forall is_byte s -> 0 <= of_bytes s < 256 ^ Z.of_nat (length s)).
Proof.
  split; [reflexivity|]. split.
  { intros x H. unfold to_bytes. destruct (Z.ltb_spec x 0); auto; lia. }
  split. { intros x y s. unfold to_bytes. destruct (Z.ltb_spec x 0), (Z.ltb_spec y 0); try discriminate.
    intros E1 E2. inversion E1; inversion E2. destruct (bn2bin_spec x) as (_ & B1 & _); auto.
    destruct (bn2bin_spec y) as (_ & B2 & _); auto. congruence. }
  split. { intros s F H. unfold to_bytes. pose proof (of_bytes_bound s F).
    destruct (Z.ltb_spec (of_bytes s) 0); [lia|]. rewrite bn2bin_of_bytes; auto. }
  split; [apply of_bytes_zeros|apply of_bytes_bound].
Qed.

Lemma ciphertext_width :
  (forall n c, 0 < n -> 0 <= c < n * n ->
     exists bl, bignum2block c (blocks_for n) = Ok bl /\ block2bignum bl = c)
  /\ (forall x k, 2 ^ (128 * Z.of_nat k) <= x ->
     exists bl, bignum2block x k = Ok bl /\ block2bignum bl <> x).
Proof.
  split; [|apply block_truncates]. intros n c Hn Hc.
  destruct (block_roundtrip c (blocks_for n)) as (bl & E & _ & _ & R); [|eauto].
  pose proof (blocks_for_suffices n c Hn Hc). lia.
Qed.

Lemma nth_msb cnt v i : (i < cnt)%nat -> nth i (msb_bits cnt v) false = Z.testbit v (Z.of_nat (cnt - 1 - i)).
Proof.
  intros H. unfold msb_bits.
  rewrite nth_indep with (d' := Z.testbit v (Z.of_nat 0)) by (rewrite map_length, rev_length, seq_length; auto).
  rewrite (map_nth (fun i => Z.testbit v (Z.of_nat i))). do 2 f_equal.
  rewrite rev_nth by (rewrite seq_length; auto). rewrite seq_length, seq_nth by lia. lia.
Qed.

Lemma circuit_input (sha256 : bytes -> bytes) x :
  (forall s, length (sha256 s) = 32%nat /\ Forall is_byte (sha256 s)) -> 0 <= x ->
  exists v, random_oracle 256 sha256 (bn2bin x) (2 ^ 73) = Ok v /\ 0 <= v < 2 ^ 73 /\
    (2 ^ 64 <= v ->
       exists bits, bignum2bool sha256 x 72 = Ok bits /\ length bits = 72%nat /\
         forall i, (i < 72)%nat -> nth i bits false = Z.testbit v (71 - Z.of_nat i)) /\
    (v < 2 ^ 64 -> bignum2bool sha256 x 72 = UB).
Proof.
  intros HS Hx. destruct (bignum2bool_spec sha256 x 72 HS) as (v & E & R & B); [lia|auto|].
  change (Z.of_nat 72 + 1) with 73 in *. exists v. split; [exact E|]. split; [exact R|]. split.
  - intros G. assert (8 < length (bn2bin v))%nat.
    { apply bn2bin_length_lower. change (256 ^ Z.of_nat 8) with (2 ^ 64). exact G. }
    destruct (Nat.ltb_spec (8 * length (bn2bin v)) 72); [lia|].
    exists (msb_bits 72 v). split; [exact B|]. split; [apply msb_bits_length|].
    intros i Hi. rewrite nth_msb by auto. f_equal. lia.
  - intros G. assert (length (bn2bin v) <= 8)%nat.
    { apply bn2bin_length. change (256 ^ Z.of_nat 8) with (2 ^ 64). lia. }
    destruct (Nat.ltb_spec (8 * length (bn2bin v)) 72); [exact B|lia].
Qed.

Lemma undefined_reachable :
  exists sha256 : bytes -> bytes,
    (forall s, length (sha256 s) = 32%nat /\ Forall is_byte (sha256 s)) /\
    exists x, 0 <= x /\ bignum2bool sha256 x 72 = UB.
Proof.
  exists (fun _ => repeat 0 32). split.
  - intros _. split; [reflexivity|]. apply Forall_forall. intros b Hb. apply repeat_spec in Hb. subst. unfold is_byte. lia.
  - exists 5. split; [lia|]. vm_compute. reflexivity.
Qed.

Lemma random_oracle_statement (hlen : Z) (sha : bytes -> bytes) (x : bytes) (max : Z) :
  hlen = 256 \/ hlen = 384 \/ hlen = 512 ->
  (forall s, Z.of_nat (length (sha s)) * 8 = hlen /\ Forall is_byte (sha s)) ->
  0 < max -> bit_length max + hlen < 2 ^ 24 ->
  let L := bit_length max + hlen in
  exists n, L <= n * hlen < L + hlen /\
    (130048 <= n * hlen -> random_oracle hlen sha x max = Abort) /\
    (n * hlen < 130048 -> exists r, random_oracle hlen sha x max = Ok r /\ 0 <= r < max /\
       r = (of_bytes (flat_map (fun i => sha (bn2bin (Z.of_nat i) ++ x)) (seq 1 (Z.to_nat n)))
            / 2 ^ (n * hlen - L)) mod max).
Proof.
  intros Hl Hs Hm HL L. destruct (random_oracle_spec hlen sha Hl Hs x max Hm HL) as (B & E).
  exists ((bit_length max + hlen + hlen - 1) / hlen). split; [exact B|]. rewrite E. unfold L. split; intros G.
  - destruct (Z.leb_spec 130048 ((bit_length max + hlen + hlen - 1) / hlen * hlen)); auto; lia.
  - destruct (Z.leb_spec 130048 ((bit_length max + hlen + hlen - 1) / hlen * hlen)); [lia|].
    eexists. split; [reflexivity|]. split; [apply Z.mod_pos_bound; auto|]. reflexivity.
Qed.

Lemma prf_statement (hmac : bytes -> bytes -> bytes) key data max :
  (forall fuel o, prf hmac fuel key data max = Some o ->
     match o with
     | Ok r => 0 <= r < max
     | Abort => (length key < 10)%nat \/ 512 < bit_length max
     | _ => False
     end)
  /\ (forall fuel fuel' o, (fuel <= fuel')%nat ->
        prf hmac fuel key data max = Some o -> prf hmac fuel' key data max = Some o)
  /\ (max <= 0 -> (10 <= length key)%nat -> bit_length max <= 512 ->
        forall fuel, prf hmac fuel key data max = None).
Proof.
  split; [|split]; intros.
  - eapply prf_spec; eauto.
  - eapply prf_mono; eauto.
  - apply prf_diverges; auto.
Qed.

Lemma random_numbers :
  (forall a b t r t', rand_between a b t = Ok (r, t') -> a <= r < b)
  /\ (forall a b r, a <= r < b -> exists t t', rand_between a b t = Ok (r, t'))
  /\ (forall fuel num t r t', rel_prime_less_than fuel num t = Some (Ok (r, t')) ->
        0 <= r < num /\ Z.gcd r num = 1)
  /\ (forall num r, 0 <= r < num -> Z.gcd r num = 1 ->
        exists t t', rel_prime_less_than 1 num t = Some (Ok (r, t')))
  /\ (forall fuel num t, 0 < num -> rel_prime_less_than fuel num t = None ->
        forall i, (i < fuel)%nat -> 1 < Z.gcd (t i mod num) num).
Proof.
  split; [exact rand_between_range|]. split.
  { intros a b r H. exists (fun _ => r - a). eexists. unfold rand_between. destruct (Z.ltb_spec a b); [|lia].
    unfold bind, rand_less_than. destruct (Z.ltb_spec 0 (b - a)); [|lia]. rewrite Z.mod_small by lia.
    unfold ret. f_equal. f_equal. lia. }
  split; [exact rel_prime_spec|]. split.
  { intros num r H G. exists (fun _ => r). eexists. apply rel_prime_finds; auto. }
  exact rel_prime_running.
Qed.
