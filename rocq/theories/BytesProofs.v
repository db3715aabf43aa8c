Require Import List Arith Lia ZArith Bool Znumtheory.
Import ListNotations.
From Verif Require Import Prelude BytesModel.
Local Open Scope Z_scope.

Lemma of_bytes_acc s : forall a, fold_left (fun a b => a * 256 + b) s a = a * 256 ^ Z.of_nat (length s) + of_bytes s.
Proof.
  induction s as [|b s IH]; intros a; unfold of_bytes; cbn [fold_left].
  - simpl. lia.
  - rewrite IH. rewrite (IH (0 * 256 + b)). cbn [length]. rewrite Nat2Z.inj_succ, Z.pow_succ_r by lia. ring.
Qed.
Lemma of_bytes_app s1 s2 : of_bytes (s1 ++ s2) = of_bytes s1 * 256 ^ Z.of_nat (length s2) + of_bytes s2.
Proof. unfold of_bytes at 1. rewrite fold_left_app. fold (of_bytes s1). apply of_bytes_acc. Qed.
Lemma of_bytes_cons b s : of_bytes (b :: s) = b * 256 ^ Z.of_nat (length s) + of_bytes s.
Proof. change (b :: s) with ([b] ++ s). rewrite of_bytes_app. unfold of_bytes at 1. simpl. lia. Qed.
Lemma of_bytes_snoc b s : of_bytes (s ++ [b]) = of_bytes s * 256 + b.
Proof. rewrite of_bytes_app. unfold of_bytes at 2. simpl. lia. Qed.
Lemma of_bytes_bound s : Forall is_byte s -> 0 <= of_bytes s < 256 ^ Z.of_nat (length s).
Proof.
  induction 1 as [|b s Hb Hs IH]; [cbn; lia|].
  rewrite of_bytes_cons. simpl length. rewrite Nat2Z.inj_succ, Z.pow_succ_r by lia.
  unfold is_byte in Hb. nia.
Qed.
Lemma of_bytes_zeros k s : of_bytes (repeat 0 k ++ s) = of_bytes s.
Proof.
  induction k; cbn [repeat app]; auto; rewrite of_bytes_cons, IHk; lia.
Qed.

Lemma le_digits_spec fuel : forall x, 0 <= x < 2 ^ Z.of_nat fuel ->
  Forall is_byte (le_digits fuel x) /\ of_bytes (rev (le_digits fuel x)) = x
  /\ (hd 1 (rev (le_digits fuel x)) <> 0).
Proof.
  induction fuel as [|f IH]; intros x Hx; cbn [le_digits].
  - simpl in Hx. assert (x = 0) by lia. subst. repeat split; cbn; auto; lia.
  - destruct (Z.eqb_spec x 0) as [->|Hn]. { repeat split; cbn; auto; lia. }
    assert (B : 0 <= x / 256 < 2 ^ Z.of_nat f).
    { rewrite Nat2Z.inj_succ, Z.pow_succ_r in Hx by lia. split; [apply Z.div_pos; lia|].
      apply Z.div_lt_upper_bound; lia. }
    destruct (IH _ B) as (I1 & I2 & I3). split.
    { constructor; auto. apply Z.mod_pos_bound; lia. }
    cbn [rev]. rewrite of_bytes_snoc, I2. split.
    { pose proof (Z.div_mod x 256). lia. }
    destruct (rev (le_digits f (x / 256))) as [|b r] eqn:E; simpl in *; auto.
    assert (x / 256 = 0) by (rewrite <- I2; reflexivity).
    pose proof (Z.div_mod x 256). lia.
Qed.

Lemma bn2bin_spec x : 0 <= x ->
  Forall is_byte (bn2bin x) /\ of_bytes (bn2bin x) = x /\ hd 1 (bn2bin x) <> 0.
Proof.
  intros H. unfold bn2bin. destruct (le_digits_spec (S (Z.to_nat (Z.log2 x))) x) as (A & B & C).
  { split; auto. rewrite Nat2Z.inj_succ, Z2Nat.id by apply Z.log2_nonneg.
    destruct (Z.eq_dec x 0) as [->|]; [reflexivity|]. apply Z.log2_spec. lia. }
  split; auto. rewrite Forall_forall in *. intros b Hb. apply A. apply in_rev; auto.
Qed.

Lemma canonical_unique s1 : forall s2, Forall is_byte s1 -> Forall is_byte s2 ->
  hd 1 s1 <> 0 -> hd 1 s2 <> 0 -> of_bytes s1 = of_bytes s2 -> s1 = s2.
Proof.
  assert (len : forall s, Forall is_byte s -> hd 1 s <> 0 -> s <> [] ->
    256 ^ Z.of_nat (length s - 1) <= of_bytes s < 256 ^ Z.of_nat (length s)).
  { intros [|b s] F H N; [congruence|]. split; [|apply of_bytes_bound; auto].
    inversion F as [|? ? Hb Hs]; subst. simpl in H. rewrite of_bytes_cons. simpl length.
    replace (S (length s) - 1)%nat with (length s) by lia.
    pose proof (of_bytes_bound s Hs). unfold is_byte in Hb. nia. }
  assert (same : forall s1 s2, length s1 = length s2 -> Forall is_byte s1 -> Forall is_byte s2 ->
            of_bytes s1 = of_bytes s2 -> s1 = s2).
  { induction s0 as [|b s IH]; intros [|b' s'] L F F' E; simpl in L; try lia; auto.
    inversion F; inversion F'; subst. rewrite !of_bytes_cons in E.
    assert (EL : length s = length s') by lia. rewrite EL in E.
    pose proof (of_bytes_bound s H2). pose proof (of_bytes_bound s' H6). rewrite EL in *.
    assert (b = b').
    { destruct (Z.lt_trichotomy b b') as [?|[?|?]]; auto; nia. }
    subst. f_equal. apply IH; auto; lia. }
  intros s2 F1 F2 H1 H2 E.
  apply same; auto.
  destruct s1 as [|b1 s1], s2 as [|b2 s2]; auto.
  - exfalso. destruct (len (b2 :: s2)) as [L _]; auto; [congruence|]. rewrite <- E in L.
    assert (0 < 256 ^ Z.of_nat (length (b2 :: s2) - 1)) by (apply Z.pow_pos_nonneg; lia). change (of_bytes []) with 0 in L. lia.
  - exfalso. destruct (len (b1 :: s1)) as [L _]; auto; [congruence|]. rewrite E in L.
    assert (0 < 256 ^ Z.of_nat (length (b1 :: s1) - 1)) by (apply Z.pow_pos_nonneg; lia). change (of_bytes []) with 0 in L. lia.
  - destruct (len (b1 :: s1)) as [L1 U1]; auto; [congruence|].
    destruct (len (b2 :: s2)) as [L2 U2]; auto; [congruence|].
    destruct (Nat.lt_trichotomy (length (b1 :: s1)) (length (b2 :: s2))) as [G|[G|G]]; auto; exfalso.
    + assert (256 ^ Z.of_nat (length (b1 :: s1)) <= 256 ^ Z.of_nat (length (b2 :: s2) - 1)) by (apply Z.pow_le_mono_r; lia). lia.
    + assert (256 ^ Z.of_nat (length (b2 :: s2)) <= 256 ^ Z.of_nat (length (b1 :: s1) - 1)) by (apply Z.pow_le_mono_r; lia). lia.
Qed.

Lemma bn2bin_of_bytes s : Forall is_byte s -> hd 1 s <> 0 -> bn2bin (of_bytes s) = s.
Proof.
  intros F H. pose proof (of_bytes_bound s F).
  destruct (bn2bin_spec (of_bytes s)) as (A & B & C); [lia|].
  apply canonical_unique; auto.
Qed.

Lemma bn2bin_length x k : 0 <= x < 256 ^ Z.of_nat k -> (length (bn2bin x) <= k)%nat.
Proof.
  intros H. destruct (bn2bin_spec x) as (A & B & C); [lia|].
  destruct (bn2bin x) as [|b s] eqn:E; [simpl; lia|].
  destruct (le_lt_dec (length (b :: s)) k) as [|G]; auto. exfalso.
  rewrite of_bytes_cons in B. simpl in C, G. inversion A; subst.
  pose proof (of_bytes_bound s H3).
  assert (256 ^ Z.of_nat k <= 256 ^ Z.of_nat (length s)) by (apply Z.pow_le_mono_r; lia).
  unfold is_byte in H2. nia.
Qed.
Lemma bn2bin_length_lower x k : 256 ^ Z.of_nat k <= x -> (k < length (bn2bin x))%nat.
Proof.
  intros H. assert (0 < 256 ^ Z.of_nat k) by (apply Z.pow_pos_nonneg; lia).
  destruct (bn2bin_spec x) as (A & B & C); [lia|].
  destruct (le_lt_dec (length (bn2bin x)) k) as [G|]; auto. exfalso.
  pose proof (of_bytes_bound _ A). rewrite B in *.
  assert (256 ^ Z.of_nat (length (bn2bin x)) <= 256 ^ Z.of_nat k) by (apply Z.pow_le_mono_r; lia). lia.
Qed.

(** ** C37 *)
Lemma bytes_roundtrip x : 0 <= x ->
  exists s, to_bytes x = Ok s /\ of_bytes s = x /\ Forall is_byte s /\ hd 1 s <> 0 /\
    (forall k, (length s <= k)%nat <-> x < 256 ^ Z.of_nat k).
Proof.
  intros H. exists (bn2bin x). destruct (bn2bin_spec x H) as (A & B & C).
  unfold to_bytes. destruct (Z.ltb_spec x 0); [lia|].
  split; [auto|]. split; [auto|]. split; [auto|]. split; [auto|].
  intros k; split; intros G.
  - destruct (Z_lt_le_dec x (256 ^ Z.of_nat k)); auto. pose proof (bn2bin_length_lower x k l). lia.
  - apply bn2bin_length; lia.
Qed.

(** ** uint64 *)
Lemma u64_fold s : Forall is_byte s -> forall a, 0 <= a < 2 ^ 64 ->
  fold_left (fun res b => ((res * 256) mod 2 ^ 64 + b) mod 2 ^ 64) s a =
  (a * 256 ^ Z.of_nat (length s) + of_bytes s) mod 2 ^ 64.
Proof.
  induction 1 as [|b s Hb Hs IH]; intros a Ha; cbn [fold_left].
  - cbn [length]. change (256 ^ Z.of_nat 0) with 1. change (of_bytes []) with 0. rewrite Z.mod_small; lia.
  - rewrite IH by (apply Z.mod_pos_bound; lia). cbn [length]. rewrite of_bytes_cons.
    rewrite Nat2Z.inj_succ, Z.pow_succ_r by lia.
    rewrite Zplus_mod_idemp_l.
    rewrite <- Zplus_mod_idemp_l, Zmult_mod_idemp_l, Zplus_mod_idemp_l. f_equal. ring.
Qed.
Lemma bytes2uint64_spec s : Forall is_byte s -> bytes2uint64 s = of_bytes s mod 2 ^ 64.
Proof.
  intros F. unfold bytes2uint64. set (k := (length s - 8)%nat).
  rewrite u64_fold by (try lia; eapply Forall_forall; intros b Hb; rewrite Forall_forall in F; apply F;
    rewrite <- (firstn_skipn k s); apply in_or_app; auto).
  rewrite Z.mul_0_l, Z.add_0_l.
  rewrite <- (firstn_skipn k s) at 2. rewrite of_bytes_app.
  destruct (le_lt_dec (length s) 8) as [G|G].
  - replace k with 0%nat by lia. simpl firstn. change (of_bytes []) with 0. f_equal.
  - replace (length (skipn k s)) with 8%nat by (rewrite skipn_length; lia).
    change (256 ^ Z.of_nat 8) with (2 ^ 64). rewrite Z.add_comm, Z.mod_add by lia. reflexivity.
Qed.
Lemma bignum2uint64_spec x : bignum2uint64 x = if x <? 0 then Abort else Ok (x mod 2 ^ 64).
Proof.
  unfold bignum2uint64, to_bytes. destruct (Z.ltb_spec x 0); auto. simpl.
  destruct (bn2bin_spec x) as (A & B & _); auto. rewrite bytes2uint64_spec, B; auto.
Qed.

(** ** bits *)
Lemma testbit_of_bytes s : Forall is_byte s -> forall i, (i < 8 * length s)%nat ->
  Z.testbit (of_bytes s) (Z.of_nat i) =
  Z.testbit (nth (length s - 1 - i / 8) s 0) (Z.of_nat (i mod 8)).
Proof.
  induction 1 as [|b s Hb Hs IH]; intros i Hi; [simpl in Hi; lia|].
  rewrite of_bytes_cons. pose proof (of_bytes_bound s Hs) as B.
  change 256 with (2 ^ 8) in *. rewrite <- Z.pow_mul_r in * by lia.
  cbn [length] in *. pose proof (Nat.div_mod i 8). pose proof (Nat.mod_upper_bound i 8).
  destruct (le_lt_dec (8 * length s) i) as [G|G].
  - replace (i / 8)%nat with (length s). 2:{ apply Nat.div_unique with (i - 8 * length s)%nat; lia. }
    replace (S (length s) - 1 - length s)%nat with 0%nat by lia. cbn [nth].
    replace (Z.testbit (b * 2 ^ (8 * Z.of_nat (length s)) + of_bytes s) (Z.of_nat i))
      with (Z.testbit ((b * 2 ^ (8 * Z.of_nat (length s)) + of_bytes s) / 2 ^ (8 * Z.of_nat (length s)))
              (Z.of_nat i - 8 * Z.of_nat (length s))).
    + rewrite Z.div_add_l by (apply Z.pow_nonzero; lia). rewrite (Z.div_small (of_bytes s)) by lia. rewrite Z.add_0_r. f_equal.
      replace (i mod 8)%nat with (i - 8 * length s)%nat; [lia|].
      apply Nat.mod_unique with (length s); lia.
    + rewrite <- Z.shiftr_div_pow2 by lia. rewrite Z.shiftr_spec by lia. f_equal. lia.
  - assert (i / 8 < length s)%nat by (apply Nat.div_lt_upper_bound; lia).
    replace (S (length s) - 1 - i / 8)%nat with (S (length s - 1 - i / 8)) by lia. cbn [nth].
    rewrite <- IH by lia.
    rewrite <- (Z.mod_pow2_bits_low _ (8 * Z.of_nat (length s))) by lia.
    rewrite Z.add_comm, Z.mod_add by (apply Z.pow_nonzero; lia).
    rewrite Z.mod_small by lia. reflexivity.
Qed.

Lemma str_at_ok s i : (0 <= i < Z.of_nat (length s)) -> str_at s i = Ok (nth (Z.to_nat i) s 0).
Proof. intros H. unfold str_at. destruct (Z.ltb_spec i 0); [lia|]. destruct (Z.leb_spec (Z.of_nat (length s)) i); [lia|]. reflexivity. Qed.

Lemma omap_ok {A B} (f : A -> outcome B) g l : (forall x, In x l -> f x = Ok (g x)) -> omap f l = Ok (map g l).
Proof. induction l as [|x l IH]; intros H; simpl; auto. rewrite H by (left; auto). simpl. rewrite IH; auto. intros; apply H; right; auto. Qed.

(** bits [cnt-1 .. 0] of a number, most significant first *)
Definition msb_bits (cnt : nat) (v : Z) : list bool :=
  map (fun i => Z.testbit v (Z.of_nat i)) (rev (seq 0 cnt)).
Lemma msb_bits_length cnt v : length (msb_bits cnt v) = cnt.
Proof. unfold msb_bits. rewrite map_length, rev_length, seq_length. reflexivity. Qed.

Lemma concat_bits s : Forall is_byte s -> forall k m, (k + m <= length s)%nat ->
  m = (length s - k)%nat -> 
  concat (map (fun i => low_bits 8 (nth (k + i) s 0)) (seq 0 m)) = msb_bits (8 * m) (of_bytes s).
Proof.
  intros F k m Hk Hm. unfold msb_bits.
  assert (G : forall m', (m' <= m)%nat ->
     concat (map (fun i => low_bits 8 (nth (k + (m - m' + i)) s 0)) (seq 0 m')) =
     map (fun i => Z.testbit (of_bytes s) (Z.of_nat i)) (rev (seq 0 (8 * m')))).
  { induction m' as [|m' IH]; intros Hm'; [reflexivity|].
    cbn [seq map concat]. rewrite <- seq_shift, map_map.
    rewrite (map_ext _ (fun i => low_bits 8 (nth (k + (m - m' + i)) s 0))).
    2:{ intros i. do 2 f_equal. lia. }
    rewrite IH by lia. replace (8 * S m')%nat with (8 * m' + 8)%nat by lia.
    rewrite seq_app, rev_app_distr, map_app. f_equal.
    unfold low_bits. rewrite <- (map_map (fun i => (8 * m' + i)%nat)) with (l := rev (seq 0 8)) || idtac.
    replace (seq (0 + 8 * m') 8) with (map (fun i => (8 * m' + i)%nat) (seq 0 8)).
    2:{ cbn [seq map]. repeat (f_equal; try lia). }
    rewrite <- map_rev, map_map. apply map_ext_in. intros i Hi.
    apply in_rev in Hi. apply in_seq in Hi.
    rewrite testbit_of_bytes by (auto; lia).
    replace ((8 * m' + i) / 8)%nat with m' by (apply Nat.div_unique with i; lia).
    replace ((8 * m' + i) mod 8)%nat with i by (apply Nat.mod_unique with m'; lia).
    f_equal. f_equal. lia. }
  specialize (G m (le_n _)). rewrite <- G. f_equal. apply map_ext. intros i. do 2 f_equal. lia.
Qed.

Lemma nth_skipn' {X} k (l : list X) : forall i d, nth i (skipn k l) d = nth (k + i) l d.
Proof. revert l; induction k; intros [|x l] i d; cbn [skipn Nat.add nth]; auto. destruct i; auto. Qed.

Lemma bytes2bool_ok s cnt : Forall is_byte s -> (cnt <= 8 * length s)%nat ->
  bytes2bool s cnt = Ok (msb_bits cnt (of_bytes s)).
Proof.
  intros F H. unfold bytes2bool. pose proof (Nat.div_mod cnt 8). pose proof (Nat.mod_upper_bound cnt 8).
  set (cb := (cnt / 8)%nat) in *. set (rm := (cnt mod 8)%nat) in *.
  assert (HB : (cb <= length s)%nat) by lia.
  erewrite (omap_ok _ (fun i => low_bits 8 (nth ((length s - cb) + i) s 0))).
  2:{ intros i Hi. apply in_seq in Hi. rewrite str_at_ok by lia. simpl. do 3 f_equal. lia. }
  assert (T : concat (map (fun i => low_bits 8 (nth ((length s - cb) + i) s 0)) (seq 0 cb)) = msb_bits (8 * cb) (of_bytes s)).
  { apply concat_bits; auto; lia. }
  destruct (Nat.eqb_spec rm 0) as [E|E].
  - simpl. rewrite T. f_equal. f_equal. lia.
  - rewrite str_at_ok by lia. cbn [obind]. rewrite T. f_equal. unfold msb_bits, low_bits.
    replace cnt with (8 * cb + rm)%nat by lia.
    rewrite seq_app, rev_app_distr, map_app. f_equal.
    replace (seq (0 + 8 * cb) rm) with (map (fun i => (8 * cb + i)%nat) (seq 0 rm)).
    2:{ clear. generalize (8 * cb)%nat as a. intros a. rewrite Nat.add_0_l.
        assert (forall st, map (fun i => (a + i)%nat) (seq st rm) = seq (a + st) rm).
        { induction rm; intros st; cbn [seq map]; auto. rewrite IHrm. do 2 f_equal. lia. }
        rewrite H. f_equal. lia. }
    rewrite <- map_rev, map_map. apply map_ext_in. intros i Hi. apply in_rev in Hi. apply in_seq in Hi.
    rewrite testbit_of_bytes by (auto; lia).
    replace ((8 * cb + i) / 8)%nat with cb by (apply Nat.div_unique with i; lia).
    replace ((8 * cb + i) mod 8)%nat with i by (apply Nat.mod_unique with cb; lia).
    f_equal. f_equal. lia.
Qed.
Lemma omap_UB {A B} (f : A -> outcome B) x l : f x = UB -> omap f (x :: l) = UB.
Proof. intros H. simpl. rewrite H. reflexivity. Qed.
Lemma bytes2bool_ub s cnt : (8 * length s < cnt)%nat -> bytes2bool s cnt = UB.
Proof.
  intros H. unfold bytes2bool. pose proof (Nat.div_mod cnt 8). pose proof (Nat.mod_upper_bound cnt 8).
  set (cb := (cnt / 8)%nat) in *. set (rm := (cnt mod 8)%nat) in *.
  destruct (Nat.eqb_spec rm 0) as [E|E].
  - assert (length s < cb)%nat by lia. simpl. destruct cb as [|cb']; [lia|].
    cbn [seq]. rewrite omap_UB; auto. unfold str_at. destruct (Z.ltb_spec (Z.of_nat (length s) - Z.of_nat (S cb') + Z.of_nat 0) 0); auto; lia.
  - unfold str_at at 1. destruct (Z.ltb_spec (Z.of_nat (length s) - Z.of_nat cb - 1) 0); auto; lia.
Qed.

(** ** blocks *)
Lemma concat_chunks (str : bytes) k : (16 * k <= length str)%nat ->
  concat (map (fun i => firstn 16 (skipn (16 * i) str)) (seq 0 k)) = firstn (16 * k) str.
Proof.
  revert str. induction k as [|k IH]; intros str H; auto.
  rewrite seq_S, map_app, concat_app. rewrite IH by lia. cbn [map concat Nat.add]. rewrite app_nil_r.
  replace (16 * S k)%nat with (16 * k + 16)%nat by lia.
  rewrite <- (firstn_skipn (16 * k) str) at 3.
  rewrite firstn_app, firstn_firstn. rewrite firstn_length.
  replace (Init.Nat.min (16 * k + 16) (16 * k)) with (16 * k)%nat by lia.
  replace (16 * k + 16 - Init.Nat.min (16 * k) (length str))%nat with 16%nat by lia. reflexivity.
Qed.
Lemma block_roundtrip x k : 0 <= x < 2 ^ (128 * Z.of_nat k) ->
  exists bl, bignum2block x k = Ok bl /\ length bl = k /\ Forall (fun b => length b = 16%nat) bl
    /\ block2bignum bl = x.
Proof.
  intros H. assert (E : 2 ^ (128 * Z.of_nat k) = 256 ^ Z.of_nat (16 * k)).
  { change 256 with (2 ^ 8). rewrite <- Z.pow_mul_r by lia. f_equal. lia. }
  rewrite E in H. unfold bignum2block, to_bytes. destruct (Z.ltb_spec x 0); [lia|]. cbn [obind].
  pose proof (bn2bin_length x _ H) as L.
  set (str := pad_bytes (bn2bin x) (16 * k)).
  assert (LS : length str = (16 * k)%nat).
  { unfold str, pad_bytes. rewrite app_length, repeat_length. lia. }
  eexists. split; [reflexivity|]. split; [rewrite map_length, seq_length; auto|]. split.
  - apply Forall_forall. intros b Hb. apply in_map_iff in Hb as (i & <- & Hi). apply in_seq in Hi.
    rewrite firstn_length, skipn_length. lia.
  - unfold block2bignum. rewrite concat_chunks by lia. rewrite <- LS, firstn_all.
    unfold str, pad_bytes. rewrite of_bytes_zeros. apply bn2bin_spec. lia.
Qed.
Lemma firstn_bytes s n : Forall is_byte s -> Forall is_byte (firstn n s).
Proof. intros F. rewrite Forall_forall in *. intros b Hb. apply F. rewrite <- (firstn_skipn n s). apply in_or_app; auto. Qed.
Lemma block_truncates x k : 2 ^ (128 * Z.of_nat k) <= x ->
  exists bl, bignum2block x k = Ok bl /\ block2bignum bl <> x.
Proof.
  intros H. assert (E : 2 ^ (128 * Z.of_nat k) = 256 ^ Z.of_nat (16 * k)).
  { change 256 with (2 ^ 8). rewrite <- Z.pow_mul_r by lia. f_equal. lia. }
  assert (0 < 2 ^ (128 * Z.of_nat k)) by (apply Z.pow_pos_nonneg; lia).
  rewrite E in H. unfold bignum2block, to_bytes. destruct (Z.ltb_spec x 0); [lia|]. cbn [obind].
  pose proof (bn2bin_length_lower x _ H) as L.
  eexists. split; [reflexivity|]. unfold block2bignum.
  assert (P : pad_bytes (bn2bin x) (16 * k) = bn2bin x).
  { unfold pad_bytes. replace (16 * k - length (bn2bin x))%nat with 0%nat by lia. reflexivity. }
  rewrite P, concat_chunks by lia.
  destruct (bn2bin_spec x) as (F & _); [lia|].
  pose proof (of_bytes_bound _ (firstn_bytes _ (16 * k) F)) as B.
  rewrite firstn_length in B. replace (Init.Nat.min (16 * k) (length (bn2bin x))) with (16 * k)%nat in B by lia. lia.
Qed.
Lemma blocks_for_suffices n c : 0 < n -> 0 <= c < n * n -> c < 2 ^ (128 * Z.of_nat (blocks_for n)).
Proof.
  intros Hn Hc. destruct (bn2bin_spec n) as (F & B & _); [lia|].
  pose proof (of_bytes_bound _ F) as U. rewrite B in U. unfold blocks_for.
  set (l := length (bn2bin n)) in *. clearbody l.
  assert (G : (2 * l <= 16 * ((l * 2 + 15) / 16))%nat).
  { pose proof (Nat.div_mod (l * 2 + 15) 16). pose proof (Nat.mod_upper_bound (l * 2 + 15) 16). lia. }
  assert (n * n < 256 ^ Z.of_nat l * 256 ^ Z.of_nat l) by nia.
  rewrite <- Z.pow_add_r in H by lia.
  apply Z.lt_le_trans with (n * n); [lia|]. eapply Z.le_trans; [apply Z.lt_le_incl, H|].
  change 256 with (2 ^ 8). rewrite <- Z.pow_mul_r by lia. apply Z.pow_le_mono_r; lia.
Qed.

Lemma byte2binary_length s : length (byte2binary s) = (8 * length s)%nat.
Proof. induction s as [|b s IH]; auto. unfold byte2binary in *. cbn [flat_map]. rewrite app_length, IH. cbn. lia. Qed.
