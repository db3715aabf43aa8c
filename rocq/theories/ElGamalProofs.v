(** * ElGamal algebra. *)
Require Import List Arith Lia ZArith Bool Permutation Znumtheory.
Import ListNotations.
From Verif Require Import Prelude Coins Group ElGamalModel.
Local Open Scope Z_scope.

Section P.
Context {Gr : group}.
Implicit Types (x : Z) (c : ct Gr) (m : Gr).

(** "c encrypts m under secret x" *)
Definition enc_of (x : Z) (m : Gr) (c : ct Gr) : Prop := decrypt x c = m.

Lemma gop_swap4 (a b c d : Gr) : gop (gop a b) (gop c d) = gop (gop a c) (gop b d).
Proof. rewrite <- !gop_assoc. f_equal. rewrite !gop_assoc. f_equal. apply gop_comm. Qed.

Lemma decrypt_mul x c1 c2 : decrypt x (ct_mul c1 c2) = gop (decrypt x c1) (decrypt x c2).
Proof. unfold decrypt, ct_mul. simpl. rewrite gpow_op, ginv_op. apply gop_swap4. Qed.
Lemma decrypt_exp_ct x c k : decrypt x (ct_exp c k) = gpow (decrypt x c) k.
Proof.
  unfold decrypt, ct_exp. simpl. rewrite gpow_op, gpow_inv, <- !gpow_mul, (Z.mul_comm k). auto.
Qed.
Lemma decrypt_invert x c : decrypt x (ct_invert c) = ginv (decrypt x c).
Proof. unfold decrypt, ct_invert. simpl. rewrite ginv_op, gpow_inv. auto. Qed.
Lemma decrypt_zero x : decrypt x (@ct_zero Gr) = gid.
Proof. unfold decrypt, ct_zero. simpl. rewrite gpow_id, ginv_id, gop_id. auto. Qed.
Lemma decrypt_clone x c : decrypt x (ct_clone c) = decrypt x c.
Proof. reflexivity. Qed.

Lemma partial_comm x1 x2 c : partial_decrypt x1 (partial_decrypt x2 c) = partial_decrypt (x1 + x2) c.
Proof.
  unfold partial_decrypt, decrypt. simpl. f_equal.
  rewrite <- gop_assoc, <- ginv_op, <- gpow_add. do 3 f_equal. lia.
Qed.
Lemma decrypt_partial x1 x2 c : decrypt x1 (partial_decrypt x2 c) = decrypt (x1 + x2) c.
Proof. pose proof (partial_comm x1 x2 c). unfold partial_decrypt at 1 3 in H. congruence. Qed.

Lemma decrypt_encrypted x m r : decrypt x (mkCt (gpow gen r) (gop m (gpow (gpow gen x) r))) = m.
Proof.
  unfold decrypt. simpl. rewrite <- !gpow_mul, (Z.mul_comm x), <- gop_assoc, gop_inv_r, gop_id_r. auto.
Qed.

Definition key_of (x : Z) : pubkey Gr := mkPk gen (gpow gen x).

Lemma gen_private_key_range t x t' : @gen_private_key Gr t = Ok (x, t') -> 1 <= x < ord Gr.
Proof. apply rand_between_range. Qed.

Lemma gen_key_pair_Ok t pk x t' : @gen_key_pair Gr t = Ok ((pk, x), t') -> pk = key_of x /\ 1 <= x < ord Gr.
Proof.
  unfold gen_key_pair. intros H. apply bind_Ok in H as (k & t1 & H1 & H). apply ret_Ok in H as [H _].
  inversion H; subst. apply gen_private_key_range in H1. auto.
Qed.

Lemma encrypt_point_Ok x m t c t' : encrypt_point (key_of x) m t = Ok (c, t') -> decrypt x c = m.
Proof.
  unfold encrypt_point. intros H. apply bind_Ok in H as (r & t1 & H1 & H). apply ret_Ok in H as [-> _].
  simpl. apply decrypt_encrypted.
Qed.
Lemma encrypt_Ok x (m : Z) t c t' : encrypt (key_of x) m t = Ok (c, t') -> decrypt x c = gpow gen m.
Proof. apply encrypt_point_Ok. Qed.
Lemma rerandomize_Ok x c t c' t' : rerandomize (key_of x) c t = Ok (c', t') -> decrypt x c' = decrypt x c.
Proof.
  unfold rerandomize. intros H. apply bind_Ok in H as (r & t1 & H1 & H). apply ret_Ok in H as [-> _].
  change (mkCt _ _) with (ct_mul c (mkCt (gpow gen r) (gpow (gpow gen x) r))).
  rewrite decrypt_mul. rewrite <- (gop_id_r (decrypt x c)) at 2. f_equal.
  rewrite <- (gop_id _ (gpow (gpow gen x) r)). apply decrypt_encrypted.
Qed.

(** totality: these operations never fail *)
Lemma gen_private_key_total t : exists x t', @gen_private_key Gr t = Ok (x, t').
Proof.
  unfold gen_private_key, rand_between. pose proof (@ord_pos Gr).
  destruct (Z.ltb_spec 1 (ord Gr)); [|lia]. unfold bind, rand_less_than.
  destruct (Z.ltb_spec 0 (ord Gr - 1)); [|lia]. eexists _, _; reflexivity.
Qed.
Lemma encrypt_point_total pk m t : exists c t', encrypt_point (Gr:=Gr) pk m t = Ok (c, t').
Proof. unfold encrypt_point, bind. destruct (gen_private_key_total t) as (x & t' & ->). eexists _, _; reflexivity. Qed.
Lemma encrypt_total pk (m : Z) t : exists c t', encrypt (Gr:=Gr) pk m t = Ok (c, t').
Proof. apply encrypt_point_total. Qed.
Lemma rerandomize_total pk c t : exists c' t', rerandomize (Gr:=Gr) pk c t = Ok (c', t').
Proof. unfold rerandomize, bind. destruct (gen_private_key_total t) as (x & t' & ->). eexists _, _; reflexivity. Qed.

Lemma shares_sum xs x0 : public_key_from_shares (map key_of (x0 :: xs)) = Ok (key_of (fold_left Z.add xs x0)).
Proof.
  unfold public_key_from_shares. cbn [map].
  revert x0. induction xs as [|x1 xs IH]; intros x0; cbn [map fold_left]; auto.
  cbn [obind]. cbn [pk_g key_of]. rewrite geqb_refl. cbn [pk_y key_of]. rewrite <- gpow_add. apply IH.
Qed.

Definition sumZ (l : list Z) : Z := fold_right Z.add 0 l.
Lemma fold_left_add l : forall a, fold_left Z.add l a = a + sumZ l.
Proof. induction l; intros a'; simpl. lia. rewrite IHl. lia. Qed.
Lemma sumZ_perm l l' : Permutation l l' -> sumZ l = sumZ l'.
Proof. induction 1; simpl; lia. Qed.
Lemma partial_all xs c : forall x, decrypt x (fold_left (fun c k => partial_decrypt k c) xs c) = decrypt (x + sumZ xs) c.
Proof.
  revert c. induction xs as [|k xs IH]; intros c x; simpl.
  - f_equal. lia.
  - rewrite IH, decrypt_partial. f_equal. lia.
Qed.

Lemma find_exp_Some (point : Gr) table : forall i j, find_exp point i table = Some j ->
  exists k, j = (i + k)%nat /\ nth_error table k = Some point.
Proof.
  induction table as [|p table IH]; intros i j H; simpl in H; [discriminate|].
  destruct (geqb point p) eqn:E.
  - inversion H; subst. apply geqb_spec in E. subst. exists 0%nat. split; [lia|]. reflexivity.
  - apply IH in H as (k & -> & H). exists (S k). split; [lia|]. auto.
Qed.
Lemma find_exp_None (point : Gr) table : forall i, find_exp point i table = None -> ~ In point table.
Proof.
  induction table as [|p table IH]; intros i H; simpl in *; auto.
  destruct (geqb point p) eqn:E; [discriminate|]. apply geqb_false in E. intros [<-|HI]; [congruence|].
  eapply IH; eauto.
Qed.

Lemma nth_error_seq n : forall s k, (k < n)%nat -> nth_error (seq s n) k = Some (s + k)%nat.
Proof.
  induction n; intros s k H; [lia|]. destruct k; simpl. f_equal; lia. rewrite IHn by lia. f_equal. lia.
Qed.
Lemma exp_table_map (g : Gr) n : forall s, exp_table g (Z.of_nat s) n = map (fun i => gpow g (Z.of_nat i)) (seq s n).
Proof. induction n; intros s; cbn [exp_table seq map]; auto. f_equal. rewrite <- IHn. f_equal. lia. Qed.
Lemma init_decrypt_exp_map (pk : pubkey Gr) limit : init_decrypt_exp pk limit = map (fun i => gpow (pk_g pk) (Z.of_nat i)) (seq 0 limit).
Proof. apply (exp_table_map (pk_g pk) limit 0). Qed.
Lemma decrypt_exp_spec (limit : nat) x c (m : Z) :
  Z.of_nat limit <= ord Gr -> (0 < limit)%nat -> 0 <= m < ord Gr -> decrypt x c = gpow gen m ->
  decrypt_exp (init_decrypt_exp (key_of x) limit) x c = if m <? Z.of_nat limit then Ok m else Err InvalidArgument.
Proof.
  intros HL HP Hm E. unfold decrypt_exp. destruct (init_decrypt_exp (key_of x) limit) as [|p tb] eqn:ET.
  { unfold init_decrypt_exp in ET. destruct limit; [lia|]. discriminate. }
  rewrite <- ET. clear p tb ET. rewrite E.
  destruct (find_exp _ 0 _) as [j|] eqn:F.
  - apply find_exp_Some in F as (k & -> & F). rewrite init_decrypt_exp_map in F. simpl pk_g in F.
    rewrite nth_error_map in F. destruct (lt_dec k limit) as [L|L].
    + rewrite nth_error_seq in F by auto. simpl in F. inversion F as [F'].
      apply gen_pow_inj_small in F'; [|lia|lia]. simpl. subst m.
      destruct (Z.ltb_spec (Z.of_nat k) (Z.of_nat limit)); [auto|lia].
    + assert (nth_error (seq 0 limit) k = None) by (apply nth_error_None; rewrite seq_length; lia).
      rewrite H in F. discriminate.
  - apply find_exp_None in F. destruct (Z.ltb_spec m (Z.of_nat limit)); auto. exfalso. apply F.
    rewrite init_decrypt_exp_map. apply in_map_iff. exists (Z.to_nat m). simpl. rewrite Z2Nat.id by lia.
    split; auto. apply in_seq. lia.
Qed.

Lemma masked_zero x c k alpha : 1 <= alpha < ord Gr -> decrypt x c = gpow gen k ->
  (decrypt x (ct_exp c alpha) = gid <-> (ord Gr | k)).
Proof.
  intros HA E. rewrite decrypt_exp_ct, E, <- gpow_mul, gen_pow_id_iff. split.
  - intros D. destruct (prime_mult _ (ord_prime Gr) _ _ D) as [|D']; auto. exfalso.
    destruct D' as (z & E'). destruct (Z_lt_le_dec z 1); nia.
  - intros D. apply Z.divide_mul_l; auto.
Qed.

(** ** statements of PropsElGamal.v *)
Lemma elgamal_homomorphic (tp : tape) :
  forall pk x tp1, gen_key_pair tp = Ok ((pk, x), tp1) ->
    (forall m t c t', encrypt_point pk m t = Ok (c, t') -> decrypt x c = m)
    /\ (forall (m : Z) t c t', encrypt pk m t = Ok (c, t') -> decrypt x c = gpow gen m)
    /\ (forall c1 c2, decrypt x (ct_mul c1 c2) = gop (decrypt x c1) (decrypt x c2))
    /\ (forall c k, decrypt x (ct_exp c k) = gpow (decrypt x c) k)
    /\ (forall c, decrypt x (ct_invert c) = ginv (decrypt x c))
    /\ (forall c t c' t', rerandomize pk c t = Ok (c', t') -> decrypt x c' = decrypt x c)
    /\ (forall c, decrypt x (ct_clone c) = decrypt x c)
    /\ decrypt x (@ct_zero Gr) = gid
    /\ (forall c, ct_is_zero c = true <-> c = ct_zero)
    /\ (forall t m, (exists c t', encrypt_point pk m t = Ok (c, t'))).
Proof.
  intros pk x tp1 H. apply gen_key_pair_Ok in H as [-> Hx].
  split; [intros; eapply encrypt_point_Ok; eauto|].
  split; [intros; eapply encrypt_Ok; eauto|].
  split; [intros; apply decrypt_mul|].
  split; [intros; apply decrypt_exp_ct|].
  split; [intros; apply decrypt_invert|].
  split; [intros; eapply rerandomize_Ok; eauto|].
  split; [intros; apply decrypt_clone|].
  split; [apply decrypt_zero|].
  split.
  - intros c. unfold ct_is_zero. rewrite andb_true_iff, !geqb_spec. destruct c as [u e]. simpl. split.
    + intros [-> ->]. reflexivity.
    + intros E. inversion E. auto.
  - intros. apply encrypt_point_total.
Qed.

Lemma joint_elgamal (xs : list Z) (x_last : Z) (others : list Z) pk :
  Permutation xs (others ++ [x_last]) ->
  public_key_from_shares (map key_of xs) = Ok pk ->
  forall m t c t', encrypt_point pk m t = Ok (c, t') ->
    decrypt x_last (fold_left (fun c k => partial_decrypt k c) others c) = m.
Proof.
  intros P E m t c t' H. rewrite partial_all.
  destruct xs as [|x0 xs]; [discriminate|]. rewrite shares_sum in E. inversion E; subst pk.
  apply encrypt_point_Ok in H. rewrite <- H. f_equal. rewrite fold_left_add.
  apply sumZ_perm in P. unfold sumZ in P at 2. rewrite fold_right_app in P. simpl in P.
  change (fold_right Z.add 0 ?l) with (sumZ l) in P.
  assert (A : forall l a, fold_right Z.add a l = a + sumZ l).
  { induction l; intros a'; simpl; [lia|]. rewrite IHl. lia. }
  rewrite A in P. lia.
Qed.

Lemma joint_elgamal_total (xs : list Z) : xs <> [] -> exists pk, public_key_from_shares (map key_of xs) = Ok pk.
Proof. destruct xs as [|x xs]; [congruence|]. intros _. rewrite shares_sum. eauto. Qed.

Lemma masked_test (x0 x1 : Z) pk :
  public_key_from_shares [key_of x0; key_of x1] = Ok pk ->
  forall (a b alpha : Z) t ca t1 cb t2,
    1 <= alpha < ord Gr -> 0 <= a < ord Gr -> 0 <= b < ord Gr ->
    encrypt pk a t = Ok (ca, t1) -> encrypt pk b t1 = Ok (cb, t2) ->
    let masked := ct_exp (ct_mul ca (ct_invert cb)) alpha in
    (decrypt x0 (partial_decrypt x1 masked) = gid <-> a = b).
Proof.
  intros E a b alpha t ca t1 cb t2 HA Ha Hb Ea Eb masked.
  change [key_of x0; key_of x1] with (map key_of [x0; x1]) in E. rewrite shares_sum in E.
  inversion E; subst pk. simpl in *. apply encrypt_Ok in Ea. apply encrypt_Ok in Eb.
  rewrite decrypt_partial. unfold masked. rewrite (masked_zero _ _ (a - b)); auto.
  - split.
    + intros (z & D). assert (z = 0) by nia. subst z. lia.
    + intros ->. exists 0. lia.
  - rewrite decrypt_mul, decrypt_invert, Ea, Eb. unfold Z.sub. rewrite gpow_add, gpow_opp. auto.
Qed.

Lemma exponentiate_wrong (m : Z) :
  @exponentiate Gr m = gid /\ (exponentiate m = gpow (@gen Gr) m <-> (ord Gr | m)).
Proof.
  unfold exponentiate. rewrite gpow_id. split; auto. rewrite <- gen_pow_id_iff. split; intros H; congruence.
Qed.
End P.
