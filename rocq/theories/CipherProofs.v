(** * Proofs about the commutative ciphers. *)
Require Import List Arith Lia ZArith Bool Znumtheory.
Import ListNotations.
From Verif Require Import Prelude Coins Group ElGamalModel ElGamalProofs NumTheory PaillierModel PaillierProofs
  BytesModel BytesProofs ContextModel ContextProofs CipherModel.
Local Open Scope Z_scope.

Section Cipher.
Context {Gr : group}.
Implicit Types (x : Gr) (w : wpoint Gr).

Lemma geqb_id_false x : x <> gid -> geqb x gid = false.
Proof. intros. apply geqb_false; auto. Qed.
Lemma point_to_bytes_ok x : x <> gid -> point_to_bytes x = Ok (WPt x).
Proof. intros H. unfold point_to_bytes. rewrite geqb_id_false; auto. Qed.
Lemma point_to_bytes_id : point_to_bytes (@gid Gr) = Err Internal.
Proof. unfold point_to_bytes. rewrite geqb_refl; auto. Qed.
Lemma point_to_bytes_Ok x w : point_to_bytes x = Ok w <-> x <> gid /\ w = WPt x.
Proof.
  unfold point_to_bytes. destruct (geqb x gid) eqn:E.
  - apply geqb_spec in E. split; [discriminate|intros []; contradiction].
  - apply geqb_false in E. split; [intros H; inversion H; auto|intros [_ ->]; auto].
Qed.
Lemma create_point_Ok w x : create_point w = Ok x <-> x <> gid /\ w = WPt x.
Proof.
  destruct w as [y|]; simpl.
  - destruct (geqb y gid) eqn:E.
    + apply geqb_spec in E. split; [discriminate|]. intros [H1 H2]. inversion H2; subst; contradiction.
    + apply geqb_false in E. split; [intros H; inversion H; subst; auto|intros [_ H]; inversion H; auto].
  - split; [discriminate|intros []; discriminate].
Qed.
Lemma create_point_ok x : x <> gid -> create_point (WPt x) = Ok x.
Proof. intros. apply create_point_Ok; auto. Qed.
Lemma create_point_not_ok w : (forall x, create_point w <> Ok x) -> create_point w = Err InvalidArgument.
Proof. destruct w as [y|]; simpl; auto. destruct (geqb y gid); auto. intros H; exfalso; eapply H; eauto. Qed.

Lemma gpow_nonid x k : x <> gid -> 1 <= k < ord Gr -> gpow x k <> gid.
Proof.
  intros Hx Hk E. apply gpow_id_iff in E; auto. apply Z.divide_pos_le in E; lia.
Qed.
Definition good_cipher (c : cipher) : Prop :=
  1 <= cc_key c < ord Gr /\ 1 <= cc_inv c < ord Gr /\ eqm (ord Gr) (cc_key c * cc_inv c) 1.
Lemma cipher_make_good k h c : 1 <= k < ord Gr -> @cipher_make Gr k h = Ok c -> good_cipher c /\ cc_key c = k.
Proof.
  intros Hk H. pose proof (ord_pos (Gr := Gr)) as O. pose proof (ord_prime Gr) as P.
  unfold cipher_make, invert_private_scalar in H. apply obind_Ok in H as (i & Hi & H). inversion H; subst; clear H.
  apply mod_exp_Ok in Hi as (H2 & _ & ->). cbn [cc_key]. split; auto.
  assert (E : eqm (ord Gr) (k * (k ^ (ord Gr - 2) mod ord Gr)) 1).
  { eapply eqm_trans; [apply eqm_mul; [apply eqm_refl|apply eqm_mod; lia]|].
    replace (k * k ^ (ord Gr - 2)) with (k ^ (ord Gr - 1))
      by (replace (ord Gr - 1) with (Z.succ (ord Gr - 2)) by lia; rewrite Z.pow_succ_r; lia).
    apply fermat; auto. apply prime_ndiv_small; auto. }
  unfold good_cipher; cbn [cc_key cc_inv]. split; auto. split; auto.
  pose proof (Z.mod_pos_bound (k ^ (ord Gr - 2)) (ord Gr) ltac:(lia)).
  assert (k ^ (ord Gr - 2) mod ord Gr <> 0); [|lia]. intros E0. rewrite E0, Z.mul_0_r in E.
  apply eqm_small in E; lia.
Qed.
Lemma cipher_make_total k h : 2 <= ord Gr -> exists c, @cipher_make Gr k h = Ok c.
Proof.
  intros O. unfold cipher_make, invert_private_scalar. rewrite mod_exp_total by lia. eexists; reflexivity.
Qed.
Lemma cipher_inverts c x : good_cipher c -> gpow (gpow x (cc_key c)) (cc_inv c) = x.
Proof.
  intros (_ & _ & E). rewrite <- gpow_mul, <- gpow_mod. pose proof (ord_pos (Gr := Gr)).
  apply eqm_iff in E; [|lia]. rewrite E, gpow_mod, gpow_1. auto.
Qed.
Lemma cipher_reencrypt_ok c x : good_cipher c -> x <> gid ->
  cipher_reencrypt c (WPt x) = Ok (WPt (gpow x (cc_key c))).
Proof.
  intros (K & _) Hx. unfold cipher_reencrypt. rewrite create_point_ok by auto. cbn [obind].
  apply point_to_bytes_ok. apply gpow_nonid; auto.
Qed.
Lemma cipher_decrypt_ok c x : good_cipher c -> x <> gid ->
  cipher_decrypt c (WPt x) = Ok (WPt (gpow x (cc_inv c))).
Proof.
  intros (_ & K & _) Hx. unfold cipher_decrypt. rewrite create_point_ok by auto. cbn [obind].
  apply point_to_bytes_ok. apply gpow_nonid; auto.
Qed.
Lemma cipher_new_good h t c t' : @cipher_new Gr h t = Ok (c, t') -> good_cipher c.
Proof.
  unfold cipher_new. destruct (validate_hash_type h); [|discriminate]. intros H.
  apply bind_Ok in H as (k & t1 & Hk & H). apply rand_between_range in Hk.
  apply lift_Ok in H as (H & _). eapply cipher_make_good; eauto.
Qed.
Lemma cipher_from_key_good key h c : @cipher_from_key Gr key h = Ok c -> good_cipher c /\ cc_key c = of_bytes key.
Proof.
  unfold cipher_from_key. destruct (validate_hash_type h); [|discriminate]. unfold check_private_key.
  destruct (Z.leb_spec (of_bytes key) 0), (Z.leb_spec (ord Gr) (of_bytes key)); cbn [orb obind]; try discriminate.
  intros E. apply cipher_make_good in E; auto. lia.
Qed.
Lemma cipher_from_key_iff key h : (exists c, @cipher_from_key Gr key h = Ok c) <->
  validate_hash_type h = true /\ 1 <= of_bytes key < ord Gr.
Proof.
  pose proof (ord_pos (Gr := Gr)). split.
  - intros (c & E). pose proof (cipher_from_key_good _ _ _ E) as ((K & _) & <-).
    unfold cipher_from_key in E. destruct (validate_hash_type h); [auto|discriminate].
  - intros (V & K). unfold cipher_from_key, check_private_key. rewrite V.
    destruct (Z.leb_spec (of_bytes key) 0), (Z.leb_spec (ord Gr) (of_bytes key)); try lia. cbn [orb obind].
    apply cipher_make_total. lia.
Qed.
Lemma cipher_from_key_refused key h : ~ (validate_hash_type h = true /\ 1 <= of_bytes key < ord Gr) ->
  @cipher_from_key Gr key h = Err InvalidArgument.
Proof.
  intros N. unfold cipher_from_key. destruct (validate_hash_type h); auto. unfold check_private_key.
  destruct (Z.leb_spec (of_bytes key) 0), (Z.leb_spec (ord Gr) (of_bytes key)); auto. lia.
Qed.

(** ** commutative ElGamal *)
Lemma ceg_from_keys_spec (w : wpoint Gr * wpoint Gr) sk k : @ceg_from_keys Gr w sk = Ok k ->
  ceg_public_bytes k = Ok w /\ ceg_sk k = Some (of_bytes sk) /\ pk_g (ceg_pk k) <> gid /\ pk_y (ceg_pk k) <> gid
  /\ pk_y (ceg_pk k) = gpow (pk_g (ceg_pk k)) (of_bytes sk).
Proof.
  destruct w as [w1 w2]. unfold ceg_from_keys. intros H. apply obind_Ok in H as (g & Hg & H). apply obind_Ok in H as (y & Hy & H).
  apply create_point_Ok in Hg as (Ng & Eg). apply create_point_Ok in Hy as (Ny & Ey). cbn [fst snd] in *. subst.
  destruct (geqb y (gpow g (of_bytes sk))) eqn:E; [|discriminate]. apply geqb_spec in E. inversion H; subst k; clear H.
  unfold ceg_public_bytes; cbn [ceg_pk ceg_sk pk_g pk_y]. rewrite !point_to_bytes_ok by auto. cbn [obind]. auto.
Qed.
Lemma ceg_encrypt_dec (k : ceg Gr) (x : Z) (p : Gr) t (w : wpoint Gr * wpoint Gr) t' : ceg_sk k = Some x -> pk_y (ceg_pk k) = gpow (pk_g (ceg_pk k)) x ->
  ceg_encrypt_pt k p t = Ok (w, t') -> ceg_decrypt k w = point_to_bytes p.
Proof.
  intros Ex Ey H. unfold ceg_encrypt_pt in H. apply bind_Ok in H as (c & t1 & Hc & H).
  apply bind_Ok in H as (su & t2 & Hu & H). apply lift_Ok in Hu as (Hu & ->).
  apply bind_Ok in H as (se & t3 & He & H). apply lift_Ok in He as (He & ->). apply ret_Ok in H as (-> & _).
  apply point_to_bytes_Ok in Hu as (Nu & ->). apply point_to_bytes_Ok in He as (Ne & ->).
  unfold ceg_decrypt. rewrite Ex. cbn [fst snd]. rewrite !create_point_ok by auto. cbn [obind].
  unfold encrypt_point in Hc. apply bind_Ok in Hc as (r & t4 & _ & Hc). apply ret_Ok in Hc as (-> & _).
  unfold decrypt; cbn [ct_u ct_e]. rewrite Ey. f_equal.
  rewrite <- !gpow_mul, (Z.mul_comm r x). rewrite <- gop_assoc, gop_inv_r, gop_id_r. auto.
Qed.
End Cipher.
