(** * Properties C28-C31. *)
Require Import List Arith Lia ZArith Bool Permutation Znumtheory.
Import ListNotations.
From Verif Require Import Prelude Coins Group ElGamalModel ElGamalProofs.
Local Open Scope Z_scope.

(** C28. For every generated key pair: decryption inverts encryption, and
    Mul / Exp / Invert / ReRandomize / Clone / zero act on plaintexts as
    advertised, for every ciphertext, scalar and coins. *)
Theorem C28_elgamal_homomorphic :
  forall (Gr : group) (tp : tape) pk x tp1, @gen_key_pair Gr tp = Ok ((pk, x), tp1) ->
    (forall (m : Gr) t c t', encrypt_point pk m t = Ok (c, t') -> decrypt x c = m)
    /\ (forall (m : Z) t c t', encrypt pk m t = Ok (c, t') -> decrypt x c = gpow gen m)
    /\ (forall c1 c2 : ct Gr, decrypt x (ct_mul c1 c2) = gop (decrypt x c1) (decrypt x c2))
    /\ (forall (c : ct Gr) k, decrypt x (ct_exp c k) = gpow (decrypt x c) k)
    /\ (forall c : ct Gr, decrypt x (ct_invert c) = ginv (decrypt x c))
    /\ (forall c t c' t', rerandomize pk c t = Ok (c', t') -> decrypt x c' = decrypt x c)
    /\ (forall c : ct Gr, decrypt x (ct_clone c) = decrypt x c)
    /\ decrypt x (@ct_zero Gr) = gid
    /\ (forall c : ct Gr, ct_is_zero c = true <-> c = ct_zero)
    /\ (forall t m, (exists c t', encrypt_point pk m t = Ok (c, t'))).
Proof. intros Gr. exact (@elgamal_homomorphic Gr). Qed.

(** C29. Any non-empty list of key shares: partial decryptions by all but one
    holder in any order, then decryption by the last, return the plaintext. *)
Theorem C29_joint_decryption :
  forall (Gr : group) (xs others : list Z) (x_last : Z),
    Permutation xs (others ++ [x_last]) ->
    exists pk, public_key_from_shares (map (fun x => mkPk (@gen Gr) (gpow gen x)) xs) = Ok pk
    /\ forall m t c t', encrypt_point pk m t = Ok (c, t') ->
         decrypt x_last (fold_left (fun c k => partial_decrypt k c) others c) = m.
Proof.
  intros Gr xs others x_last P. destruct (@joint_elgamal_total Gr xs) as (pk & E).
  { intros ->. apply Permutation_nil in P. destruct others; discriminate. }
  exists pk. split; [exact E|]. exact (joint_elgamal xs x_last others pk P E).
Qed.

(** C29. The masked equality test of the protocols: with a joint key and any
    non-zero mask, the masked difference decrypts to the identity iff the two
    plaintexts are equal. *)
Theorem C29_masked_equality_test :
  forall (Gr : group) (x0 x1 : Z) pk,
    public_key_from_shares [mkPk (@gen Gr) (gpow gen x0); mkPk gen (gpow gen x1)] = Ok pk ->
    forall (a b alpha : Z) t ca t1 cb t2,
      1 <= alpha < ord Gr -> 0 <= a < ord Gr -> 0 <= b < ord Gr ->
      encrypt pk a t = Ok (ca, t1) -> encrypt pk b t1 = Ok (cb, t2) ->
      let masked := ct_exp (ct_mul ca (ct_invert cb)) alpha in
      (decrypt x0 (partial_decrypt x1 masked) = gid <-> a = b).
Proof. intros Gr. exact (@masked_test Gr). Qed.

(** C29. No shares: refused. *)
Theorem C29_no_shares : forall Gr : group, @public_key_from_shares Gr [] = Err InvalidArgument.
Proof. reflexivity. Qed.

(** C30. *)
Theorem C30_decrypt_exp :
  forall (Gr : group) (limit : nat) (x m : Z) (t t' : tape) (c : ct Gr),
    let pk := mkPk gen (gpow gen x) in
    (0 < limit)%nat -> Z.of_nat limit <= ord Gr -> 0 <= m < ord Gr ->
    encrypt pk m t = Ok (c, t') ->
    (m < Z.of_nat limit -> decrypt_exp (init_decrypt_exp pk limit) x c = Ok m)
    /\ (Z.of_nat limit <= m -> decrypt_exp (init_decrypt_exp pk limit) x c = Err InvalidArgument)
    /\ decrypt_exp [] x c = Err Internal.
Proof.
  intros Gr limit x m t t' c pk HP HL Hm E. apply (encrypt_Ok x) in E.
  change pk with (@key_of Gr x). rewrite (decrypt_exp_spec limit x c m HL HP Hm E).
  split; [|split]; auto; intros; destruct (Z.ltb_spec m (Z.of_nat limit)); auto; lia.
Qed.

(** C31. [exponentiate] always returns the point at infinity. *)
Theorem C31_exponentiate_wrong :
  forall (Gr : group) (m : Z),
    @exponentiate Gr m = gid /\ (exponentiate m = gpow (@gen Gr) m <-> (ord Gr | m)).
Proof. intros Gr. exact (@exponentiate_wrong Gr). Qed.

(** ** Non-vacuity: the additive group modulo 11. *)
Lemma prime_11 : prime 11.
Proof.
  apply prime_intro; [lia|]. intros n Hn.
  assert (n = 1 \/ n = 2 \/ n = 3 \/ n = 4 \/ n = 5 \/ n = 6 \/ n = 7 \/ n = 8 \/ n = 9 \/ n = 10) as D by lia.
  repeat (destruct D as [->|D]; [apply Zgcd_1_rel_prime; reflexivity|]). subst. apply Zgcd_1_rel_prime; reflexivity.
Qed.
Definition G11 : group := zmod_group 11 prime_11.
Example ex_keypair : exists pk x tp, @gen_key_pair G11 (fun n => Z.of_nat n + 5) = Ok ((pk, x), tp) /\ x = 6.
Proof. eexists _, _, _. split; reflexivity. Qed.
Example ex_encrypt_decrypt :
  exists c tp, encrypt (mkPk (@gen G11) (gpow gen 6)) 4 (fun n => Z.of_nat n + 2) = Ok (c, tp)
    /\ decrypt_exp (init_decrypt_exp (mkPk gen (gpow gen 6)) 5) 6 c = Ok 4
    /\ decrypt_exp (init_decrypt_exp (mkPk gen (gpow gen 6)) 4) 6 c = Err InvalidArgument.
Proof. eexists _, _. split; [reflexivity|]. split; vm_compute; reflexivity. Qed.

Print Assumptions C28_elgamal_homomorphic.
Print Assumptions C29_joint_decryption.
Print Assumptions C29_masked_equality_test.
Print Assumptions C30_decrypt_exp.
Print Assumptions C31_exponentiate_wrong.
