(** * Cyclic groups of prime order: the model of the elliptic-curve group.

    ECGroup / ECPoint (crypto/ec_group.{h,cc}, crypto/ec_point.{h,cc}) are
    modelled by an arbitrary finite cyclic group of prime order, written
    multiplicatively as in the comments of the code: [gop] = ECPoint::Add
    (ec_point.cc:86-94), [gpow] = ECPoint::Mul (ec_point.cc:76-84; BoringSSL
    reduces the scalar modulo the order, negative ones included), [ginv] =
    Inverse (105-114), [gid] = the point at infinity, [geqb] = CompareTo
    (120-122), [gen] = GetFixedGenerator, [ord] = the order.  NIST curves used
    by the code have cofactor 1, so every point is a power of the generator. *)
Require Import List Arith Lia ZArith Bool Znumtheory Eqdep_dec.
From Verif Require Import Prelude.
Local Open Scope Z_scope.

Section Pow.
  Context {G : Type} (op : G -> G -> G) (inv : G -> G) (e : G).
  Definition powG (x : G) (k : Z) : G :=
    match k with
    | Z0 => e
    | Zpos p => Pos.iter_op op p x
    | Zneg p => inv (Pos.iter_op op p x)
    end.
End Pow.

Record group := mkGroup {
  G :> Type;
  gop : G -> G -> G;
  ginv : G -> G;
  gid : G;
  geqb : G -> G -> bool;
  gen : G;
  ord : Z;
  gop_assoc : forall x y z, gop x (gop y z) = gop (gop x y) z;
  gop_comm : forall x y, gop x y = gop y x;
  gop_id : forall x, gop gid x = x;
  gop_inv : forall x, gop (ginv x) x = gid;
  geqb_spec : forall x y, geqb x y = true <-> x = y;
  ord_prime : prime ord;
  gen_ord : powG gop ginv gid gen ord = gid;
  gen_nontrivial : gen <> gid;
  gen_cyclic : forall x, exists k, x = powG gop ginv gid gen k
}.
Arguments gop {_}. Arguments ginv {_}. Arguments gid {_}. Arguments geqb {_}.
Arguments gen {_}.

Definition gpow {Gr : group} (x : Gr) (k : Z) : Gr := powG gop ginv gid x k.

Section Laws.
Context {Gr : group}.
Implicit Types x y z : Gr.

Lemma gop_id_r x : gop x gid = x.
Proof. rewrite gop_comm. apply gop_id. Qed.
Lemma gop_inv_r x : gop x (ginv x) = gid.
Proof. rewrite gop_comm. apply gop_inv. Qed.
Lemma gop_cancel_l x y z : gop x y = gop x z -> y = z.
Proof.
  intros H. rewrite <- (gop_id _ y), <- (gop_id _ z), <- (gop_inv _ x), <- !gop_assoc. congruence.
Qed.
Lemma ginv_unique x y : gop x y = gid -> y = ginv x.
Proof. intros H. apply (gop_cancel_l x). rewrite H, gop_inv_r. auto. Qed.
Lemma ginv_op x y : ginv (gop x y) = gop (ginv x) (ginv y).
Proof.
  symmetry. apply ginv_unique. rewrite (gop_comm _ (ginv x)), gop_assoc.
  rewrite <- (gop_assoc _ x y), gop_inv_r, gop_id_r, gop_inv_r. auto.
Qed.
Lemma ginv_id : ginv (@gid Gr) = gid.
Proof. symmetry. apply ginv_unique. apply gop_id. Qed.
Lemma ginv_inv x : ginv (ginv x) = x.
Proof. symmetry. apply ginv_unique. apply gop_inv. Qed.

Lemma iter_op_succ x p : Pos.iter_op gop (Pos.succ p) x = gop x (Pos.iter_op gop p x).
Proof. apply Pos.iter_op_succ. intros; apply gop_assoc. Qed.

Lemma gpow_0 x : gpow x 0 = gid. Proof. reflexivity. Qed.
Lemma gpow_1 x : gpow x 1 = x. Proof. reflexivity. Qed.
Lemma gpow_succ x k : gpow x (Z.succ k) = gop x (gpow x k).
Proof.
  unfold gpow, powG. destruct k as [|p|p].
  - simpl. rewrite gop_id_r. auto.
  - simpl Z.succ. rewrite Pos.add_1_r. apply iter_op_succ.
  - destruct (Pos.succ_pred_or p) as [->|E].
    + simpl. rewrite gop_inv_r. auto.
    + rewrite <- E. assert (S : Z.succ (Z.neg (Pos.succ (Pos.pred p))) = Z.neg (Pos.pred p)) by lia.
      rewrite S, iter_op_succ, ginv_op, gop_assoc, gop_inv_r, gop_id. auto.
Qed.
Lemma gpow_pred x k : gpow x (Z.pred k) = gop (ginv x) (gpow x k).
Proof.
  rewrite <- (Z.succ_pred k) at 2. rewrite gpow_succ, gop_assoc, gop_inv, gop_id. auto.
Qed.
Lemma gpow_add x a b : gpow x (a + b) = gop (gpow x a) (gpow x b).
Proof.
  revert b. induction a using Z.peano_ind; intros b.
  - rewrite Z.add_0_l, gpow_0, gop_id. auto.
  - rewrite Z.add_succ_l, !gpow_succ, IHa, gop_assoc. auto.
  - rewrite Z.add_pred_l, !gpow_pred, IHa, gop_assoc. auto.
Qed.
Lemma gpow_opp x a : gpow x (- a) = ginv (gpow x a).
Proof. apply ginv_unique. rewrite <- gpow_add, Z.add_opp_diag_r. auto. Qed.
Lemma gpow_mul x a b : gpow x (a * b) = gpow (gpow x a) b.
Proof.
  induction b using Z.peano_ind.
  - rewrite Z.mul_0_r. auto.
  - rewrite Z.mul_succ_r, gpow_succ, gpow_add, IHb, gop_comm. auto.
  - rewrite Z.mul_pred_r, gpow_pred. unfold Z.sub. rewrite gpow_add, gpow_opp, IHb, gop_comm. auto.
Qed.
Lemma gpow_op x y k : gpow (gop x y) k = gop (gpow x k) (gpow y k).
Proof.
  assert (S4 : forall a b c d : Gr, gop (gop a b) (gop c d) = gop (gop a c) (gop b d)).
  { intros. rewrite <- !gop_assoc. f_equal. rewrite !gop_assoc. f_equal. apply gop_comm. }
  induction k using Z.peano_ind.
  - rewrite !gpow_0, gop_id. auto.
  - rewrite !gpow_succ, IHk. apply S4.
  - rewrite !gpow_pred, IHk, ginv_op. apply S4.
Qed.
Lemma gpow_id k : gpow (@gid Gr) k = gid.
Proof.
  induction k using Z.peano_ind; auto.
  - rewrite gpow_succ, IHk, gop_id; auto.
  - rewrite gpow_pred, IHk, ginv_id, gop_id. auto.
Qed.
Lemma gpow_inv x k : gpow (ginv x) k = ginv (gpow x k).
Proof. apply ginv_unique. rewrite <- gpow_op, gop_inv_r, gpow_id. auto. Qed.

Lemma ord_pos : 1 < ord Gr.
Proof. destruct (ord_prime Gr); auto. Qed.
Lemma dlog_exists x : exists k, 0 <= k < ord Gr /\ x = gpow gen k.
Proof.
  destruct (gen_cyclic Gr x) as (k & ->). exists (k mod ord Gr).
  pose proof ord_pos. split; [apply Z.mod_pos_bound; lia|].
  fold (@gpow Gr gen k). rewrite (Z.div_mod k (ord Gr)) at 1 by lia.
  rewrite gpow_add, gpow_mul. unfold gpow at 2. rewrite gen_ord.
  fold (@gpow Gr gid (k / ord Gr)). rewrite gpow_id, gop_id. auto.
Qed.
Lemma gpow_ord x : gpow x (ord Gr) = gid.
Proof.
  destruct (dlog_exists x) as (k & _ & ->). rewrite <- gpow_mul, Z.mul_comm, gpow_mul.
  unfold gpow at 2. rewrite gen_ord. apply gpow_id.
Qed.
Lemma gpow_mod x k : gpow x (k mod ord Gr) = gpow x k.
Proof.
  pose proof ord_pos. rewrite (Z.div_mod k (ord Gr)) at 2 by lia.
  rewrite gpow_add, gpow_mul, gpow_ord, gpow_id, gop_id. auto.
Qed.
(** a non-identity element has order exactly [ord] *)
Lemma gpow_id_iff x k : x <> gid -> (gpow x k = gid <-> (ord Gr | k)).
Proof.
  intros Hx. split.
  - intros E.
    destruct (Zdivide_dec (ord Gr) k) as [|N]; auto. exfalso.
    pose proof (prime_rel_prime _ (ord_prime Gr) k N) as R. apply rel_prime_bezout in R.
    destruct R as [u v B]. apply Hx. rewrite <- (gpow_1 x), <- B.
    rewrite gpow_add, !(Z.mul_comm _ (ord Gr)), (Z.mul_comm v), !gpow_mul, gpow_ord, E, !gpow_id, gop_id. auto.
  - intros (c & ->). rewrite Z.mul_comm, gpow_mul, gpow_ord, gpow_id. auto.
Qed.
Lemma gen_pow_id_iff k : gpow (@gen Gr) k = gid <-> (ord Gr | k).
Proof. apply gpow_id_iff, gen_nontrivial. Qed.
Lemma gen_pow_inj a b : gpow (@gen Gr) a = gpow gen b <-> (ord Gr | a - b).
Proof.
  rewrite <- gen_pow_id_iff. unfold Z.sub. rewrite gpow_add, gpow_opp. split.
  - intros ->. apply gop_inv_r.
  - intros H. apply ginv_unique in H. rewrite <- (ginv_inv (gpow gen a)), <- H, ginv_inv. auto.
Qed.
Lemma gen_pow_inj_small a b : 0 <= a < ord Gr -> 0 <= b < ord Gr ->
  gpow (@gen Gr) a = gpow gen b -> a = b.
Proof.
  intros Ha Hb H. apply gen_pow_inj in H. destruct H as (c & E).
  assert (c = 0) by nia. subst c. lia.
Qed.
Lemma geqb_refl x : geqb x x = true. Proof. apply geqb_spec; auto. Qed.
Lemma geqb_false x y : geqb x y = false <-> x <> y.
Proof. rewrite <- geqb_spec. destruct (geqb x y); split; congruence. Qed.
End Laws.

(** ** A concrete instance: (Z/p, +) for any prime p, generated by 1.  Used to
    show that the theorems about arbitrary groups are not vacuous. *)
Section ZmodGroup.
  Variable p : Z.
  Hypothesis Hp : prime p.
  Definition zp : Type := { z : Z | (0 <=? z) && (z <? p) = true }.
  Lemma p_gt1 : 1 < p. Proof. destruct Hp; auto. Qed.
  Lemma zp_in z : (0 <=? z mod p) && (z mod p <? p) = true.
  Proof.
    pose proof p_gt1. apply andb_true_intro. split; [apply Z.leb_le|apply Z.ltb_lt]; apply Z.mod_pos_bound; lia.
  Qed.
  Definition zin (z : Z) : zp := exist _ (z mod p) (zp_in z).
  Lemma zp_eq (a b : zp) : proj1_sig a = proj1_sig b -> a = b.
  Proof.
    destruct a as [a Ha], b as [b Hb]. simpl. intros ->. f_equal. apply UIP_dec. apply bool_dec.
  Qed.
  Lemma zp_small (a : zp) : proj1_sig a mod p = proj1_sig a.
  Proof.
    destruct a as [a Ha]. simpl. apply andb_prop in Ha as [H1 H2]. apply Z.leb_le in H1. apply Z.ltb_lt in H2.
    apply Z.mod_small; lia.
  Qed.
  Definition zadd (a b : Z) : Z := let s := a + b in if s <? p then s else s - p.
  Lemma zadd_mod (a b : zp) : zadd (proj1_sig a) (proj1_sig b) = (proj1_sig a + proj1_sig b) mod p.
  Proof.
    destruct a as [a Ha], b as [b Hb]. cbn [proj1_sig]. apply andb_prop in Ha as [H1 H2], Hb as [H3 H4].
    apply Z.leb_le in H1, H3. apply Z.ltb_lt in H2, H4. unfold zadd. destruct (Z.ltb_spec (a + b) p).
    - rewrite Z.mod_small; lia.
    - symmetry. rewrite <- (Z_mod_plus_full _ (-1)). rewrite Z.mod_small; lia.
  Qed.
  Lemma zadd_in (a b : zp) : (0 <=? zadd (proj1_sig a) (proj1_sig b)) && (zadd (proj1_sig a) (proj1_sig b) <? p) = true.
  Proof. rewrite zadd_mod. apply zp_in. Qed.
  Definition zop (a b : zp) : zp := exist _ (zadd (proj1_sig a) (proj1_sig b)) (zadd_in a b).
  Definition zinv (a : zp) : zp := zin (- proj1_sig a).
  Lemma zop_val a b : proj1_sig (zop a b) = (proj1_sig a + proj1_sig b) mod p.
  Proof. apply zadd_mod. Qed.
  Lemma zin_val z : proj1_sig (zin z) = z mod p.
  Proof. reflexivity. Qed.
  Lemma zop_assoc x y z : zop x (zop y z) = zop (zop x y) z.
  Proof. apply zp_eq. rewrite !zop_val, Zplus_mod_idemp_l, Zplus_mod_idemp_r. f_equal. lia. Qed.

  Lemma zpow_spec k : proj1_sig (powG zop zinv (zin 0) (zin 1) k) = k mod p.
  Proof.
    pose proof p_gt1.
    assert (I : forall q, proj1_sig (Pos.iter_op zop q (zin 1)) = Zpos q mod p).
    { induction q using Pos.peano_ind.
      - reflexivity.
      - rewrite Pos.iter_op_succ by apply zop_assoc.
        rewrite zop_val, IHq, zin_val, <- Zplus_mod. f_equal. lia. }
    destruct k; simpl powG.
    - reflexivity.
    - apply I.
    - simpl. rewrite I. change (Z.neg p0) with (- Z.pos p0).
      rewrite <- (Z.sub_0_l (Z.pos p0 mod p)), <- (Z.sub_0_l (Z.pos p0)), Zminus_mod_idemp_r. reflexivity.
  Qed.

  Definition zmod_group : group.
  Proof.
    refine (mkGroup zp zop zinv (zin 0) (fun a b => proj1_sig a =? proj1_sig b) (zin 1) p zop_assoc _ _ _ _ Hp _ _ _).
    - intros x y. apply zp_eq. rewrite !zop_val. f_equal. lia.
    - intros x. apply zp_eq. rewrite zop_val, zin_val, Zplus_mod_idemp_l. apply zp_small.
    - intros x. apply zp_eq. rewrite zop_val. unfold zinv. rewrite !zin_val, Zplus_mod_idemp_l. f_equal. lia.
    - intros x y. rewrite Z.eqb_eq. split; [apply zp_eq|congruence].
    - apply zp_eq. rewrite zpow_spec. simpl. rewrite Z_mod_same_full. auto.
    - intros E. apply (f_equal (@proj1_sig _ _)) in E. simpl in E. pose proof p_gt1.
      rewrite !Z.mod_small in E by lia. discriminate.
    - intros x. exists (proj1_sig x). apply zp_eq. rewrite zpow_spec, zp_small. auto.
  Defined.
End ZmodGroup.
