Require Import List Arith Lia ZArith Bool.
Import ListNotations.
From Verif Require Import Prelude TreeModel TreeSpec Coins Group ElGamalModel BytesModel BytesProofs CipherModel CipherProofs WireModel.
Local Open Scope Z_scope.

Section Wire.
Context {Gr : group}.

Definition finite (c : ct Gr) : Prop := ct_u c <> gid /\ ct_e c <> gid.
Definition enc_ct (c : ct Gr) : wct Gr := (WPt (ct_u c), WPt (ct_e c)).

Lemma ser_ct_ok c : finite c -> ser_ct c = Ok (enc_ct c).
Proof.
  intros (H1 & H2). unfold ser_ct. rewrite !point_to_bytes_ok by auto. reflexivity.
Qed.
Lemma ser_ct_inv c w : ser_ct c = Ok w -> finite c /\ w = enc_ct c.
Proof.
  unfold ser_ct, point_to_bytes. destruct (geqb (ct_u c) gid) eqn:E1; [discriminate|].
  destruct (geqb (ct_e c) gid) eqn:E2; [discriminate|]. cbn [obind]. intros H; inversion H; subst.
  apply geqb_false in E1, E2. unfold finite; auto.
Qed.
Lemma ser_ct_fail c : ~ finite c -> ser_ct c = Err Internal.
Proof.
  intros N. unfold ser_ct, point_to_bytes. destruct (geqb (ct_u c) gid) eqn:E1; [reflexivity|].
  destruct (geqb (ct_e c) gid) eqn:E2; [reflexivity|]. exfalso. apply N.
  apply geqb_false in E1, E2. unfold finite; auto.
Qed.
Lemma deser_ct_iff w c : deser_ct w = Ok c <-> finite c /\ w = enc_ct c.
Proof.
  destruct w as [u e]. unfold deser_ct, create_point, enc_ct, finite; cbn [fst snd]. split.
  - intros H. destruct u as [u|]; [|discriminate]. destruct (geqb u gid) eqn:E1; [discriminate|].
    destruct e as [e|]; [|discriminate]. cbn [obind] in H. destruct (geqb e gid) eqn:E2; [discriminate|].
    cbn [obind] in H. inversion H; subst. cbn. apply geqb_false in E1, E2. auto.
  - intros ((H1 & H2) & E). inversion E; subst. apply geqb_false in H1, H2. rewrite H1. cbn [obind].
    rewrite H2. destruct c; reflexivity.
Qed.
Lemma deser_ct_total w : (exists c, deser_ct w = Ok c) \/ @deser_ct Gr w = Err InvalidArgument.
Proof.
  destruct w as [[u|] e]; unfold deser_ct, create_point; cbn [fst snd]; auto.
  destruct (geqb u gid); auto. destruct e as [e|]; auto. cbn [obind]. destruct (geqb e gid); auto. cbn; eauto.
Qed.
End Wire.

Lemma omap_total {A B} (f : A -> outcome B) c l :
  (forall x, (exists y, f x = Ok y) \/ f x = Err c) -> (exists r, omap f l = Ok r) \/ omap f l = Err c.
Proof.
  intros H. induction l as [|x l IH]; simpl; eauto.
  destruct (H x) as [(y & ->)| ->]; auto. cbn [obind]. destruct IH as [(r & ->)| ->]; auto. left. cbn. eauto.
Qed.
Lemma omap_some {A B} (f : A -> outcome B) l : (forall x, In x l -> exists y, f x = Ok y) -> exists r, omap f l = Ok r.
Proof.
  induction l as [|x l IH]; intros H; simpl; eauto.
  destruct (H x) as (y & ->); [left; auto|]. destruct IH as (r & ->); [intros; apply H; right; auto|]. cbn. eauto.
Qed.
Lemma omap_inv {A B} (f : A -> outcome B) l r : omap f l = Ok r -> forall x, In x l -> exists y, f x = Ok y.
Proof. intros H x Hx. apply omap_Ok_Forall2 in H. induction H; inversion Hx; subst; eauto. Qed.
Lemma omap_roundtrip {A B} (f : A -> outcome B) (g : B -> outcome A) l r :
  (forall x y, f x = Ok y -> g y = Ok x) -> omap f l = Ok r -> omap g r = Ok l.
Proof.
  intros H E. apply omap_Ok_Forall2 in E. induction E; simpl; auto.
  rewrite (H _ _ H0). cbn [obind]. rewrite IHE. reflexivity.
Qed.

Lemma to_int32_small n : Z.of_nat n < 2 ^ 31 -> to_int32 n = Z.of_nat n.
Proof. intros H. unfold to_int32. rewrite Z.mod_small; lia. Qed.

(** ** padding *)
Definition pad_range (x : Z) : Prop := 10 ^ 15 <= x < 2 * 10 ^ 15.
Lemma digits_bound ds : Forall (fun c => 48 <= c < 58) ds -> forall a,
  a * 10 ^ Z.of_nat (length ds) <= fold_left (fun x c => x * 10 + c - 48) ds a < (a + 1) * 10 ^ Z.of_nat (length ds).
Proof.
  induction 1 as [|c ds Hc _ IH]; intros a; cbn [fold_left length]; [simpl; lia|].
  specialize (IH (a * 10 + c - 48)). rewrite Nat2Z.inj_succ, Z.pow_succ_r by lia.
  set (P := 10 ^ Z.of_nat (length ds)) in *. assert (0 < P) by (apply Z.pow_pos_nonneg; lia). nia.
Qed.
Lemma random_numeric_string_spec b t s t' : random_numeric_string 16 b t = Ok (s, t') ->
  length s = 16%nat /\ if b then pad_range (numeric_string2uint s) else 0 <= numeric_string2uint s < 10 ^ 15.
Proof.
  unfold random_numeric_string. intros H. apply bind_Ok in H as (ds & t1 & H & E). apply ret_Ok in E as (-> & _).
  apply repeatM_Ok in H as (L & F). simpl in L.
  assert (F' : Forall (fun c => 48 <= c < 58) ds).
  { eapply Forall_impl; [|exact F]. intros c (t2 & t3 & H). apply bind_Ok in H as (d & t4 & H & E).
    apply ret_Ok in E as (-> & _). apply rand_less_than_range in H. lia. }
  unfold numeric_string2uint, pad_range. cbn [fold_left length]. rewrite L. split; auto.
  pose proof (digits_bound ds F' (0 * 10 + (if b then 49 else 48) - 48)) as B. rewrite L in B.
  change (Z.of_nat 15) with 15 in B. destruct b; lia.
Qed.
Lemma repeatM_total {A} (m : M A) n : (forall t, exists x t', m t = Ok (x, t')) -> forall t, exists xs t', repeatM n m t = Ok (xs, t').
Proof.
  intros H. induction n as [|n IH]; intros t; simpl; [eexists _, _; reflexivity|].
  destruct (H t) as (x & t1 & E). destruct (IH t1) as (xs & t2 & E2). unfold bind. rewrite E, E2. eexists _, _; reflexivity.
Qed.
Lemma random_numeric_string_total b n t : exists s t', random_numeric_string n b t = Ok (s, t').
Proof.
  unfold random_numeric_string. unfold bind at 1.
  destruct (repeatM_total (d <- rand_less_than 10 ;; ret (d + 48)) (n - 1)) with (t := t) as (ds & t1 & E).
  { intros t0. eexists _, _. reflexivity. }
  rewrite E. eexists _, _; reflexivity.
Qed.
Lemma random_pad_total t : exists x t', random_pad_element t = Ok (x, t').
Proof.
  unfold random_pad_element, bind. destruct (random_numeric_string_total true 16 t) as (s & t' & ->). eexists _, _; reflexivity.
Qed.
Lemma random_pad_range t x t' : random_pad_element t = Ok (x, t') -> pad_range x.
Proof.
  unfold random_pad_element. intros H. apply bind_Ok in H as (s & t1 & H & E). apply ret_Ok in E as (-> & _).
  apply random_numeric_string_spec in H as (_ & H). exact H.
Qed.
Lemma pad_node_total {A} (mk : Z -> A) n t : exists n' t', pad_node mk n t = Ok (n', t').
Proof.
  unfold pad_node, bind. destruct (repeatM_total random_pad_element (node_cap n - length (elems n)) random_pad_total t) as (ps & t' & ->).
  eexists _, _; reflexivity.
Qed.
Lemma pad_node_spec {A} (mk : Z -> A) n t n' t' : pad_node mk n t = Ok (n', t') ->
  node_cap n' = node_cap n /\
  exists ps, elems n' = elems n ++ map mk ps /\ Forall pad_range ps /\
    length ps = (node_cap n - length (elems n))%nat.
Proof.
  unfold pad_node. intros H. apply bind_Ok in H as (ps & t1 & H & E). apply ret_Ok in E as (-> & _).
  apply repeatM_Ok in H as (L & F). cbn. split; auto. exists ps. split; auto. split; auto.
  eapply Forall_impl; [|exact F]. intros x (s & s' & H). eapply random_pad_range; eauto.
Qed.
