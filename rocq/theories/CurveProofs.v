(** * Proofs about hashing to the curve and point encodings. *)
Require Import List Arith Lia ZArith Znumtheory Bool.
Import ListNotations.
From Verif Require Import Prelude BytesModel BytesProofs ContextModel ContextProofs NumTheory PaillierModel PaillierProofs BigPrime Euler
  CurveModel CurveSpec.
Local Open Scope Z_scope.

Lemma group_facts p a b g : ec_group_create p a b = Ok g ->
  prime p /\ Z.odd p = true /\ g = mkEcGroup p a b ((p - 1) / 2).
Proof.
  unfold ec_group_create. destruct (prime_b p) eqn:E; [|discriminate]. apply prime_b_prime in E.
  assert (P1 : 1 < p) by (destruct E; auto). unfold bn_div. cbn [Z.eqb].
  destruct (Z.eqb_spec (Z.rem (p - 1) 2) 0) as [R|]; [|discriminate]. cbn [obind]. intros X. inversion X; subst; clear X.
  rewrite Z.rem_mod_nonneg in R by lia. rewrite Z.quot_div_nonneg by lia. split; auto. split; auto.
  apply Z.odd_spec. exists ((p - 1) / 2). pose proof (Z.div_mod (p - 1) 2). lia.
Qed.

Section Facts.
Variables (p a b : Z) (g : ec_group).
Hypothesis Hg : ec_group_create p a b = Ok g.
Let facts := group_facts p a b g Hg.
Let Hp : prime p := proj1 facts.
Let Odd : Z.odd p = true := proj1 (proj2 facts).
Let Eg : g = mkEcGroup p a b ((p - 1) / 2) := proj2 (proj2 facts).
Lemma p3 : 3 <= p.
Proof. destruct (p_half p Hp Odd) as (E & H1). lia. Qed.

Lemma y2_mod x : compute_y_square g x = (x * x * x + a * x + b) mod p.
Proof. rewrite Eg. unfold compute_y_square. cbn [eg_p eg_a eg_b]. f_equal. ring. Qed.
Lemma y2_range x : 0 <= compute_y_square g x < p.
Proof. rewrite y2_mod. apply Z.mod_pos_bound. pose proof p3. lia. Qed.
Lemma square_eq y x : y * y mod p = compute_y_square g x <-> (p | y * y - (x * x * x + a * x + b)).
Proof. rewrite y2_mod. symmetry. apply (eqm_iff p). pose proof p3. lia. Qed.
Lemma on_curve_iff x y : on_curve p a b x y <-> 0 <= x < p /\ 0 <= y < p /\ is_on_curve g (Affine x y) = true.
Proof.
  unfold on_curve. cbn [is_on_curve]. rewrite Z.eqb_eq. replace (eg_p g) with p by (rewrite Eg; auto).
  rewrite square_eq. tauto.
Qed.
Lemma create_point_ok x y : on_curve p a b x y -> create_point_xy g x y = Ok (Affine x y).
Proof.
  intros C. apply on_curve_iff in C as (Bx & By & C). unfold create_point_xy, affine_point.
  replace (eg_p g) with p by (rewrite Eg; auto). rewrite C.
  replace ((0 <=? x) && (x <? p) && (0 <=? y) && (y <? p) && true) with true.
  2: { symmetry. rewrite !andb_true_iff, !Z.leb_le, !Z.ltb_lt. lia. }
  cbn [obind]. unfold is_valid. rewrite C. reflexivity.
Qed.
Lemma is_square_spec z : 0 <= z < p ->
  is_square g z = Ok (z ^ ((p - 1) / 2) mod p =? 1).
Proof.
  intros Bz. unfold is_square. replace (eg_p g) with p by (rewrite Eg; auto).
  replace (eg_half g) with ((p - 1) / 2) by (rewrite Eg; auto). destruct (p_half p Hp Odd).
  rewrite mod_exp_total by lia. reflexivity.
Qed.
Lemma usable_iff x : 0 <= x < p ->
  (usable p a b x <-> compute_y_square g x ^ ((p - 1) / 2) mod p = 1).
Proof.
  intros Bx. rewrite (euler_criterion p Hp Odd _ (y2_range x)). split.
  - intros (y & Ny & _ & By & C). exists y. split; [lia|]. apply square_eq. auto.
  - intros (y & By & C). exists y. split; [lia|]. split; auto. split; [lia|]. apply square_eq. auto.
Qed.
Lemma on_curve_opposite x y : y <> 0 -> on_curve p a b x y -> on_curve p a b x (p - y).
Proof.
  intros Ny (Bx & By & C). split; [auto|]. split; [lia|].
  replace ((p - y) * (p - y) - (x * x * x + a * x + b)) with (p * (p - 2 * y) + (y * y - (x * x * x + a * x + b))) by ring.
  apply Z.divide_add_r; auto. exists (p - 2 * y). ring.
Qed.
Lemma opposite_parity y : Z.odd (p - y) = negb (Z.odd y).
Proof. rewrite Z.odd_sub, Odd. destruct (Z.odd y); auto. Qed.
(** two points with the same abscissa: equal or opposite *)
Lemma same_x x y y' : on_curve p a b x y -> on_curve p a b x y' -> y = y' \/ y + y' = p \/ y = 0 /\ y' = 0.
Proof.
  intros (Bx & By & C) (_ & By' & C').
  assert (DD : (p | (y - y') * (y + y'))).
  { replace ((y - y') * (y + y')) with ((y * y - (x * x * x + a * x + b)) - (y' * y' - (x * x * x + a * x + b))) by ring.
    apply Z.divide_sub_r; auto. }
  apply prime_mult in DD as [D|D]; auto.
  - left. apply (eqm_small p); auto.
  - destruct D as (k & E). assert (K : k = 0 \/ k = 1) by nia. destruct K as [-> | ->]; lia.
Qed.
Lemma same_x_parity x y y' : on_curve p a b x y -> on_curve p a b x y' -> Z.odd y = Z.odd y' -> y = y'.
Proof.
  intros C C' P. destruct (same_x x y y' C C') as [|[E|[-> ->]]]; auto. exfalso.
  replace y' with (p - y) in P by lia. rewrite opposite_parity in P. destruct (Z.odd y); discriminate.
Qed.

Section Roots.
Variable root : Z -> Z -> option Z.
Hypothesis HR : finds_roots root.
Lemma hash_internal_spec x : 0 <= x < p ->
  match hash_internal root g x with
  | Ok P => exists y, on_curve p a b x y /\ y <> 0 /\ Z.even y = true /\ P = Affine x y
  | Err _ => ~ usable p a b x
  | _ => False
  end.
Proof.
  intros Bx. unfold hash_internal. replace (eg_p g) with p by (rewrite Eg; auto). rewrite (Z.mod_small x p Bx).
  rewrite is_square_spec by apply y2_range. cbn [obind].
  destruct (Z.eqb_spec (compute_y_square g x ^ ((p - 1) / 2) mod p) 1) as [Q|Q].
  2: { intros U. apply Q. apply usable_iff; auto. }
  apply usable_iff in Q; auto. unfold mod_sqrt. specialize (HR p _ Hp (y2_range x)).
  destruct Q as (w & Nw & Cw). pose proof p3 as P3.
  destruct (root (compute_y_square g x) p) as [r|].
  2: { exfalso. apply (HR w). apply (eqm_iff p); [lia|]. destruct Cw as (_ & _ & Cw). apply square_eq in Cw. rewrite Cw.
       symmetry. apply Z.mod_small. apply y2_range. }
  destruct HR as (Br & Dr). assert (Cr : on_curve p a b x r).
  { split; auto. split; auto. apply square_eq. apply (eqm_iff p) in Dr; [|lia]. rewrite Dr. apply Z.mod_small, y2_range. }
  assert (Nr : r <> 0). { intros ->. destruct (same_x x w 0 Cw Cr) as [|[E|[E _]]]; auto. destruct Cw as (_ & Bw & _). lia. }
  cbn [obind]. rewrite Z.bit0_odd. destruct (Z.odd r) eqn:Or.
  - unfold mod_negate. destruct (Z.eqb_spec r 0); [contradiction|]. rewrite (Z.mod_small r p Br).
    rewrite create_point_ok by (apply on_curve_opposite; auto). exists (p - r). split; [apply on_curve_opposite; auto|].
    split; [lia|]. split; auto. rewrite <- Z.negb_odd, opposite_parity, Or. auto.
  - rewrite create_point_ok by auto. exists r. split; auto. split; auto. split; auto. rewrite <- Z.negb_odd, Or. auto.
Qed.

Section Digest.
Variables (hlen : Z) (sha : bytes -> bytes) (H : bytes -> Z).
Hypothesis HH : forall s, random_oracle hlen sha s p = Ok (H s).
Lemma H_range s : 0 <= H s < p.
Proof. eapply random_oracle_range; [|apply HH]. pose proof p3. lia. Qed.
Lemma hash_loop_spec m fuel : forall k,
  match hash_loop root hlen sha fuel g (candidate H bn2bin m k) with
  | Some (Ok P) => exists j x y, (k <= j < k + fuel)%nat /\ x = candidate H bn2bin m j /\
      (forall i, (k <= i < j)%nat -> ~ usable p a b (candidate H bn2bin m i)) /\
      on_curve p a b x y /\ y <> 0 /\ Z.even y = true /\ P = Affine x y
  | None => forall i, (k <= i < k + fuel)%nat -> ~ usable p a b (candidate H bn2bin m i)
  | _ => False
  end.
Proof.
  induction fuel as [|f IH]; intros k. { cbn [hash_loop]. intros i Hi. lia. }
  cbn [hash_loop]. set (x := candidate H bn2bin m k).
  assert (Bx : 0 <= x < p) by (unfold x; destruct k; apply H_range).
  pose proof (hash_internal_spec x Bx) as S. destruct (hash_internal root g x) as [P|c| |]; try contradiction.
  - destruct S as (y & C & Ny & Ey & EP). exists k, x, y. split; [lia|]. split; auto. split; [intros; lia|]. auto.
  - unfold to_bytes. destruct (Z.ltb_spec x 0); [lia|]. cbn [obind].
    replace (eg_p g) with p by (rewrite Eg; auto). rewrite HH.
    change (H (bn2bin x)) with (candidate H bn2bin m (Datatypes.S k)). specialize (IH (Datatypes.S k)).
    destruct (hash_loop root hlen sha f g (candidate H bn2bin m (Datatypes.S k))) as [[P|c'| |]|]; auto.
    + destruct IH as (j & x' & y & Hj & Ex & N & R). exists j, x', y. split; [lia|]. split; auto. split; auto.
      intros i Hi. destruct (Nat.eq_dec i k) as [->|]; auto. apply N. lia.
    + intros i Hi. destruct (Nat.eq_dec i k) as [->|]; auto. apply IH. lia.
Qed.
Lemma hash_to_curve_spec m fuel :
  match hash_to_curve root hlen sha fuel g m with
  | Some (Ok P) => exists j x y, (j < fuel)%nat /\ x = candidate H bn2bin m j /\
      (forall i, (i < j)%nat -> ~ usable p a b (candidate H bn2bin m i)) /\
      on_curve p a b x y /\ y <> 0 /\ Z.even y = true /\ P = Affine x y
  | None => forall i, (i < fuel)%nat -> ~ usable p a b (candidate H bn2bin m i)
  | _ => False
  end.
Proof.
  unfold hash_to_curve. replace (eg_p g) with p by (rewrite Eg; auto). rewrite HH.
  pose proof (hash_loop_spec m fuel 0) as L. cbn [candidate] in L.
  destruct (hash_loop root hlen sha fuel g (H m)) as [[P|c| |]|]; auto.
  - destruct L as (j & x & y & Hj & Ex & N & R). exists j, x, y. split; [lia|]. split; auto. split; auto. intros i Hi. apply N. lia.
  - intros i Hi. apply L. lia.
Qed.
End Digest.

(** ** encodings *)
Lemma pad_length s n : (length s <= n)%nat -> length (pad_bytes s n) = n.
Proof. intros L. unfold pad_bytes. rewrite app_length, repeat_length. lia. Qed.
Lemma coordinate x : 0 <= x < p -> length (pad_bytes (bn2bin x) (field_len g)) = field_len g /\
  of_bytes (pad_bytes (bn2bin x) (field_len g)) = x.
Proof.
  intros Bx. destruct (bn2bin_spec x) as (E2 & E1 & E3); [lia|]. split.
  - apply pad_length. apply bn2bin_length. split; [lia|].
    unfold field_len. replace (eg_p g) with p by (rewrite Eg; auto).
    destruct (bn2bin_spec p) as (F2 & F1 & _); [lia|]. pose proof (of_bytes_bound _ F2) as B. rewrite F1 in B. lia.
  - unfold pad_bytes. rewrite of_bytes_zeros. exact E1.
Qed.
Lemma decode_compressed x y : on_curve p a b x y ->
  create_point_bytes root g ((2 + y mod 2) :: pad_bytes (bn2bin x) (field_len g)) = Ok (Affine x y).
Proof.
  intros C. pose proof C as (Bx & By & Cy). destruct (coordinate x Bx) as (L & V). pose proof p3 as P3.
  unfold create_point_bytes. cbn [oct2point].
  pose proof (Z.mod_pos_bound y 2 ltac:(lia)) as M2. assert (T : Z.odd y = (2 + y mod 2 =? 3)).
  { rewrite Zmod_odd. destruct (Z.odd y); auto. }
  destruct (Z.eqb_spec (2 + y mod 2) 4); [lia|].
  replace ((2 + y mod 2 =? 2) || (2 + y mod 2 =? 3)) with true.
  2: { symmetry. apply orb_true_iff. rewrite !Z.eqb_eq. lia. }
  rewrite L, Nat.eqb_refl, V. replace (eg_p g) with p by (rewrite Eg; auto).
  destruct (Z.ltb_spec x p); [|lia]. specialize (HR p _ Hp (y2_range x)).
  destruct (root (compute_y_square g x) p) as [r|].
  2: { exfalso. apply (HR y). apply (eqm_iff p); [lia|]. apply square_eq in Cy. rewrite Cy.
       symmetry. apply Z.mod_small. apply y2_range. }
  destruct HR as (Br & Dr). assert (Cr : on_curve p a b x r).
  { split; auto. split; auto. apply square_eq. apply (eqm_iff p) in Dr; [|lia]. rewrite Dr. apply Z.mod_small, y2_range. }
  assert (V' : is_valid g (Affine x y) = true). { unfold is_valid. apply on_curve_iff in C as (_ & _ & ->). reflexivity. }
  destruct (Z.eqb_spec r 0) as [->|Nr].
  - assert (y = 0) as ->. { destruct (same_x x y 0 C Cr) as [|[E|[E _]]]; auto. lia. }
    destruct (Z.eqb_spec (2 + 0 mod 2) 3) as [E|]; [discriminate|]. rewrite V'. reflexivity.
  - assert (E : (if Bool.eqb (Z.odd r) (2 + y mod 2 =? 3) then r else p - r) = y).
    { rewrite <- T. destruct (Bool.eqb (Z.odd r) (Z.odd y)) eqn:EB.
      - apply eqb_prop in EB. apply (same_x_parity x); auto.
      - apply eqb_false_iff in EB. apply (same_x_parity x); auto; [apply on_curve_opposite; auto|].
        rewrite opposite_parity. destruct (Z.odd r), (Z.odd y); auto; congruence. }
    rewrite E, V'. reflexivity.
Qed.
Lemma decode_uncompressed x y : on_curve p a b x y ->
  create_point_bytes root g (4 :: pad_bytes (bn2bin x) (field_len g) ++ pad_bytes (bn2bin y) (field_len g)) = Ok (Affine x y).
Proof.
  intros C. pose proof C as (Bx & By & Cy). destruct (coordinate x Bx) as (L & V), (coordinate y By) as (L' & V').
  unfold create_point_bytes. cbn [oct2point Z.eqb Pos.eqb]. rewrite app_length, L, L'.
  replace (field_len g + field_len g =? 2 * field_len g)%nat with true by (symmetry; apply Nat.eqb_eq; lia).
  rewrite firstn_app, skipn_app, L, Nat.sub_diag. cbn [firstn skipn].
  rewrite firstn_all2, skipn_all2 by lia. rewrite app_nil_r. cbn [app]. rewrite V, V'.
  replace (eg_p g) with p by (rewrite Eg; auto). apply on_curve_iff in C as (_ & _ & C). rewrite C.
  destruct (Z.ltb_spec x p), (Z.ltb_spec y p); try lia. cbn [andb]. unfold is_valid. rewrite C. reflexivity.
Qed.
Lemma decoded_on_curve s P : Forall is_byte s -> create_point_bytes root g s = Ok P ->
  exists x y, P = Affine x y /\ on_curve p a b x y /\ (to_compressed g P = Ok s \/ to_uncompressed g P = Ok s).
Proof.
  intros Bs. unfold create_point_bytes. destruct (oct2point root g s) as [Q|] eqn:EO; [|discriminate].
  destruct (is_valid g Q) eqn:EV; cbn [negb]; intros X; inversion X; subst Q; clear X.
  pose proof p3 as P3. destruct s as [|t r]; [discriminate|]. apply Forall_cons_iff in Bs as (Bt & Br).
  cbn [oct2point] in EO.
  assert (Padded : forall u, Forall is_byte u -> length u = field_len g -> pad_bytes (bn2bin (of_bytes u)) (field_len g) = u).
  { intros u Bu Lu. rewrite <- Lu. clear -Bu. induction u as [|c u IH]; [reflexivity|]. apply Forall_cons_iff in Bu as (H1 & H2).
    destruct (Z.eq_dec c 0) as [->|Nc].
    - rewrite of_bytes_cons. cbn [Z.mul Z.add]. unfold pad_bytes in *. specialize (IH H2).
      assert (L : (length (bn2bin (of_bytes u)) <= length u)%nat). { apply bn2bin_length. apply of_bytes_bound; auto. }
      cbn [length]. rewrite Nat.sub_succ_l by auto. cbn [repeat app]. rewrite IH. reflexivity.
    - rewrite bn2bin_of_bytes; auto. unfold pad_bytes. rewrite Nat.sub_diag. reflexivity. }
  destruct (Z.eqb_spec t 4) as [->|N4].
  - destruct (Nat.eqb_spec (length r) (2 * field_len g)) as [L|]; [|discriminate].
    set (u := firstn (field_len g) r) in *. set (v := skipn (field_len g) r) in *.
    assert (Buv : Forall is_byte u /\ Forall is_byte v).
    { rewrite <- (firstn_skipn (field_len g) r) in Br. apply Forall_app in Br. exact Br. }
    destruct Buv as (Bu & Bv).
    assert (Lu : length u = field_len g) by (unfold u; rewrite firstn_length; lia).
    assert (Lv : length v = field_len g) by (unfold v; rewrite skipn_length; lia).
    destruct ((of_bytes u <? eg_p g) && (of_bytes v <? eg_p g) && is_on_curve g (Affine (of_bytes u) (of_bytes v))) eqn:EA; [|discriminate].
    inversion EO; subst P; clear EO. apply andb_true_iff in EA as (EA & C). apply andb_true_iff in EA as (L1 & L2).
    apply Z.ltb_lt in L1, L2. replace (eg_p g) with p in * by (rewrite Eg; auto).
    exists (of_bytes u), (of_bytes v). split; auto. split.
    + apply on_curve_iff. pose proof (of_bytes_bound u Bu). pose proof (of_bytes_bound v Bv). split; [lia|]. split; [lia|]. auto.
    + right. cbn [to_uncompressed]. rewrite !Padded by auto. unfold u, v. rewrite firstn_skipn. reflexivity.
  - destruct ((t =? 2) || (t =? 3)) eqn:ET; [|discriminate].
    destruct (Nat.eqb_spec (length r) (field_len g)) as [L|]; [|discriminate].
    destruct (Z.ltb_spec (of_bytes r) (eg_p g)) as [LX|]; [|discriminate].
    replace (eg_p g) with p in * by (rewrite Eg; auto). pose proof (of_bytes_bound r Br) as BX.
    specialize (HR p _ Hp (y2_range (of_bytes r))). destruct (root (compute_y_square g (of_bytes r)) p) as [z|]; [|discriminate].
    destruct HR as (Bz & Dz). assert (Cz : on_curve p a b (of_bytes r) z).
    { split; [lia|]. split; auto. apply square_eq. apply (eqm_iff p) in Dz; [|lia]. rewrite Dz. apply Z.mod_small, y2_range. }
    assert (T : forall y, Z.odd y = (t =? 3) -> 2 + y mod 2 = t).
    { intros y E. rewrite Zmod_odd, E. apply orb_true_iff in ET. rewrite !Z.eqb_eq in ET. destruct (Z.eqb_spec t 3); lia. }
    destruct (Z.eqb_spec z 0) as [->|Nz].
    + destruct (Z.eqb_spec t 3) as [|N3]; [discriminate|]. inversion EO; subst P. exists (of_bytes r), 0. split; auto. split; auto.
      left. cbn [to_compressed]. rewrite Padded by auto. rewrite T; auto.
    + set (y := if Bool.eqb (Z.odd z) (t =? 3) then z else p - z) in *. inversion EO; subst P.
      assert (Oy : Z.odd y = (t =? 3) /\ on_curve p a b (of_bytes r) y).
      { unfold y. destruct (Bool.eqb (Z.odd z) (t =? 3)) eqn:EB.
        - apply eqb_prop in EB. auto.
        - apply eqb_false_iff in EB. rewrite opposite_parity. split; [destruct (Z.odd z), (t =? 3); auto; congruence|].
          apply on_curve_opposite; auto. }
      destruct Oy as (Oy & Cy). exists (of_bytes r), y. split; auto. split; auto.
      left. cbn [to_compressed]. rewrite Padded by auto. rewrite T; auto.
Qed.
End Roots.
End Facts.
