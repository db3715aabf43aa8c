(** * C64: the self-test program (SelfTestModel). *)
Require Import List Arith Lia ZArith Znumtheory Bool.
Import ListNotations.
From Verif Require Import Prelude Coins Group NumTheory ElGamalModel ElGamalProofs BytesModel BytesProofs CipherModel PaillierModel PaillierProofs PropsPaillier WireModel WireProofs DataModel DataSpec DataProofs
  FileModel FileSpec FileProofs PropsFile KeyModel KeyProofs BigPrime PropsAdd PropsKeys SelfTestModel.
Local Open Scope Z_scope.

Lemma mapM_each {A B} (f : A -> M B) (R : A -> B -> Prop) l : (forall x, In x l -> forall t, exists y t', f x t = Ok (y, t') /\ R x y) ->
  forall t, exists ys t', mapM f l t = Ok (ys, t') /\ Forall2 R l ys.
Proof.
  induction l as [|x l IH]; intros H t; [exists [], t; auto|].
  destruct (H x (or_introl eq_refl) t) as (y & t1 & E1 & R1). destruct (IH (fun z Hz => H z (or_intror Hz)) t1) as (ys & t2 & E2 & R2).
  exists (y :: ys), t2. cbn [mapM]. unfold bind at 1. rewrite E1. unfold bind at 1. rewrite E2. split; auto.
Qed.
Lemma repeatM_each {A} (m : M A) (P : A -> Prop) n : (forall t, exists y t', m t = Ok (y, t') /\ P y) ->
  forall t, exists ys t', repeatM n m t = Ok (ys, t') /\ length ys = n /\ Forall P ys.
Proof.
  intros H. induction n as [|n IH]; intros t; [exists [], t; auto|].
  destruct (H t) as (y & t1 & E1 & R1). destruct (IH t1) as (ys & t2 & E2 & L & R2).
  exists (y :: ys), t2. cbn [repeatM]. unfold bind at 1. rewrite E1. unfold bind at 1. rewrite E2. cbn [length]. auto.
Qed.
Lemma random_element_ok t : exists x t', random_element t = Ok (x, t') /\ 0 <= x < 10 ^ 15.
Proof.
  destruct (random_set_element_total t) as (s & t' & E). exists (numeric_string2uint s), t'. unfold random_element, bind. rewrite E. split; auto.
  apply random_set_element_spec in E. apply E.
Qed.
Lemma wrong_none l : forall i, wrong i l l = [].
Proof. induction l as [|a l IH]; intros i; auto. cbn [wrong]. rewrite Z.eqb_refl, IH. auto. Qed.

Section ElGamal.
Context {Gr : group}.
(** the elements [el] encrypted under the key x *)
Notation enc_of x := (Forall2 (fun m c => decrypt (Gr := Gr) x c = gpow gen m)).
Definition neighbour (el : list Z) (i : nat) : Z := nth i el 0 + nth (S i) el 0.
Lemma add_next_spec x el cs : enc_of x el cs -> enc_of x (map (neighbour el) (seq 0 (length el))) (add_next cs).
Proof.
  induction 1 as [|m c el cs H F IH]; [constructor|].
  cbn [length seq map]. rewrite <- seq_shift, map_map.
  assert (Q : map (fun i => neighbour (m :: el) (S i)) (seq 0 (length el)) = map (neighbour el) (seq 0 (length el))) by (apply map_ext; intros i; reflexivity).
  rewrite Q. destruct F as [|m' c' el cs H' F].
  - cbn. constructor; auto. unfold neighbour. cbn [nth]. rewrite Z.add_0_r. auto.
  - cbn [add_next]. constructor; auto. rewrite decrypt_mul, H, H'. unfold neighbour. cbn [nth]. rewrite gpow_add. auto.
Qed.
Variables (elgamal_size exp_limit : nat).
Hypothesis PS : (0 < elgamal_size)%nat.
Hypothesis PL : (0 < exp_limit)%nat.
Hypothesis SL : Z.of_nat exp_limit <= ord Gr.

Definition eg_good (T : eg_test (Gr := Gr)) : Prop :=
  length (et_elements T) = elgamal_size /\ length (et_masks T) = elgamal_size /\ length (et_recovered T) = elgamal_size /\
  Forall (fun x => 0 <= x < 10 ^ 15) (et_elements T) /\ Forall (fun k => 1 <= k < ord Gr) (et_masks T) /\
  (forall i, (i < elgamal_size)%nat -> nth i (et_recovered T) gid = gpow gen (- (nth i (et_elements T) 0 + nth (S i) (et_elements T) 0) * nth i (et_masks T) 0)) /\
  et_wrong T = [].
Lemma elgamal_body_spec x1 x0 t : exists T t', elgamal_body elgamal_size exp_limit (key_of (Gr := Gr) (x0 + x1)) x1 x0 t = Ok (T, t') /\ eg_good T.
Proof.
  unfold elgamal_body.
  destruct (repeatM_each _ _ elgamal_size random_element_ok t) as (el & t1 & E & LE & FE). unfold bind at 1. rewrite E. clear E.
  assert (RV : forall t, exists v t', rand_less_than (Z.of_nat exp_limit) t = Ok (v, t') /\ 0 <= v < Z.of_nat exp_limit).
  { intros t2. destruct (rand_less_than (Z.of_nat exp_limit) t2) as [[v t']| | |] eqn:E; try (unfold rand_less_than in E; destruct (Z.ltb_spec 0 (Z.of_nat exp_limit)); [discriminate|lia]).
    exists v, t'. split; auto. eapply rand_less_than_range; eauto. }
  destruct (repeatM_each _ _ elgamal_size RV t1) as (vs & t2 & E & LV & FV). unfold bind at 1. rewrite E. clear E.
  assert (EN : forall l t, exists cs t', mapM (encrypt (key_of (Gr := Gr) (x0 + x1))) l t = Ok (cs, t') /\ enc_of (x0 + x1) l cs).
  { intros l t3. apply (mapM_each (encrypt (key_of (x0 + x1)))). intros m _ t4. destruct (encrypt_total (key_of (Gr := Gr) (x0 + x1)) m t4) as (c & t5 & E). exists c, t5. split; auto. eapply encrypt_Ok; eauto. }
  destruct (EN el t2) as (cs0 & t3 & E & F0). unfold bind at 1. rewrite E. clear E.
  assert (RR : forall t, exists cs1 t', mapM (rerandomize (key_of (Gr := Gr) (x0 + x1))) cs0 t = Ok (cs1, t') /\ Forall2 (fun c c' => decrypt (x0 + x1) c' = decrypt (x0 + x1) c) cs0 cs1).
  { intros t4. apply mapM_each. intros c _ t5. destruct (rerandomize_total (key_of (Gr := Gr) (x0 + x1)) c t5) as (c' & t6 & E). exists c', t6. split; auto. eapply rerandomize_Ok; eauto. }
  destruct (RR t3) as (cs1 & t4 & E & F1). unfold bind at 1. rewrite E. clear E.
  assert (F2 : enc_of (x0 + x1) el cs1).
  { clear - F0 F1. revert cs1 F1. induction F0; intros cs1 F1; inversion F1; subst; constructor; auto. congruence. }
  assert (A1 : add_all cs1 = Ok (add_next cs1)). { destruct cs1; auto. apply Forall2_length' in F2. cbn in F2. lia. }
  rewrite A1. unfold bind at 1. unfold lift at 1. apply add_next_spec in F2. rewrite LE in F2.
  assert (F3 : enc_of (x0 + x1) (map Z.opp (map (neighbour el) (seq 0 elgamal_size))) (map ct_invert (add_next cs1))).
  { clear - F2. induction F2; cbn [map]; constructor; auto. rewrite decrypt_invert, H, gpow_opp. auto. }
  set (cs3 := map ct_invert (add_next cs1)) in *.
  assert (MM : forall t, exists ks t', mapM (fun c => k <- @create_random_mask Gr ;; ret (k, ct_exp c k)) cs3 t = Ok (ks, t') /\ Forall2 (fun c kc => 1 <= fst kc < ord Gr /\ snd kc = ct_exp c (fst kc)) cs3 ks).
  { intros t5. apply mapM_each. intros c _ t6. unfold create_random_mask, bind. destruct (gen_private_key_total (Gr := Gr) t6) as (k & t7 & E). rewrite E. eexists _, _. split; [reflexivity|].
    cbn [fst snd]. split; auto. eapply gen_private_key_range; eauto. }
  destruct (MM t4) as (ks & t5 & E & F4). unfold bind at 1. rewrite E. clear E.
  destruct (EN vs t5) as (vcs & t6 & E & F5). unfold bind at 1. rewrite E. clear E.
  assert (DV : omap (decrypt_exp (init_decrypt_exp (key_of (Gr := Gr) (x0 + x1)) exp_limit) x0) (map (partial_decrypt x1) vcs) = Ok vs).
  { clear - F5 FV PL SL. induction F5 as [|v c vs cs H F IH]; auto. inversion FV; subst. cbn [map omap].
    assert (D : decrypt_exp (init_decrypt_exp (key_of (Gr := Gr) (x0 + x1)) exp_limit) x0 (partial_decrypt x1 c) = Ok v).
    { replace (init_decrypt_exp (key_of (Gr := Gr) (x0 + x1)) exp_limit) with (init_decrypt_exp (key_of (Gr := Gr) x0) exp_limit) by (rewrite !init_decrypt_exp_map; reflexivity).
      rewrite (decrypt_exp_spec exp_limit x0 _ v); auto; [|lia|rewrite decrypt_partial; auto]. destruct (Z.ltb_spec v (Z.of_nat exp_limit)); [auto|lia]. }
    rewrite D. cbn [obind]. rewrite IH; auto. }
  rewrite DV. unfold bind, lift, ret. eexists _, _. split; [reflexivity|]. rewrite wrong_none.
  unfold eg_good. cbn [et_elements et_masks et_recovered et_wrong]. rewrite !map_length.
  assert (L3 : length cs3 = elgamal_size). { apply Forall2_length' in F3. rewrite !map_length, seq_length in F3. auto. }
  assert (L4 : length ks = elgamal_size) by (apply Forall2_length' in F4; congruence).
  split; [auto|]. split; [auto|]. split; [auto|]. split; [auto|]. split.
  { apply Forall_forall. intros k Hk. apply in_map_iff in Hk as ([k' c] & <- & Hk). clear - F4 Hk. induction F4; [destruct Hk|]. destruct Hk as [->|Hk]; auto. destruct H; auto. }
  split; auto. intros i Hi.
  assert (G : forall l cs, enc_of (x0 + x1) l cs -> forall ks, Forall2 (fun c kc => 1 <= fst kc < ord Gr /\ snd kc = ct_exp c (fst kc)) cs ks ->
    forall i, (i < length ks)%nat -> nth i (map (decrypt x0) (map (fun c => partial_decrypt x1 (snd c)) ks)) gid = gpow gen (nth i l 0 * nth i (map fst ks) 0)).
  { clear. induction 1 as [|m c l cs H F IH]; intros ks F4 i Hi; inversion F4; subst; [cbn in Hi; lia|]. destruct H2 as (_ & H2). destruct i as [|i].
    - cbn [map nth]. rewrite H2, decrypt_partial, decrypt_exp_ct, H, gpow_mul. auto.
    - cbn [map nth]. apply IH; auto. cbn in Hi. lia. }
  rewrite (G _ _ F3 ks F4 i) by lia. f_equal. f_equal.
  rewrite (nth_indep _ 0 (Z.opp 0)) by (rewrite !map_length, seq_length; auto). rewrite map_nth. f_equal.
  rewrite (nth_indep _ 0 (neighbour el 0)) by (rewrite map_length, seq_length; auto). rewrite map_nth, seq_nth by auto. reflexivity.
Qed.
End ElGamal.

Section Paillier.
Variables (p q n k0 k1 : Z) (object : Z -> pub) (paillier_size : nat).
Hypotheses (Pp : prime p) (Pq : prime q) (NE : p <> q) (En : n = p * q) (S0 : 0 <= k0) (S1 : 0 < k1)
  (D1 : eqm n (k0 + k1) 1) (D2 : ((p - 1) * (q - 1) | k0 + k1)) (OB : thr_object n (object n)) (BIG : 10 ^ 15 <= n) (PZ : (0 < paillier_size)%nat).
Definition pl_good (T : pl_test) : Prop :=
  length (lt_elements T) = paillier_size /\ Forall (fun x => 0 <= x < 10 ^ 15) (lt_elements T) /\ lt_recovered T = removelast (lt_elements T) /\
  exists a, thr_partial n k0 (lt_sum T) = Ok a /\ thr_decrypt n k1 (lt_sum T) a = Ok (sumZ (lt_elements T) mod n).
Lemma forall2_removelast {A B} (R : A -> B -> Prop) l l' : Forall2 R l l' -> Forall2 R (removelast l) (removelast l').
Proof. induction 1 as [|a b l l' H F IH]; [constructor|]. cbn [removelast]. destruct F; constructor; auto. Qed.
Lemma forall_removelast {A} (P : A -> Prop) l : Forall P l -> Forall P (removelast l).
Proof. induction 1 as [|a l H F IH]; [constructor|]. cbn [removelast]. destruct F; constructor; auto. Qed.
Lemma sum_spec r ms : Forall2 (ct_of n) ms r -> forall m c, ct_of n m c -> ct_of n (m + sumZ ms) (fold_left (thr_add n) r c).
Proof.
  assert (1 < p) by (destruct Pp; auto). assert (1 < q) by (destruct Pq; auto). assert (Hn : 1 < n) by nia.
  induction 1 as [|m' c' ms r H1 F IH]; intros m c C; cbn [fold_left]; [unfold sumZ; cbn [fold_right]; rewrite Z.add_0_r; auto|].
  change (sumZ (m' :: ms)) with (m' + sumZ ms). rewrite Z.add_assoc. apply IH. apply ct_add; auto.
Qed.
Lemma paillier_body_spec t : exists T t', paillier_body object paillier_size n k0 n k1 t = Ok (T, t') /\ pl_good T.
Proof.
  assert (1 < p) by (destruct Pp; auto). assert (1 < q) by (destruct Pq; auto). assert (Hn : 1 < n) by nia.
  destruct (thr_object_facts _ _ Hn OB) as (O1 & O2 & O3 & O4 & O5 & O6).
  unfold paillier_body.
  destruct (repeatM_each _ _ paillier_size random_element_ok t) as (el & t1 & E & LE & FE). unfold bind at 1. rewrite E. clear E.
  assert (EN : forall t, exists cs t', mapM (pub_encrypt (object n)) el t = Ok (cs, t') /\ Forall2 (ct_of n) el cs).
  { intros t2. apply mapM_each. intros m Hm t3. rewrite Forall_forall in FE. specialize (FE m Hm).
    destruct (pub_encrypt_spec (object n) n Hn O1 O2 O3 O4 O5 O6 m t3) as (_ & X). apply X. lia. }
  destruct (EN t1) as (cs0 & t2 & E & F0). unfold bind at 1. rewrite E. clear E.
  destruct F0 as [|m c el cs C0 F0]; [cbn in LE; lia|].
  assert (RR : forall t, exists r t', mapM (pub_rerand (object n)) cs t = Ok (r, t') /\ Forall2 (fun c c' => forall m, ct_of n m c -> ct_of n m c') cs r).
  { intros t3. apply mapM_each. intros c0 H0' t4.
    assert (exists m0, ct_of n m0 c0) as (m0 & C1). { clear - F0 H0'. induction F0; [destruct H0'|]. destruct H0' as [->|]; eauto. }
    destruct (pub_rerand_spec (object n) n Hn O1 O2 O4 O6 m0 c0 t4 C1) as (c1 & t5 & E & _). exists c1, t5. split; auto.
    intros m1 C2. destruct (pub_rerand_spec (object n) n Hn O1 O2 O4 O6 m1 c0 t4 C2) as (c2 & t6 & E' & C3). rewrite E in E'. injection E' as <- <-. auto. }
  destruct (RR t2) as (r & t3 & E & F1). unfold bind at 1. rewrite E. clear E.
  assert (F2 : Forall2 (ct_of n) el r). { clear - F0 F1. revert r F1. induction F0; intros r F1; inversion F1; subst; constructor; auto. }
  assert (F3 : Forall2 (ct_of n) (m :: el) (c :: r)) by (constructor; auto).
  set (cs' := c :: r) in *. cbv zeta. apply forall2_removelast in F3. pose proof (forall_removelast _ _ FE) as FE'.
  set (el' := removelast (m :: el)) in *. set (rl := removelast cs') in *.
  assert (DD : exists parts, omap (thr_partial n k0) rl = Ok parts /\ omap (fun cp => thr_decrypt n k1 (fst cp) (snd cp)) (combine rl parts) = Ok el').
  { clearbody el' rl. clear - F3 FE' BIG Pp Pq NE En S0 S1 D1 D2. induction F3 as [|m c el cs C F IH]; [exists []; auto|]. inversion FE'; subst.
    destruct IH as (parts & P1 & P2); auto. destruct (thr_decrypt_spec p q (p * q) k0 k1 Pp Pq NE eq_refl S0 (Z.lt_le_incl _ _ S1) D1 D2 m c C) as (a & A1 & A2).
    exists (a :: parts). cbn [omap combine]. rewrite A1. cbn [obind]. rewrite P1. cbn [obind fst snd]. split; auto. rewrite A2. cbn [obind]. rewrite P2. cbn [obind].
    rewrite Z.mod_small by lia. auto. }
  destruct DD as (parts & P1 & P2). unfold bind, lift, ret. rewrite P1, P2. eexists _, _. split; [reflexivity|].
  unfold pl_good. cbn [lt_elements lt_sum lt_recovered]. split; auto. split; auto. split; auto.
  apply (thr_decrypt_spec p q n k0 k1 Pp Pq NE En S0 (Z.lt_le_incl _ _ S1) D1 D2). change (sumZ (m :: el)) with (m + sumZ el). apply sum_spec; auto.
Qed.
End Paillier.

Lemma bn2bin_back x : 0 <= x -> of_bytes (bn2bin x) = x.
Proof. intros H. apply bn2bin_spec. auto. Qed.
Section Program.
Context {Gr : group}.
Variables (cpub : codec (pub_msg (Gr := Gr))) (csec : codec sec_msg) (cthr : codec thr_msg) (cppub : codec ppub_msg) (cpsec : codec psec_msg).

(** the five files the self-test reads, holding ElGamal secrets sk0 and sk1 with
    their joint public key and a threshold Paillier key *)
Definition elgamal_test_keys (w : world) (sk0 sk1 : Z) : Prop :=
  saved w cpub epub_name (WPt gen, WPt (gpow gen (sk0 + sk1))) /\ saved w csec ekey_zero (bn2bin sk0) /\ saved w csec ekey_one (bn2bin sk1).
Definition paillier_test_keys (w : world) (n k0 k1 : Z) : Prop :=
  saved w cthr pkey_zero (bn2bin n, bn2bin k0) /\ saved w cthr pkey_one (bn2bin n, bn2bin k1).

Section Runs.
Hypotheses (Fpub : faithful cpub) (Fsec : faithful csec) (Fthr : faithful cthr).
Lemma io_read {T} e (c : codec T) t name s : reliable e -> faithful c -> saved (sy_world s) c name t ->
  exists k, io (read_msg e c name) s = (mkSys (mkWorld (files (sy_world s)) k) (sy_coins s), Ok t).
Proof. intros RE FC SV. destruct (read_msg_reliable e c t name _ RE FC SV) as (k & K). exists k. unfold io, zoom. rewrite K. auto. Qed.
Lemma saved_tick {T} w k (c : codec T) name t : saved w c name t -> saved (mkWorld (files w) k) c name t.
Proof. intros (A & B). split; auto. Qed.

(** C64.  The ElGamal half of the self-test, with the key files of a joint key:
    every run ends well and reports nothing; entry i of the recovered points is
    g^(-(x_i + x_(i+1)) k_i) for the elements drawn (x beyond the end is 0) and
    the mask k_i in [1, order) drawn for it. *)
Theorem C64_elgamal_results :
  forall e size limit s sk0 sk1,
  reliable e -> (0 < size)%nat -> (0 < limit)%nat -> Z.of_nat limit <= ord Gr ->
  0 <= sk0 -> 0 <= sk1 -> gpow (Gr := Gr) gen (sk0 + sk1) <> gid -> elgamal_test_keys (sy_world s) sk0 sk1 ->
  exists s' T, test_elgamal cpub csec e size limit s = (s', Ok T) /\ (forall f, files (sy_world s') f = files (sy_world s) f)
    /\ length (et_elements T) = size /\ length (et_masks T) = size /\ length (et_recovered T) = size
    /\ Forall (fun x => 0 <= x < 10 ^ 15) (et_elements T) /\ Forall (fun k => 1 <= k < ord Gr) (et_masks T)
    /\ (forall i, (i < size)%nat -> nth i (et_recovered T) gid = gpow gen (- (nth i (et_elements T) 0 + nth (S i) (et_elements T) 0) * nth i (et_masks T) 0))
    /\ et_wrong T = [].
Proof.
  intros e size limit s sk0 sk1 RE PZ PL SL B0 B1 NZ (V1 & V2 & V3). unfold test_elgamal.
  destruct (io_read e cpub _ _ s RE Fpub V1) as (i1 & E1). unfold sbind at 1. rewrite E1. clear E1.
  unfold sbind at 1. change (WPt gen, WPt (gpow gen (sk0 + sk1))) with (key_msg (Gr := Gr) (sk0 + sk1)). rewrite deser_key by auto. unfold pure, sfail at 1.
  match goal with |- context [sbind _ _ ?s1] => destruct (io_read e csec _ _ s1 RE Fsec (saved_tick _ _ _ _ _ V3)) as (i2 & E2) end. unfold sbind at 1. rewrite E2. clear E2. cbn [sy_world sy_coins files].
  match goal with |- context [sbind _ _ ?s1] => destruct (io_read e csec _ _ s1 RE Fsec (saved_tick _ _ _ _ _ V2)) as (i3 & E3) end. unfold sbind at 1. rewrite E3. clear E3. cbn [sy_world sy_coins files].
  unfold rand. cbn [sy_world sy_coins]. rewrite !bn2bin_back by lia.
  destruct (elgamal_body_spec (Gr := Gr) size limit PZ PL SL sk1 sk0 (sy_coins s)) as (T & t' & E & GT). rewrite E.
  eexists _, T. split; [reflexivity|]. split; [auto|]. exact GT.
Qed.

(** C64.  The Paillier half: every run ends well; the recovered numbers are the
    elements drawn, all but the last, and the sum decrypts to their sum. *)
Theorem C64_paillier_results :
  forall e object size s p q bits kt n k0 k1 kt',
  reliable e -> (0 < size)%nat -> prime p -> prime q -> p <> q -> threshold_keygen p q bits kt = Ok ((n, k0, k1), kt') -> 10 ^ 15 <= n ->
  thr_object n (object n) -> paillier_test_keys (sy_world s) n k0 k1 ->
  exists s' T, test_paillier cthr e object size s = (s', Ok T) /\ (forall f, files (sy_world s') f = files (sy_world s) f)
    /\ length (lt_elements T) = size /\ Forall (fun x => 0 <= x < 10 ^ 15) (lt_elements T) /\ lt_recovered T = removelast (lt_elements T)
    /\ exists a, thr_partial n k0 (lt_sum T) = Ok a /\ thr_decrypt n k1 (lt_sum T) a = Ok (fold_right Z.add 0 (lt_elements T) mod n).
Proof.
  intros e object size s p q bits kt n k0 k1 kt' RE PZ Pp Pq NE KG BIG OB (V1 & V2).
  assert (1 < p) by (destruct Pp; auto). assert (1 < q) by (destruct Pq; auto).
  destruct (keygen_spec p q bits kt n k0 k1 kt' ltac:(auto) ltac:(auto) KG) as (En & S0 & S1 & D1 & D2).
  unfold test_paillier.
  destruct (io_read e cthr _ _ s RE Fthr V1) as (i1 & E1). unfold sbind at 1. rewrite E1. clear E1.
  match goal with |- context [sbind _ _ ?s1] => destruct (io_read e cthr _ _ s1 RE Fthr (saved_tick _ _ _ _ _ V2)) as (i2 & E2) end. unfold sbind at 1. rewrite E2. clear E2. cbn [sy_world sy_coins files].
  unfold rand. cbn [sy_world sy_coins fst snd]. rewrite !bn2bin_back by lia.
  destruct (paillier_body_spec p q n k0 k1 object size Pp Pq NE En S0 S1 D1 D2 OB BIG PZ (sy_coins s)) as (T & t' & E & GT). rewrite E.
  eexists _, T. split; [reflexivity|]. split; [auto|]. exact GT.
Qed.

(** C64.  The whole program: with such key files it exits 0 without a report, for
    every sequence of random draws, and changes no file. *)
Theorem C64_self_test :
  forall e object esize limit psize s sk0 sk1 p q bits kt n k0 k1 kt',
  reliable e -> (0 < esize)%nat -> (0 < limit)%nat -> (0 < psize)%nat -> Z.of_nat limit <= ord Gr ->
  0 <= sk0 -> 0 <= sk1 -> gpow (Gr := Gr) gen (sk0 + sk1) <> gid -> elgamal_test_keys (sy_world s) sk0 sk1 ->
  prime p -> prime q -> p <> q -> threshold_keygen p q bits kt = Ok ((n, k0, k1), kt') -> 10 ^ 15 <= n ->
  thr_object n (object n) -> paillier_test_keys (sy_world s) n k0 k1 ->
  exists s', self_test cpub csec cthr e object esize limit psize s = (s', Ok (0, [])) /\ forall f, files (sy_world s') f = files (sy_world s) f.
Proof.
  intros e object esize limit psize s sk0 sk1 p q bits kt n k0 k1 kt' RE PE PL PZ SL B0 B1 NZ KE Pp Pq NE KG BIG OB KP.
  destruct (C64_elgamal_results e esize limit s sk0 sk1 RE PE PL SL B0 B1 NZ KE) as (s1 & T & E1 & FS1 & _ & _ & _ & _ & _ & _ & WR).
  assert (KP1 : paillier_test_keys (sy_world s1) n k0 k1). { destruct KP as ((A1 & A2) & A3 & A4). split; split; auto; rewrite FS1; auto. }
  destruct (C64_paillier_results e object psize s1 p q bits kt n k0 k1 kt' RE PZ Pp Pq NE KG BIG OB KP1) as (s2 & T' & E2 & FS2 & _).
  exists s2. unfold self_test. rewrite E1, E2, WR. split; auto. intros f. rewrite FS2, FS1. auto.
Qed.
End Runs.

(** C64.  Finding: none of the three key generations of setup writes the files
    the self-test reads, whatever the output directory and whatever fails.  After
    any of them, in a directory without out/shared.epub, the self-test exits 1
    without testing anything. *)
Lemma no_epub e object esize limit psize s : files (sy_world s) (path epub_name) = None ->
  exists s', self_test cpub csec cthr e object esize limit psize s = (s', Ok (1, [])) /\ forall f, files (sy_world s') f = files (sy_world s) f.
Proof.
  intros N. unfold self_test, test_elgamal, sbind at 1. unfold io, zoom.
  destruct (read_msg e cpub epub_name (sy_world s)) as [w' o] eqn:E.
  pose proof (read_msg_files e cpub epub_name _ _ _ E) as FW.
  assert (exists c, o = Err c) as (c & ->).
  { unfold read_msg, read_proto_from_file, scoped, sbind, posix_open in E. destruct (fault e (tick (sy_world s))); [|rewrite N in E]; cbn in E; inversion E; eauto. }
  eexists. split; [reflexivity|]. exact FW.
Qed.
Lemma epub_apart (x : bytes) out : In x [p0_dir out; p1_dir out] -> forall name, In name [elgamal_pub; elgamal_key; shared_pub; paillier_key; paillier_pub] ->
  path epub_name <> path (x ++ name).
Proof.
  intros Hx name Hn Q. apply (f_equal (@rev Z)) in Q. revert Q.
  cbn [In] in Hx, Hn. destruct Hx as [<-|[<-|[]]]; rewrite ?p0_path, ?p1_path, rev_app_distr;
  repeat (destruct Hn as [<-|Hn]; [vm_compute (path _); cbn [rev app]; discriminate|]); destruct Hn.
Qed.
Theorem C64_setup_names :
  forall e out p q bits p' q' s s' o e' object esize limit psize,
  generate_threshold_keys cpub csec cthr e (p0_dir out) (p1_dir out) p q bits s = (s', o) \/
  generate_paillier_keys cppub cpsec e (p0_dir out) (p1_dir out) p q p' q' s = (s', o) \/
  generate_elgamal_keys cpub csec e (p0_dir out) (p1_dir out) s = (s', o) ->
  files (sy_world s) (path epub_name) = None ->
  files (sy_world s') (path epub_name) = None /\
  exists s'', self_test cpub csec cthr e' object esize limit psize s' = (s'', Ok (1, [])) /\ forall f, files (sy_world s'') f = files (sy_world s') f.
Proof.
  intros e out p q bits p' q' s s' o e' object esize limit psize H N.
  assert (N' : files (sy_world s') (path epub_name) = None).
  { destruct H as [H|[H|H]].
    - rewrite (C52_threshold_only cpub csec cthr out e p q bits s s' o H); auto.
      unfold threshold_files. cbn [map In]. intros Q; repeat (destruct Q as [Q|Q]; [symmetry in Q; revert Q; apply epub_apart with out; cbn; tauto|]); destruct Q.
    - assert (SE : same_except (paillier_files out) (sy_world s) (sy_world s')).
      { revert H. generalize s s' o. change (touches (paillier_files out) (generate_paillier_keys cppub cpsec e (p0_dir out) (p1_dir out) p q p' q')). unfold generate_paillier_keys.
        repeat first [ apply touches_pure | (apply touches_write; tells) | (apply touches_bind; [|intros]) ]. }
      rewrite SE; auto. unfold paillier_files. cbn [map In]. intros Q; repeat (destruct Q as [Q|Q]; [symmetry in Q; revert Q; apply epub_apart with out; cbn; tauto|]); destruct Q.
    - assert (SE : same_except (elgamal_files out) (sy_world s) (sy_world s')).
      { revert H. generalize s s' o. change (touches (elgamal_files out) (generate_elgamal_keys cpub csec e (p0_dir out) (p1_dir out))). unfold generate_elgamal_keys, elgamal_key_pair.
        repeat first [ apply touches_rand | apply touches_pure | (apply touches_write; tells) | (apply touches_bind; [|intros]) ]. }
      rewrite SE; auto. unfold elgamal_files. cbn [map In]. intros Q; repeat (destruct Q as [Q|Q]; [symmetry in Q; revert Q; apply epub_apart with out; cbn; tauto|]); destruct Q. }
  split; auto. apply no_epub. auto.
Qed.
(** C64.  Unless all five key files can be read the self-test does not exit 0,
    whatever the environment does. *)
Definition test_keys : list bytes := [epub_name; ekey_one; ekey_zero; pkey_zero; pkey_one].
Definition no_success {A} (g : bytes) (m : SM sys A) : Prop := forall s s' a, files (sy_world s) g = None -> m s <> (s', Ok a).
Definition keeps {A} (m : SM sys A) : Prop := forall s s' o, m s = (s', o) -> forall f, files (sy_world s') f = files (sy_world s) f.
Lemma no_success_first {A B} g (m : SM sys A) (f : A -> SM sys B) : no_success g m -> no_success g (sbind m f).
Proof. intros N s s' b F E. apply sbind_Ok in E as (s1 & a & E & _). exact (N _ _ _ F E). Qed.
Lemma no_success_then {A B} g (m : SM sys A) (f : A -> SM sys B) : keeps m -> (forall a, no_success g (f a)) -> no_success g (sbind m f).
Proof. intros K N s s' b F E. apply sbind_Ok in E as (s1 & a & E1 & E2). apply (N a s1 s' b); auto. rewrite (K _ _ _ E1). auto. Qed.
Lemma keeps_read {T} e (c : codec T) name : keeps (io (read_msg e c name)).
Proof. intros s s' o E. unfold io, zoom in E. destruct (read_msg e c name (sy_world s)) as [w' o'] eqn:R. injection E as <- <-. exact (read_msg_files e c name _ _ _ R). Qed.
Lemma keeps_pure {A} (o : outcome A) : keeps (pure o).
Proof. intros s s' o' E. injection E as <- <-. auto. Qed.
Lemma no_success_read {T} e (c : codec T) name : no_success (path name) (io (read_msg e c name)).
Proof.
  intros s s' a N E. unfold io, zoom in E. destruct (read_msg e c name (sy_world s)) as [w' o] eqn:R. injection E as <- ->.
  unfold read_msg, read_proto_from_file, scoped, sbind, posix_open in R. destruct (fault e (tick (sy_world s))); [|rewrite N in R]; cbn in R; inversion R.
Qed.
Lemma keeps_elgamal e esize limit : keeps (test_elgamal cpub csec e esize limit).
Proof.
  assert (KB : forall A B (m : SM sys A) (f : A -> SM sys B), keeps m -> (forall a, keeps (f a)) -> keeps (sbind m f)).
  { intros A B m f K1 K2 s s' o E g. unfold sbind in E. destruct (m s) as [s1 [a|c| |]] eqn:E1; [rewrite (K2 _ _ _ _ E g)|injection E as <- <-..]; apply (K1 _ _ _ E1). }
  unfold test_elgamal. repeat first [ apply keeps_read | apply keeps_pure | (apply KB; [|intros]) ].
  intros s s' o E. unfold rand in E. destruct (elgamal_body _ _ _ _ _ _) as [[t u]|c| |]; injection E as <- <-; auto.
Qed.
Theorem C64_missing_key : forall e object esize limit psize name s s' code report,
  In name test_keys -> files (sy_world s) (path name) = None ->
  self_test cpub csec cthr e object esize limit psize s = (s', Ok (code, report)) -> code = 1.
Proof.
  intros e object esize limit psize name s s' code report IN N E. unfold self_test in E.
  assert (D : no_success (path name) (test_elgamal cpub csec e esize limit) \/ no_success (path name) (test_paillier cthr e object psize)).
  { unfold test_elgamal, test_paillier, test_keys in *. cbn [In] in IN. destruct IN as [<-|[<-|[<-|[<-|[<-|[]]]]]].
    - left. apply no_success_first, no_success_read.
    - left. apply no_success_then; [apply keeps_read|intros]. apply no_success_then; [apply keeps_pure|intros]. apply no_success_first, no_success_read.
    - left. do 1 (apply no_success_then; [apply keeps_read|intros]). apply no_success_then; [apply keeps_pure|intros]. apply no_success_then; [apply keeps_read|intros]. apply no_success_first, no_success_read.
    - right. apply no_success_first, no_success_read.
    - right. apply no_success_then; [apply keeps_read|intros]. apply no_success_first, no_success_read. }
  destruct (test_elgamal cpub csec e esize limit s) as [s1 [t|c| |]] eqn:E1; try discriminate; [|injection E as _ <- _; auto].
  destruct D as [D|D]; [exfalso; exact (D _ _ _ N E1)|].
  destruct (test_paillier cthr e object psize s1) as [s2 [r|c| |]] eqn:E2; try discriminate; [|injection E as _ <- _; auto].
  exfalso. apply (D s1 s2 r); auto. rewrite (keeps_elgamal _ _ _ _ _ _ E1). auto.
Qed.
End Program.

(** ** A case: key files for the secrets 4 and 9 and the modulus 7 * 2000001980000443 *)
Section Example.
Notation ex_made n := (pub_new false 3 n 1 (const_tape 2)).
Definition ex_object (n : Z) : pub := match ex_made n with Some (Ok (P, _)) => P | _ => mkPub 0 0 [] 0 (mkFbe 0 0 None) [] end.
Lemma ex_object_made n : match ex_made n with Some (Ok _) => true | _ => false end = true -> thr_object n (ex_object n).
Proof.
  intros H. unfold ex_object, thr_object. destruct (ex_made n) as [[[P t]| | |]|] eqn:E; try discriminate. exists false, 3%nat, (const_tape 2), t. exact E.
Qed.
Definition ex_n : Z := 14000013860003101.
Definition ex_k1 : Z := 124000245520176400454319326069542.
Definition ex_pair : pub_msg (Gr := exG) := (WPt gen, WPt (gpow gen (4 + 9))).
Definition ex_world : world := mkWorld (fun f =>
  if list_eqb f epub_name then Some (frame (c_ser ex_pub ex_pair))
  else if list_eqb f ekey_zero then Some (frame (c_ser ex_sec (bn2bin 4)))
  else if list_eqb f ekey_one then Some (frame (c_ser ex_sec (bn2bin 9)))
  else if list_eqb f pkey_zero then Some (frame (c_ser ex_thr (bn2bin ex_n, bn2bin 2)))
  else if list_eqb f pkey_one then Some (frame (c_ser ex_thr (bn2bin ex_n, bn2bin ex_k1)))
  else None) 0.
Example C64_example :
  exists s', self_test ex_pub ex_sec ex_thr ex_env ex_object (Z.to_nat 10000) (Z.to_nat 10000) (Z.to_nat 1000) (mkSys ex_world (const_tape 5)) = (s', Ok (0, []))
    /\ forall f, files (sy_world s') f = files ex_world f.
Proof.
  apply (C64_self_test (Gr := exG) ex_pub ex_sec ex_thr ex_pub_faithful (proj1 ex_codecs) (proj1 (proj2 ex_codecs)) ex_env ex_object (Z.to_nat 10000) (Z.to_nat 10000) (Z.to_nat 1000)
    (mkSys ex_world (const_tape 5)) 4 9 big_prime 7 4 (const_tape 2) ex_n 2 ex_k1 (const_tape 2)); try lia.
  - split; reflexivity.
  - vm_compute. discriminate.
  - intros Q. apply geqb_spec in Q. revert Q. vm_compute. discriminate.
  - repeat split.
  - apply big_prime_prime.
  - apply prime_b_prime. reflexivity.
  - vm_compute. discriminate.
  - vm_compute. reflexivity.
  - vm_compute. discriminate.
  - apply ex_object_made. vm_cast_no_check (eq_refl true).
  - repeat split.
Qed.
(** without party one's Paillier key the ElGamal test passes and the exit code is 1 *)
Example C64_missing_example :
  match self_test ex_pub ex_sec ex_thr ex_env ex_object 2 3 2 (mkSys (set_file ex_world pkey_one None) (const_tape 5)) with
  | (_, Ok (code, [])) => code =? 1 | _ => false end = true.
Proof. vm_cast_no_check (eq_refl true). Qed.
End Example.
Print Assumptions C64_elgamal_results.
Print Assumptions C64_paillier_results.
Print Assumptions C64_self_test.
Print Assumptions C64_setup_names.
Print Assumptions C64_missing_key.
