(** Proofs about the deletion protocols: one comparison and one batch. *)
Require Import List Arith Lia ZArith Permutation Bool Znumtheory.
Import ListNotations.
From Verif Require Import Prelude TreeModel TreeSpec TreeHistory TreeDelModel TreeDelSpec TreeDelProofs Coins Group ElGamalModel BytesModel BytesProofs PropsBytes ContextModel CipherModel NumTheory PaillierModel PaillierProofs PropsPaillier WireModel WireProofs SyncModel SyncSpec SyncProofs KindProofs AddModel AddSpec AddProofs AddRun DelModel DelSpec.
Local Open Scope Z_scope.

(** what is needed of a key pair for the modulus [n] *)
Definition keyed (n : Z) (P : pub) (V : priv) : Prop :=
  1 < n /\ pp_n P = n /\ pv_n V = n /\
  (forall m t, (0 <= m < n -> exists c t', pub_encrypt P m t = Ok (c, t') /\ ct_of n m c) /\ (~ 0 <= m < n -> pub_encrypt P m t = Err InvalidArgument)) /\
  (forall a b ca cb, ct_of n a ca -> ct_of n b cb -> ct_of n (a + b) (pub_add P ca cb)) /\
  (forall a c k, 0 <= k -> ct_of n a c -> exists c', pub_multiply P c k = Ok c' /\ ct_of n (a * k) c') /\
  (forall m c, ct_of n m c -> priv_decrypt V c = Ok (m mod n)).
Lemma pair_keyed p q P V : paillier_pair p q P V -> keyed (p * q) P V.
Proof.
  intros HP. destruct (pair_facts _ _ _ _ HP) as (flag & x & Hn & G & E). destruct HP as (_ & (fl & HV)).
  apply pub_make_spec in E as (En & Es & Ep & Em & Ec & Ef); auto.
  split; [auto|]. split; [auto|]. split; [apply priv_new_spec in HV; tauto|].
  split.
  { intros m t. destruct (pub_encrypt_spec P (p * q) Hn En Es Ep Em Ec Ef m t) as (B1 & B2). split; auto. intros H. apply B1. lia. }
  split; [intros; eapply pub_add_spec; eauto|]. split; [intros; eapply pub_multiply_spec; eauto|].
  intros m c C. eapply priv_dec_ok; eauto.
Qed.
Lemma ct_range n m c : ct_of n m c -> 0 <= c < n * n.
Proof. intros (H & _). auto. Qed.
Lemma ct_mod n m c : 0 < n -> ct_of n (m mod n) c <-> ct_of n m c.
Proof.
  intros H. assert (E : eqm n (m mod n) m) by (apply eqm_mod; lia). split; apply ct_ext; auto. apply eqm_sym; auto.
Qed.

Section Pairs.
Variable hash : Z -> list bool.
Variable circuit_input : Z -> outcome (list bool).
Variables (n : Z) (P : pub) (V : priv).
Hypothesis K : keyed n P V.

(** an entry (x, p) that combine_item can treat *)
Definition sane (e : entry) : Prop := 0 <= fst e < n /\ - n < snd e < n.

Lemma combine_item_spec e ci ye tp : sane e -> del_rep n ye ci ->
  match combine_item P e ci tp with
  | Ok ((alpha, z, c), _) => 0 <= alpha < n /\ fst e <= alpha /\ ct_of n (snd e * snd ye) z /\ priv_decrypt V c = Ok ((alpha - fst e + fst ye) mod n) /\ 0 <= c
  | Err _ => True | _ => False end.
Proof.
  intros ((X1 & X2) & (P1 & P2)) (Y1 & Y2 & Y3). destruct K as (Hn & En & _ & HE & HA & HM & HD).
  unfold combine_item. rewrite En. unfold bind at 1. unfold rand_less_than. destruct (Z.ltb_spec 0 n); [|lia].
  pose proof (Z.mod_pos_bound (tp O) n ltac:(lia)) as B. set (alpha := tp O mod n) in *. clearbody alpha.
  unfold bind at 1. destruct (HE (alpha - fst e) (tl_tape tp)) as (E1 & E2).
  destruct (Z_lt_dec alpha (fst e)) as [L|L]. { rewrite E2 by lia. auto. }
  destruct E1 as (c & t' & E1 & C); [lia|]. rewrite E1. unfold bind at 1.
  assert (C' := HA _ _ _ _ C Y2). apply (proj1 (ct_mod n (snd ye) (snd ci) ltac:(lia))) in Y3.
  destruct (Z.eqb_spec (snd e) 1) as [EQ|EQ].
  - unfold ret. rewrite EQ, Z.mul_1_l. split; [auto|]. split; [lia|]. split; [auto|]. split; [apply HD; auto|]. apply ct_range in C'. lia.
  - set (v := if snd e <? 0 then snd e + n else snd e).
    assert (0 <= v) by (unfold v; destruct (Z.ltb_spec (snd e) 0); lia).
    destruct (HM _ _ v H0 Y3) as (z & EZ & CZ). rewrite EZ. unfold lift, ret.
    split; [auto|]. split; [lia|]. split; [|split; [apply HD; auto|apply ct_range in C'; lia]].
    eapply ct_ext; [|exact CZ]. unfold v. destruct (snd e <? 0); [exists (snd ye)|exists 0]; ring.
Qed.

Lemma gc_item_spec alice xz y w tp : ct_of n w (snd xz) ->
  match gc_item circuit_input P V alice xz y tp with
  | Ok ((beta, t), _) => exists a b, circuit_input (fst xz) = Ok a /\ circuit_input y = Ok b /\ 0 < beta < n /\ 0 <= t < n /\
      eqm n (beta + t) (if bits_eqb a b then w else 0)
  | Err _ => True
  | _ => ~ (returns (circuit_input (fst xz)) /\ returns (circuit_input y)) end.
Proof.
  intros CW. destruct K as (Hn & En & _ & HE & HA & HM & HD). unfold gc_item. rewrite En. unfold bind at 1. unfold lift at 1.
  destruct (circuit_input (fst xz)) as [a| | |]; cbn [returns]; auto; try tauto.
  unfold bind at 1. unfold lift at 1. destruct (circuit_input y) as [b| | |]; cbn [returns]; auto; try tauto.
  unfold bind at 1. unfold rand_less_than at 1. cbn [Z.ltb Z.compare].
  set (ab := tp O mod 2 =? 1). set (t1 := tl_tape tp). clearbody ab t1.
  set (bb := xorb (bits_eqb a b) (negb ab)). set (sb := if alice then ab else bb). set (rb := if alice then bb else ab).
  assert (SR : rb = xorb sb (negb (bits_eqb a b))).
  { unfold rb, sb, bb. destruct alice, ab, (bits_eqb a b); reflexivity. }
  clearbody sb rb.
  unfold bind at 1. unfold rand_less_than at 1. destruct (Z.ltb_spec 0 n); [|lia].
  pose proof (Z.mod_pos_bound (t1 O) n ltac:(lia)) as B. set (beta := t1 O mod n) in *. clearbody beta. set (t2 := tl_tape t1). clearbody t2.
  unfold bind at 1. destruct (HE (n - beta) t2) as (E1 & E2).
  destruct (Z.eq_dec beta 0) as [->|NZ]. { rewrite E2 by lia. exact I. }
  destruct E1 as (c & t3 & E1 & C); [lia|]. rewrite E1.
  assert (CE := HA _ _ _ _ CW C).
  destruct (proj1 C38_ciphertext_width n (pub_add P (snd xz) c) ltac:(lia) (ct_range _ _ _ CE)) as (be & Q1 & Q2).
  destruct (proj1 C38_ciphertext_width n c ltac:(lia) (ct_range _ _ _ C)) as (bn & Q3 & Q4).
  unfold bind at 1. unfold lift at 1. rewrite Q1. unfold bind at 1. unfold lift at 1. rewrite Q3.
  set (rcv := if rb then if sb then be else bn else if sb then bn else be).
  assert (RC : rcv = if bits_eqb a b then be else bn).
  { unfold rcv. rewrite SR. destruct sb, (bits_eqb a b); reflexivity. }
  assert (D : priv_decrypt V (block2bignum rcv) = Ok (((if bits_eqb a b then w else 0) + (n - beta)) mod n)).
  { rewrite RC. destruct (bits_eqb a b); [rewrite Q2; apply HD; auto|rewrite Q4; apply HD; auto]. }
  unfold bind. fold rcv. unfold lift. rewrite D. unfold ret.
  exists a, b. split; auto. split; auto. split; [lia|].
  split; [apply Z.mod_pos_bound; lia|].
  set (w' := if bits_eqb a b then w else 0).
  eapply eqm_trans; [apply eqm_add; [apply eqm_refl|apply eqm_mod; lia]|]. exists 1. ring.
Qed.

(** ** whole batches *)
Definition item_ok (it : Z * Z * Z) (p : Z * Z) : Prop :=
  ct_of n (fst p) (g_z it) /\ priv_decrypt V (g_c it) = Ok (snd p) /\ 0 <= g_c it.
(** the payload products of the positions where the compared values agree *)
Definition msum (items : list (Z * Z * Z)) (ps : list (Z * Z)) : Z :=
  total (map (fun ip => if g_x (fst ip) =? snd (snd ip) then fst (snd ip) else 0) (combine items ps)).
Lemma msum_cons it p items ps : msum (it :: items) (p :: ps) = (if g_x it =? snd p then fst p else 0) + msum items ps.
Proof. reflexivity. Qed.
Lemma msum_app i1 p1 i2 p2 : length i1 = length p1 -> msum (i1 ++ i2) (p1 ++ p2) = msum i1 p1 + msum i2 p2.
Proof.
  revert p1. induction i1 as [|a i1 IH]; intros [|b p1] L; try discriminate; [reflexivity|].
  cbn [app]. rewrite !msum_cons, IH by (cbn in L; lia). ring.
Qed.
Lemma F2_app {X Y} (R : X -> Y -> Prop) l1 l1' l2 l2' : Forall2 R l1 l1' -> Forall2 R l2 l2' -> Forall2 R (l1 ++ l2) (l1' ++ l2').
Proof. induction 1; cbn; auto. Qed.
Lemma net_pads x pads : Forall pad_entry pads -> net x pads = 0.
Proof. induction 1 as [|e l [_ H] _ IH]; [reflexivity|]. rewrite net_cons, H, IH. destruct (_ =? _); auto. Qed.

Lemma combine_path_spec e path L : sane e -> Forall2 (del_rep n) L path -> forall tp,
  match mapM (combine_item P e) path tp with
  | Ok (items, _) => exists ps, Forall2 item_ok items ps /\ msum items ps = snd e * net (fst e) L
  | Err _ => True | _ => False end.
Proof.
  intros SE F. destruct K as (Hn & _). induction F as [|ye ci L path R F IH]; intros tp; cbn [mapM].
  - exists []. split; [constructor|]. unfold net; cbn. lia.
  - unfold bind at 1. pose proof (combine_item_spec e ci ye tp SE R) as X.
    destruct (combine_item P e ci tp) as [[[[alpha z] c] tp1]| | |]; auto. destruct X as (A1 & A2 & A3 & A4 & A5).
    unfold bind. specialize (IH tp1). destruct (mapM _ path tp1) as [[items tp2]| | |]; auto.
    destruct IH as (ps & G & S). exists ((snd e * snd ye, (alpha - fst e + fst ye) mod n) :: ps). split.
    + constructor; auto. split; auto.
    + rewrite msum_cons, S, net_cons. cbn [fst snd g_x].
      destruct R as (R1 & _). destruct SE as ((X1 & X2) & _).
      destruct (Z.eqb_spec (fst ye) (fst e)) as [EQ|NE].
      * replace (alpha - fst e + fst ye) with alpha by lia. rewrite Z.mod_small, Z.eqb_refl by lia. ring.
      * destruct (Z.eqb_spec alpha ((alpha - fst e + fst ye) mod n)) as [EQ|NE2]; [|ring]. exfalso. apply NE.
        assert (EM : eqm n alpha (alpha - fst e + fst ye)).
        { apply eqm_iff; [lia|]. rewrite <- EQ. apply Z.mod_small. lia. }
        destruct EM as (k & EM). assert (k = 0) by nia. subst k. lia.
Qed.
Lemma combine_initiator_spec e t other tp : sane e -> mirrors (del_rep n) pad_entry t other ->
  match combine_initiator hash P other e tp with
  | Ok (items, _) => exists ps, Forall2 item_ok items ps /\ msum items ps = snd e * net (fst e) (get_path (hash (fst e)) t)
  | Err _ => True | _ => False end.
Proof.
  intros SE MI. destruct (mirrors_path _ _ _ _ (hash (fst e)) MI) as (L & pads & F & PM & FP).
  pose proof (combine_path_spec e _ L SE F tp) as X. unfold combine_initiator.
  destruct (mapM _ _ tp) as [[items tp1]| | |]; auto. destruct X as (ps & G & S). exists ps. split; auto. rewrite S.
  rewrite (net_perm _ _ _ PM), net_app, (net_pads _ _ FP). ring.
Qed.
Lemma initiate_spec es t other tp : Forall sane es -> mirrors (del_rep n) pad_entry t other ->
  match initiate hash P es other tp with
  | Ok (items, _) => exists ps, Forall2 item_ok items ps /\ msum items ps = total (map (fun e => snd e * net (fst e) (get_path (hash (fst e)) t)) es)
  | Err _ => True | _ => False end.
Proof.
  intros FS MI. unfold initiate, bind at 1.
  cut (match mapM (combine_initiator hash P other) es tp with
       | Ok (l, _) => exists ps, Forall2 item_ok (concat l) ps /\ msum (concat l) ps = total (map (fun e => snd e * net (fst e) (get_path (hash (fst e)) t)) es)
       | Err _ => True | _ => False end).
  { destruct (mapM _ es tp) as [[l tp1]| | |]; auto. }
  revert tp. induction FS as [|e es SE FS IH]; intros tp; cbn [mapM].
  - exists []. split; [constructor|reflexivity].
  - unfold bind at 1. pose proof (combine_initiator_spec e t other tp SE MI) as X.
    destruct (combine_initiator hash P other e tp) as [[items tp1]| | |]; auto. destruct X as (p1 & G1 & S1).
    unfold bind. specialize (IH tp1). destruct (mapM _ es tp1) as [[l tp2]| | |]; auto. destruct IH as (p2 & G2 & S2).
    exists (p1 ++ p2). cbn [concat]. split; [apply F2_app; auto|]. rewrite msum_app by (eapply F2_length; eauto). rewrite S1, S2. reflexivity.
Qed.

Lemma fold_add l : forall a, fold_left Z.add l a = a + total l.
Proof. induction l; intros b; cbn [fold_left]; unfold total in *; cbn; [lia|]. rewrite IHl. lia. Qed.
Lemma gc_sums_spec alice items ps tp : Forall2 item_ok items ps ->
  match gc_sums circuit_input P V alice (map g_x items) (map g_z items) (map snd ps) tp with
  | Ok ((s, t), _) => 0 <= s < n /\ 0 <= t < n /\ (told_apart circuit_input (map g_x items) (map snd ps) -> eqm n (s + t) (msum items ps))
  | Err _ => True
  | _ => ~ (forall x, returns (circuit_input x)) end.
Proof.
  intros F. pose proof K as (Hn & En & _). unfold gc_sums. rewrite !map_length, (F2_length _ _ _ F), Nat.eqb_refl. cbn [andb negb]. rewrite En.
  unfold bind at 1.
  cut (match mapM (fun p => gc_item circuit_input P V alice (fst p) (snd p)) (combine (combine (map g_x items) (map g_z items)) (map snd ps)) tp with
       | Ok (l, _) => told_apart circuit_input (map g_x items) (map snd ps) -> eqm n (total (map fst l) + total (map snd l)) (msum items ps)
       | Err _ => True | _ => ~ (forall x, returns (circuit_input x)) end).
  { destruct (mapM _ _ tp) as [[l tp1]| | |]; auto. intros X. unfold ret.
    split; [apply Z.mod_pos_bound; lia|]. split; [apply Z.mod_pos_bound; lia|]. intros TA. specialize (X TA). rewrite !fold_add, !Z.add_0_l.
    eapply eqm_trans; [apply eqm_add; apply eqm_mod; lia|]. auto. }
  revert tp. induction F as [|it p items ps (I1 & I2 & I3) F IH]; intros tp; cbn [map combine mapM].
  - cbn. intros _. apply eqm_refl.
  - unfold bind at 1. cbn [fst snd]. pose proof (gc_item_spec alice (g_x it, g_z it) (snd p) (fst p) tp I1) as X. cbn [fst snd] in X.
    destruct (gc_item _ _ _ _ _ _ tp) as [[[beta t] tp1]| | |]; auto.
    destruct X as (a & b & CA & CB & B1 & B2 & EM).
    unfold bind. specialize (IH tp1). destruct (mapM _ _ tp1) as [[l tp2]| | |]; auto. unfold ret.
    intros TA. rewrite msum_cons. cbn [map fst snd]. change (total (?x :: ?l)) with (x + total l).
    assert (TA' : told_apart circuit_input (map g_x items) (map snd ps)) by (intros x y HI; apply TA; right; auto).
    specialize (IH TA').
    replace (beta + total (map fst l) + (t + total (map snd l))) with ((beta + t) + (total (map fst l) + total (map snd l))) by ring.
    apply eqm_add; auto.
    unfold bits_eqb in EM. destruct (list_eq_dec bool_dec a b) as [->|NE].
    + assert (EQ : g_x it = snd p) by (apply TA; [left; auto|congruence]). rewrite EQ, Z.eqb_refl. auto.
    + destruct (Z.eqb_spec (g_x it) (snd p)) as [EQ|]; auto. exfalso. apply NE. congruence.
Qed.
End Pairs.

(** ** shares modulo 2^64 *)
Lemma to_share_spec n r : 0 <= r < n -> to_share n r = Ok (centered n r mod 2 ^ 64).
Proof.
  intros H. unfold to_share, centered. rewrite (Z.mul_comm r 2). destruct (Z.ltb_spec n (2 * r)).
  - rewrite C38_uint64. destruct (Z.ltb_spec (n - r) 0); [lia|]. cbn [obind]. f_equal.
    apply eqm_iff; [lia|]. eapply eqm_trans; [apply eqm_sub with (a := 0) (b := 0); [apply eqm_refl|apply eqm_mod; lia]|]. exists 0. lia.
  - rewrite C38_uint64. destruct (Z.ltb_spec r 0); [lia|]. auto.
Qed.
Lemma centered_range n r : 0 <= r < n -> - n < 2 * centered n r <= n.
Proof. intros H. unfold centered. destruct (Z.ltb_spec n (2 * r)); lia. Qed.
Lemma centered_eqm n r : eqm n (centered n r) r.
Proof. unfold centered. destruct (n <? 2 * r); [exists (-1)|exists 0]; ring. Qed.
(** the exact error of one round *)
Lemma centered_sum n s t v : 0 <= s < n -> 0 <= t < n -> 0 < n -> eqm n (s + t) v ->
  undisturbed n s v -> centered n s + centered n t = v.
Proof.
  unfold undisturbed. intros Hs Ht Hn EM R. pose proof (centered_range n t Ht). pose proof (centered_eqm n s). pose proof (centered_eqm n t).
  assert (EE : eqm n (centered n s + centered n t) v) by (eapply eqm_trans; [apply eqm_add; eauto|auto]).
  destruct EE as (k & EE). assert (k = 0) by nia. subst. lia.
Qed.
Lemma centered_wrong n s t v : 0 <= s < n -> 0 <= t < n -> 0 < n ->
  ~ undisturbed n s v -> centered n s + centered n t <> v.
Proof.
  unfold undisturbed. intros Hs Ht Hn R E. pose proof (centered_range n t Ht). apply R. lia.
Qed.

(** ** the inner product is bilinear *)
Lemma total_cons x l : total (x :: l) = x + total l.
Proof. reflexivity. Qed.
Lemma net_not_in x u : ~ In x (map fst u) -> net x u = 0.
Proof.
  induction u as [|e u IH]; intros H; [reflexivity|]. rewrite net_cons, IH by (intros X; apply H; right; auto).
  destruct (Z.eqb_spec (fst e) x); auto. exfalso. apply H. left; auto.
Qed.
Lemma weighted_sum (f : Z -> Z) L : NoDup L -> forall u, incl (map fst u) L ->
  total (map (fun x => net x u * f x) L) = total (map (fun e => snd e * f (fst e)) u).
Proof.
  intros ND. induction u as [|e u IH]; intros IN.
  - cbn [map]. unfold total at 2. cbn. induction L; cbn [map]; [reflexivity|]. rewrite total_cons. inversion_clear ND. rewrite IHL; auto. intros x [].
  - cbn [map]. rewrite total_cons, <- IH by (intros x Hx; apply IN; right; auto).
    assert (INe : In (fst e) L) by (apply IN; left; auto). clear IH IN.
    assert (G : forall L, NoDup L -> total (map (fun x => net x (e :: u) * f x) L)
      = (if in_dec Z.eq_dec (fst e) L then snd e * f (fst e) else 0) + total (map (fun x => net x u * f x) L)).
    { clear. induction 1 as [|x L NI ND IH]; [reflexivity|]. cbn [map]. rewrite !total_cons, IH, net_cons.
      destruct (Z.eqb_spec (fst e) x) as [EQ|NE].
      - subst x. destruct (in_dec Z.eq_dec (fst e) L); [contradiction|]. destruct (in_dec Z.eq_dec (fst e) (fst e :: L)) as [_|N]; [ring|exfalso; apply N; left; auto].
      - destruct (in_dec Z.eq_dec (fst e) L) as [I|I], (in_dec Z.eq_dec (fst e) (x :: L)) as [I2|I2]; try ring.
        + exfalso. apply I2. right; auto.
        + destruct I2 as [I2|I2]; [congruence|contradiction]. }
    rewrite G by auto. destruct (in_dec Z.eq_dec (fst e) L); [ring|contradiction].
Qed.
Lemma inner_sum u v : inner u v = total (map (fun e => snd e * net (fst e) v) u).
Proof. unfold inner. apply (weighted_sum (fun x => net x v)); [apply NoDup_nodup|]. intros x Hx. apply nodup_In. auto. Qed.
Lemma inner_app_l u u' v : inner (u ++ u') v = inner u v + inner u' v.
Proof. rewrite !inner_sum, map_app, total_app. auto. Qed.
Lemma inner_app_r u v v' : inner u (v ++ v') = inner u v + inner u v'.
Proof.
  rewrite !inner_sum. induction u as [|e u IH]; [reflexivity|]. cbn [map]. rewrite !total_cons, IH, net_app. ring.
Qed.
Lemma inner_nil_r u : inner u [] = 0.
Proof. rewrite inner_sum. induction u as [|e u IH]; [reflexivity|]. cbn [map]. rewrite total_cons, IH. unfold net; cbn. ring. Qed.
Lemma inner_comm u v : inner u v = inner v u.
Proof.
  induction u as [|e u IH].
  - rewrite inner_nil_r. reflexivity.
  - change (e :: u) with ([e] ++ u). rewrite inner_app_l, inner_app_r, IH. f_equal.
    rewrite !inner_sum. cbn [map]. rewrite total_cons. unfold total at 1; cbn [fold_right]. rewrite Z.add_0_r.
    clear IH. induction v as [|a v IHv]; [unfold net; cbn; ring|]. cbn [map]. rewrite total_cons, <- IHv, !net_cons. rewrite (Z.eqb_sym (fst a) (fst e)).
    destruct (fst e =? fst a) eqn:EQ; unfold net; cbn; ring.
Qed.
Lemma inner_ext u v v' : (forall x, net x v = net x v') -> inner u v = inner u v'.
Proof. intros H. unfold inner. f_equal. apply map_ext. intros x. rewrite H. auto. Qed.
