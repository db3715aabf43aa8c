(** * C20, C21: the protocol with deletions (cardinality and sum). *)
Require Import List Arith Lia ZArith Permutation Bool Znumtheory.
Import ListNotations.
From Verif Require Import Prelude TreeModel TreeSpec TreeHistory TreeDelModel TreeDelSpec TreeDelProofs Coins Group ElGamalModel BytesModel BytesProofs PropsBytes ContextModel CipherModel NumTheory PaillierModel PaillierProofs PropsPaillier WireModel WireProofs PropsWire SyncModel SyncSpec SyncProofs KindProofs PropsSync AddModel AddSpec AddProofs AddRun DelModel DelSpec DelProofs DelRun BigPrime.
Local Open Scope Z_scope.

(** ** C21.  One comparison.
    The initiator holds (x, pay) and the ciphertexts of (y, pay'); it draws
    alpha, keeps (alpha, z) and sends [msg]; the responder decrypts it to y';
    then the two parties run the equality circuit and the oblivious transfer
    and end up with beta and t. *)
Theorem C21_product_shares :
  forall p q P V, paillier_pair p q P V -> let n := p * q in
  forall circuit_input x pay y pay' cy cq coins1 alpha z msg coins1' y' sender_is_alice coins2 beta t coins2',
  0 <= x < n -> - n < pay < n -> 0 <= y < n ->
  made P V y cy -> made P V pay' cq ->
  combine_item P (x, pay) (cy, cq) coins1 = Ok ((alpha, z, msg), coins1') ->
  priv_decrypt V msg = Ok y' ->
  gc_item circuit_input P V sender_is_alice (alpha, z) y' coins2 = Ok ((beta, t), coins2') ->
  0 <= beta < n /\ 0 <= t < n /\ (alpha = y' <-> x = y) /\
  (x = y -> (beta + t) mod n = (pay * pay') mod n) /\
  (x <> y -> circuit_input alpha <> circuit_input y' -> (beta + t) mod n = 0).
Proof.
  intros p q P V HP n ci x pay y pay' cy cq tp1 alpha z msg tp1' y' al tp2 beta t tp2' Hx Hp Hy My Mp E1 E2 E3.
  pose proof (pair_keyed _ _ _ _ HP) as K. fold n in K. pose proof K as (Hn & _).
  eapply made_ct in My; eauto. eapply made_ct in Mp; eauto. fold n in My, Mp.
  pose proof (combine_item_spec n P V K (x, pay) (cy, cq) (y, pay') tp1 (conj Hx Hp)) as X.
  cbn [fst snd] in X. specialize (X (conj Hy (conj My (proj2 (ct_mod n pay' cq ltac:(lia)) Mp)))).
  rewrite E1 in X. destruct X as (A1 & A2 & A3 & A4 & _). rewrite E2 in A4. apply Ok_inj in A4.
  pose proof (gc_item_spec (fun _ => []) ci n P V K al (alpha, z) y' (pay * pay') tp2 A3) as X.
  rewrite E3 in X. destruct X as (a & b & C1 & C2 & B1 & B2 & EM). cbn [fst snd] in *.
  assert (AE : alpha = y' <-> x = y).
  { subst y'. split; [intros EQ|intros ->; rewrite Z.mod_small; lia].
    assert (EM2 : eqm n alpha (alpha - x + y)) by (apply eqm_iff; [lia|]; rewrite <- EQ; apply Z.mod_small; lia).
    destruct EM2 as (k & EM2). assert (k = 0) by nia. subst k. lia. }
  split; [lia|]. split; [auto|]. split; [auto|]. unfold bits_eqb in EM. split.
  - intros EX. apply AE in EX. destruct (list_eq_dec bool_dec a b) as [_|N]; [apply eqm_iff; [lia|auto]|].
    exfalso. apply N. congruence.
  - intros NX CI. destruct (list_eq_dec bool_dec a b) as [->|N]; [exfalso; apply CI; congruence|].
    apply eqm_iff in EM; [|lia]. rewrite EM. apply Z.mod_0_l. lia.
Qed.
(** C21.  When it succeeds: the first step unless the mask drawn is smaller than
    the element, the second unless the mask drawn is 0; the responder always
    (the circuit is assumed to accept the two values here, cf. C39). *)
Theorem C21_only_failures :
  forall p q P V, paillier_pair p q P V -> let n := p * q in
  forall circuit_input x pay y pay' cy cq coins1 sender_is_alice coins2,
  0 <= x < n -> - n < pay < n -> 0 <= y < n -> made P V y cy -> made P V pay' cq ->
  (coins1 O mod n < x -> combine_item P (x, pay) (cy, cq) coins1 = Err InvalidArgument) /\
  (x <= coins1 O mod n -> exists alpha z msg coins1' y',
     combine_item P (x, pay) (cy, cq) coins1 = Ok ((alpha, z, msg), coins1') /\ priv_decrypt V msg = Ok y' /\
     forall a b, circuit_input alpha = Ok a -> circuit_input y' = Ok b ->
       (coins2 1%nat mod n = 0 -> gc_item circuit_input P V sender_is_alice (alpha, z) y' coins2 = Err InvalidArgument) /\
       (coins2 1%nat mod n <> 0 -> exists beta t coins2', gc_item circuit_input P V sender_is_alice (alpha, z) y' coins2 = Ok ((beta, t), coins2'))).
Proof.
  intros p q P V HP n ci x pay y pay' cy cq tp1 al tp2 Hx Hp Hy My Mp.
  pose proof (pair_keyed _ _ _ _ HP) as K. fold n in K. pose proof K as (Hn & En & _ & HE & _ & HM & _).
  eapply made_ct in My; eauto. eapply made_ct in Mp; eauto. fold n in My, Mp.
  pose proof (combine_item_spec n P V K (x, pay) (cy, cq) (y, pay') tp1 (conj Hx Hp)) as X.
  cbn [fst snd] in X. specialize (X (conj Hy (conj My (proj2 (ct_mod n pay' cq ltac:(lia)) Mp)))).
  assert (RL : forall tp, rand_less_than n tp = Ok (tp O mod n, tl_tape tp)).
  { intros tp. unfold rand_less_than. destruct (Z.ltb_spec 0 n); [auto|lia]. }
  destruct (HE (tp1 O mod n - x) (tl_tape tp1)) as (H1 & H2). pose proof (Z.mod_pos_bound (tp1 O) n ltac:(lia)) as B.
  split.
  - intros L. unfold combine_item. rewrite En. unfold bind at 1. rewrite RL. unfold bind at 1. cbn [fst]. rewrite H2 by lia. auto.
  - intros L. destruct (combine_item P (x, pay) (cy, cq) tp1) as [[[[alpha z] msg] tp1']|er| |] eqn:E; try contradiction.
    2:{ exfalso. destruct H1 as (c & t' & H1 & _); [lia|]. unfold combine_item in E. rewrite En in E. unfold bind at 1 in E. rewrite RL in E.
        unfold bind at 1 in E. cbn [fst snd] in E. rewrite H1 in E.
        destruct (pay =? 1); [discriminate|]. unfold bind, lift in E.
        destruct (HM _ _ (if pay <? 0 then pay + n else pay) ltac:(destruct (Z.ltb_spec pay 0); lia) Mp) as (z & EZ & _). rewrite EZ in E. discriminate. }
    destruct X as (A1 & A2 & A3 & A4 & _). do 5 eexists. split; [reflexivity|]. split; [exact A4|].
    intros a b Ca Cb. set (y' := (alpha - x + y) mod n) in *.
    pose proof (gc_item_spec (fun _ => []) ci n P V K al (alpha, z) y' (pay * pay') tp2 A3) as G.
    destruct (HE (n - tp2 1%nat mod n) (tl_tape (tl_tape tp2))) as (H3 & H4). pose proof (Z.mod_pos_bound (tp2 1%nat) n ltac:(lia)).
    split.
    + intros Z0. unfold gc_item. rewrite En. cbn [fst]. unfold bind at 1. unfold lift at 1. rewrite Ca. unfold bind at 1. unfold lift at 1. rewrite Cb.
      unfold bind at 1. unfold rand_less_than at 1. cbn [Z.ltb Z.compare]. unfold bind at 1. rewrite RL. unfold bind at 1.
      change (tl_tape tp2 0%nat) with (tp2 1%nat). rewrite H4 by lia. auto.
    + intros NZ. destruct (gc_item ci P V al (alpha, z) y' tp2) as [[[beta t] tp2']|e| |] eqn:E2.
      { eauto. } 2,3: exfalso; apply G; cbn [fst]; rewrite Ca, Cb; cbn; auto.
      exfalso. destruct H3 as (c & t3 & H3 & CC); [lia|].
      unfold gc_item in E2. rewrite En in E2. cbn [fst snd] in E2. unfold bind at 1 in E2. unfold lift at 1 in E2. rewrite Ca in E2. unfold bind at 1 in E2. unfold lift at 1 in E2. rewrite Cb in E2.
      unfold bind at 1 in E2. unfold rand_less_than at 1 in E2. cbn [Z.ltb Z.compare] in E2. unfold bind at 1 in E2. rewrite RL in E2. unfold bind at 1 in E2.
      change (tl_tape tp2 0%nat) with (tp2 1%nat) in E2. rewrite H3 in E2.
      pose proof K as (_ & _ & _ & _ & HA & _ & HD).
      assert (CE := HA _ _ _ _ A3 CC).
      destruct (proj1 C38_ciphertext_width n (pub_add P z c) ltac:(lia) (ct_range _ _ _ CE)) as (be & Q1 & Q2).
      destruct (proj1 C38_ciphertext_width n c ltac:(lia) (ct_range _ _ _ CC)) as (bn & Q3 & Q4).
      unfold bind at 1 in E2. unfold lift at 1 in E2. rewrite Q1 in E2. unfold bind at 1 in E2. unfold lift at 1 in E2. rewrite Q3 in E2.
      match type of E2 with bind (lift (priv_decrypt V (block2bignum ?r))) _ _ = _ => assert (D : r = be \/ r = bn) by
        (repeat match goal with |- context [if ?b then _ else _] => destruct b end; auto) end.
      destruct D as [D | D]; rewrite D in E2; [rewrite Q2 in E2; unfold bind, lift in E2; rewrite (HD _ _ CE) in E2; discriminate
                               |rewrite Q4 in E2; unfold bind, lift in E2; rewrite (HD _ _ CC) in E2; discriminate].
Qed.

(** ** C20.  The whole protocol.
    Party zero holds the key pair (P0, V0) for n0 = p0 q0, party one (P1, V1)
    for n1 = p1 q1; [d0] and [d1] are the daily signed batches. *)
Section C20.
Context {Gr : group}.
Variable hash : Z -> list bool.
Variable circuit_input : Z -> outcome (list bool).
Variables (p0 q0 p1 q1 : Z) (P0 P1 : pub) (V0 V1 : priv).
Notation n0 := (p0 * q0). Notation n1 := (p1 * q1).
Definition keys : Prop :=
  (forall x, length (hash x) = 256%nat) /\ paillier_pair p0 q0 P0 V0 /\ paillier_pair p1 q1 P1 V1.

(** nothing went wrong on day [j] (counted from 0): no payload was lost by a
    full stash, the circuit told different values apart, and the sender's
    random share of each of the two rounds left room for the result *)
Definition lucky_day (d0 d1 : list (list entry)) (j : nat) (st : dclient * dserver * (round * round)) : Prop :=
  let '(c, s, (round0, round1)) := st in
  holds (pt_my (dc_party c)) (upto (S j) d0) /\ holds (pt_my (ds_party s)) (upto (S j) d1) /\
  told_apart circuit_input (pt_x (dc_party c)) (pt_y (ds_party s)) /\
  told_apart circuit_input (pt_x (ds_party s)) (pt_y (dc_party c)) /\
  undisturbed n1 (fst round0) (inner (nth j d0 []) (upto j d1)) /\
  undisturbed n0 (fst round1) (inner (nth j d1 []) (upto (S j) d0)).

(** [trace] lists the states of both parties at the end of each day. *)
Theorem C20_inner_product : forall stash node d0 d1 k coins trace coins',
  keys -> length d1 = length d0 -> proper_signed n1 d0 -> proper_signed n0 d1 -> (k <= length d0)%nat ->
  run_trace (del_day (Gr := Gr) hash circuit_input P0 P1 V0 V1) k (del_start stash node d0 d1) coins = Ok (trace, coins') ->
  length trace = k /\
  forall j c s rounds, nth_error trace j = Some (c, s, rounds) ->
    dc_day c = S j /\ ds_day s = S j /\
    ((forall i st, (i <= j)%nat -> nth_error trace i = Some st -> lucky_day d0 d1 i st) ->
     dc_result c = inner (upto (S j) d0) (upto (S j) d1) mod 2 ^ 64).
Proof.
  intros stash node d0 d1 k tp trace tp' (HH & K0 & K1) L PR0 PR1 LE E.
  pose proof (trace_spec (Gr := Gr) hash circuit_input HH p0 q0 p1 q1 P0 P1 V0 V1 K0 K1 d0 d1 L PR0 PR1 O 0 k 0
    (fst (fst (del_start stash node d0 d1))) (snd (fst (del_start stash node d0 d1))) ((0, 0), (0, 0)) tp LE (dinv_start hash p0 q0 p1 q1 d0 d1 O stash node eq_refl)) as X.
  change (fst (fst (del_start stash node d0 d1)), snd (fst (del_start stash node d0 d1)), (0, 0, (0, 0))) with (del_start stash node d0 d1) in X.
  rewrite E in X. destruct X as (X1 & X2 & X3). split; auto.
  intros j c s r EJ. specialize (X2 j c s r EJ). split; [apply X2|]. split; [apply X2|].
  intros GD. rewrite <- (Z.sub_0_r (inner _ _)). apply (X3 (holds_new _ _) (holds_new _ _) eq_refl j c s r EJ). intros i st Hi Est. exact (GD i st Hi Est).
Qed.
(** No run ends in a crash, provided the circuit accepts all values (C39 tells
    when it does not). *)
Theorem C20_no_crash : forall stash node d0 d1 k coins,
  keys -> length d1 = length d0 -> proper_signed n1 d0 -> proper_signed n0 d1 -> (k <= length d0)%nat ->
  (forall x, returns (circuit_input x)) ->
  returns (run_trace (del_day (Gr := Gr) hash circuit_input P0 P1 V0 V1) k (del_start stash node d0 d1) coins).
Proof.
  intros stash node d0 d1 k tp (HH & K0 & K1) L PR0 PR1 LE CI.
  pose proof (trace_spec (Gr := Gr) hash circuit_input HH p0 q0 p1 q1 P0 P1 V0 V1 K0 K1 d0 d1 L PR0 PR1 O 0 k 0
    (fst (fst (del_start stash node d0 d1))) (snd (fst (del_start stash node d0 d1))) ((0, 0), (0, 0)) tp LE (dinv_start hash p0 q0 p1 q1 d0 d1 O stash node eq_refl)) as X.
  change (fst (fst (del_start stash node d0 d1)), snd (fst (del_start stash node d0 d1)), (0, 0, (0, 0))) with (del_start stash node d0 d1) in X.
  destruct (run_trace _ k (del_start stash node d0 d1) tp) as [[trace tp']| | |]; cbn [returns]; tauto.
Qed.
End C20.

(** C20, cardinality and sum: what the inner product is when all payloads of
    one or both parties are 0/1 memberships. *)
Theorem C20_cardinality : forall u v,
  (forall x, net x u = 0 \/ net x u = 1) -> (forall x, net x v = 0 \/ net x v = 1) ->
  inner u v = Z.of_nat (length (in_both u v)).
Proof.
  intros u v Hu Hv. unfold inner, in_both. induction (elements u) as [|x l IH]; [reflexivity|].
  cbn [map filter]. rewrite total_cons, IH. destruct (Hu x) as [-> | ->], (Hv x) as [-> | ->]; cbn [Z.eqb andb length Z.mul Pos.eqb Pos.mul]; lia.
Qed.
Theorem C20_sum : forall u v, (forall x, net x v = 0 \/ net x v = 1) ->
  inner u v = total (map (fun x => net x u) (filter (fun x => net x v =? 1) (elements u))).
Proof.
  intros u v Hv. unfold inner. induction (elements u) as [|x l IH]; [reflexivity|].
  cbn [map filter]. rewrite total_cons, IH. destruct (Hv x) as [-> | ->]; cbn [Z.eqb Pos.eqb map]; rewrite ?total_cons; ring.
Qed.

(** C20.  One round: s + t = v modulo n.  The two 64-bit shares computed from s
    and t give v modulo 2^64 if and only if the round is undisturbed ... *)
Lemma priv_new_odd fl p q V : priv_new fl p q 1 = Ok V -> Z.odd (p * q) = true.
Proof.
  unfold priv_new. intros H. apply obind_Ok in H as (pc & H1 & H). apply obind_Ok in H as (qc & H2 & _).
  assert (G : forall a b c, pc_new fl a b 1 = Ok c -> Z.odd a = true).
  { clear. intros a b c H. unfold pc_new in H. do 4 (apply obind_Ok in H as (? & _ & H)). apply obind_Ok in H as (g & H & _).
    unfold generator_of_prime_powers, generator_for_safe_prime in H. destruct (safe_prime_b a) eqn:E; [|discriminate].
    unfold safe_prime_b in E. destruct (Z.odd a); auto. rewrite andb_false_r in E. discriminate. }
  rewrite Z.odd_mul, (G _ _ _ H1), (G _ _ _ H2). auto.
Qed.
Theorem C20_share_conversion :
  forall p q P V, paillier_pair p q P V -> let n := p * q in
  forall s t v, 0 <= s < n -> 0 <= t < n -> (s + t) mod n = v mod n -> - n < 2 * v <= n ->
  exists a b, to_share n s = Ok a /\ to_share n t = Ok b /\
    ((a + b) mod 2 ^ 64 = v mod 2 ^ 64 <-> undisturbed n s v).
Proof.
  intros p q P V (_ & fl & HV) n s t v Hs Ht EM Hv. assert (Hn : 1 < n) by (eapply priv_new_pos; eauto).
  rewrite !to_share_spec by auto. do 2 eexists. split; [reflexivity|]. split; [reflexivity|].
  rewrite <- Zplus_mod. apply eqm_iff in EM; [|lia]. split.
  - intros E. apply eqm_iff in E; [|lia]. 
    pose proof (centered_range n s Hs). pose proof (centered_range n t Ht). pose proof (centered_eqm n s). pose proof (centered_eqm n t).
    assert (EE : eqm n (centered n s + centered n t) v) by (eapply eqm_trans; [apply eqm_add; eauto|auto]).
    destruct EE as (k & EE), E as (l & E).
    assert (k = -1 \/ k = 0 \/ k = 1) by nia. assert (K : k = 0).
    { destruct H3 as [-> | [-> | ->]]; auto; exfalso; (apply priv_new_odd in HV; fold n in HV; apply Z.odd_spec in HV as (h & HV)); change (2 ^ 64) with (2 * 2 ^ 63) in E; lia. }
    subst k. unfold undisturbed. lia.
  - intros U. rewrite (centered_sum n s t v); auto; lia.
Qed.
(** ... and of the n values the sender's share can have, exactly |v| disturb
    the round: with uniform shares the result is wrong with probability |v|/n. *)
Definition undisturbed_b (n s v : Z) : bool := (- n <? 2 * (v - centered n s)) && (2 * (v - centered n s) <=? n).
Theorem C20_wrong_shares_counted :
  forall p q P V, paillier_pair p q P V -> let n := p * q in
  (forall s v, undisturbed_b n s v = true <-> undisturbed n s v) /\
  forall v, - n < 2 * v <= n ->
    Z.of_nat (length (filter (fun s => negb (undisturbed_b n s v)) (map Z.of_nat (seq 0 (Z.to_nat n))))) = Z.abs v.
Proof.
  intros p q P V (_ & fl & HV) n. assert (Hn : 1 < n) by (eapply priv_new_pos; eauto).
  assert (UB : forall s v, undisturbed_b n s v = true <-> undisturbed n s v).
  { intros s v. unfold undisturbed_b, undisturbed. rewrite andb_true_iff, Z.ltb_lt, Z.leb_le. tauto. }
  split; auto. intros v Hv. apply priv_new_odd in HV. fold n in HV. apply Z.odd_spec in HV as (h & HV).
  set (a := if 0 <=? v then h + 1 else h + v + 1). set (b := if 0 <=? v then h + v else h).
  erewrite filter_ext_in.
  - rewrite (count_interval _ a b); unfold a, b; destruct (Z.leb_spec 0 v); lia.
  - intros s Hs. apply in_map_iff in Hs as (i & <- & Hi). apply in_seq in Hi.
    pose proof (undisturbed_iff n h (Z.of_nat i) v HV ltac:(lia) Hv) as X. rewrite <- UB in X. unfold a, b.
    destruct (undisturbed_b n (Z.of_nat i) v); cbn [negb]; symmetry.
    + apply not_true_is_false. rewrite andb_true_iff, !Z.leb_le. intros Y. apply (proj1 X eq_refl). destruct (Z.leb_spec 0 v); lia.
    + rewrite andb_true_iff, !Z.leb_le. destruct (Z.leb_spec 0 v); (destruct X as (_ & X); split; apply Z.nlt_ge; intros Y; assert (false = true) by (apply X; lia); discriminate).
Qed.

(** ** Examples: p0 q0 = 100011167 * 100014059, p1 q1 = 100015079 * 100024187
    (keys in BigPrime). *)
Definition ex_hash (x : Z) : list bool := map (fun i => Z.testbit x (Z.of_nat i mod 5)) (seq 0 256).
Definition ex_circuit (x : Z) : outcome (list bool) := Ok (map (fun i => Z.testbit x (Z.of_nat i)) (seq 0 72)).
Definition exd0 : list (list entry) := [[(5,3)];[(5,-3)]].
Definition exd1 : list (list entry) := [[(5,1)];[(4,1)]].
(** the hypotheses of the theorems can be met ... *)
Example ex_C20_keys :
  keys ex_hash 100011167 100014059 100015079 100024187 exk0P exk1P exk0V exk1V
  /\ proper_signed (100015079 * 100024187) exd0 /\ proper_signed (100011167 * 100014059) exd1.
Proof.
  split; [split; [intros x; unfold ex_hash; rewrite map_length; apply seq_length|]; split; [apply exk0_pair|apply exk1_pair]|].
  split; (split; [cbn [exd0 exd1 concat app]; repeat constructor; cbn [fst snd]; lia|vm_compute; reflexivity]).
Qed.
(** deciding whether a day is lucky *)
Definition holds_b (t : tree entry) (h : list entry) : bool :=
  forallb (fun x => net x (contents t) =? net x h) (map fst (contents t) ++ map fst h).
Lemma net_outside x l : ~ In x (map fst l) -> net x l = 0.
Proof.
  unfold net. induction l as [|e l IH]; [reflexivity|]. cbn [map filter In]. intros H. destruct (Z.eqb_spec (fst e) x); [tauto|]. apply IH. tauto.
Qed.
Lemma holds_b_ok t h : holds_b t h = true -> holds t h.
Proof.
  unfold holds_b. rewrite forallb_forall. intros H x. destruct (in_dec Z.eq_dec x (map fst (contents t) ++ map fst h)) as [IN|N].
  - apply Z.eqb_eq. auto.
  - rewrite in_app_iff in N. rewrite !net_outside by tauto. auto.
Qed.
Definition same_input (ci : Z -> outcome (list bool)) (x y : Z) : bool :=
  match ci x, ci y with Ok a, Ok b => if list_eq_dec bool_dec a b then true else false | _, _ => true end.
Definition told_apart_b (ci : Z -> outcome (list bool)) (xs ys : list Z) : bool :=
  forallb (fun xy => (fst xy =? snd xy) || negb (same_input ci (fst xy) (snd xy))) (combine xs ys).
Lemma told_apart_b_ok ci xs ys : told_apart_b ci xs ys = true -> told_apart ci xs ys.
Proof.
  unfold told_apart_b. rewrite forallb_forall. intros H x y IN E. specialize (H (x, y) IN). cbn [fst snd] in H.
  apply orb_true_iff in H as [H|H]; [apply Z.eqb_eq; auto|]. unfold same_input in H. rewrite E in H.
  destruct (ci y); try discriminate. destruct (list_eq_dec bool_dec a a); [discriminate|tauto].
Qed.
Lemma undisturbed_b_ok n s v : undisturbed_b n s v = true -> undisturbed n s v.
Proof. unfold undisturbed_b, undisturbed. rewrite andb_true_iff, Z.ltb_lt, Z.leb_le. tauto. Qed.
Definition lucky_day_b (ci : Z -> outcome (list bool)) (n0 n1 : Z) (d0 d1 : list (list entry)) (j : nat) (st : dclient * dserver * (round * round)) : bool :=
  let '(c, s, (round0, round1)) := st in
  holds_b (pt_my (dc_party c)) (upto (S j) d0) && holds_b (pt_my (ds_party s)) (upto (S j) d1) &&
  told_apart_b ci (pt_x (dc_party c)) (pt_y (ds_party s)) && told_apart_b ci (pt_x (ds_party s)) (pt_y (dc_party c)) &&
  undisturbed_b n1 (fst round0) (inner (nth j d0 []) (upto j d1)) && undisturbed_b n0 (fst round1) (inner (nth j d1 []) (upto (S j) d0)).
Lemma lucky_day_b_ok ci p0 q0 p1 q1 d0 d1 j st : lucky_day_b ci (p0 * q0) (p1 * q1) d0 d1 j st = true -> lucky_day ci p0 q0 p1 q1 d0 d1 j st.
Proof.
  unfold lucky_day_b, lucky_day. destruct st as [[c s] [r0 r1]]. rewrite !andb_true_iff. intros (((((H1 & H2) & H3) & H4) & H5) & H6).
  repeat split; auto using holds_b_ok, told_apart_b_ok; apply undisturbed_b_ok; auto.
Qed.
(** ... a run of two days, both of them lucky, has the results 3 and 0 (5 is
    deleted on day 2) *)
Definition ex_run (k : nat) (tp : tape) := run_trace (del_day (Gr := zmod_group 11 prime_11') ex_hash ex_circuit exk0P exk1P exk0V exk1V) k (del_start 1 1 exd0 exd1) tp.
Definition ex_coins : tape := fun i => 8 + Z.of_nat i mod 50.
Definition ex_lucky (o : outcome (list (dclient * dserver * (round * round)) * tape)) : bool :=
  match o with
  | Ok ([a; b], _) =>
      let l := lucky_day_b ex_circuit (100011167 * 100014059) (100015079 * 100024187) exd0 exd1 in
      l 0%nat a && l 1%nat b && (dc_result (fst (fst a)) =? 3) && (dc_result (fst (fst b)) =? 0)
  | _ => false end.
Example ex_C20 : ex_lucky (ex_run 2 ex_coins) = true.
Proof. vm_cast_no_check (eq_refl true). Qed.
(** coins that put the sender's share of the second round into the bad interval:
    the run succeeds and reports a wrong result *)
Definition ex_bad_coins : tape := let n := 100011167 * 100014059 in fun _ => ((n + 1) / 2 + 1) * inv_mod 2 n mod n.
Example ex_C20_wrong : match ex_run 1 ex_bad_coins with Ok ([a], _) => dc_result (fst (fst a)) =? 18436741550952554766 | _ => false end = true.
Proof. vm_cast_no_check (eq_refl true). Qed.
(** C21: shares of 3 * 4 for equal elements and of 0 for different ones *)
Definition ex_compare (x y : Z) : option Z :=
  match (cy <- priv_encrypt exk0V y ;; cq <- priv_encrypt exk0V 4 ;;
         '(i, msg) <- combine_item exk0P (x, 3) (cy, cq) ;; y' <- lift (priv_decrypt exk0V msg) ;;
         gc_item ex_circuit exk0P exk0V true i y') (fun i => 123456 + Z.of_nat i) with
  | Ok ((beta, t), _) => Some ((beta + t) mod pp_n exk0P) | _ => None end.
Example ex_C21 : match ex_compare 17 17, ex_compare 17 18 with
  | Some a, Some b => (a =? 12) && (b =? 0) | _, _ => false end = true.
Proof. vm_cast_no_check (eq_refl true). Qed.

Print Assumptions C20_inner_product.
Print Assumptions C20_no_crash.
Print Assumptions C20_cardinality.
Print Assumptions C20_sum.
Print Assumptions C20_share_conversion.
Print Assumptions C20_wrong_shares_counted.
Print Assumptions C21_product_shares.
Print Assumptions C21_only_failures.
