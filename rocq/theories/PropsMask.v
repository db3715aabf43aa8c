(** * C63: what the random masks and the single shares reveal. *)
Require Import List Arith Lia ZArith Znumtheory Bool.
Import ListNotations.
From Verif Require Import Prelude BytesModel Coins Group NumTheory ElGamalModel ElGamalProofs PaillierModel PaillierProofs PropsPaillier PropsWire PropsBytes PropsElGamal
  WireModel WireProofs TreeModel AddModel AddSpec AddProofs AddRun PropsAdd OrigModel DelModel DelProofs PropsDel MaskSpec.
Local Open Scope Z_scope.

Section Mask.
Context {Gr : group}.
Variables sk0 sk1 : Z.                         (* the shares of the secret key *)
Notation inside c := (decrypt (sk0 + sk1) c).  (* the point in a ciphertext *)
(** what party zero decrypts after party one's partial decryption *)
Notation shown c := (decrypt sk0 (partial_decrypt sk1 c)).

Lemma mask_range r t : drawn (ord Gr - 1) r -> @create_random_mask Gr (coin r t) = Ok (r + 1, t).
Proof.
  intros H. pose proof (ord_pos (Gr := Gr)). unfold drawn in H. unfold create_random_mask, gen_private_key, rand_between.
  destruct (Z.ltb_spec 1 (ord Gr)); [|lia]. unfold bind, rand_less_than. destruct (Z.ltb_spec 0 (ord Gr - 1)); [|lia].
  cbn [coin ret]. rewrite Z.mod_small by lia. unfold ret. f_equal.
Qed.
Lemma pow_each_once (m : Gr) : m <> gid ->
  each_once (drawn (ord Gr - 1)) (fun r => Some (gpow m (r + 1))) (fun b => b <> gid).
Proof.
  intros Hm. pose proof (ord_pos (Gr := Gr)) as O.
  assert (NZ : forall k, 0 < k < ord Gr -> gpow m k <> gid).
  { intros k Hk E. apply gpow_id_iff in E; auto. apply Z.divide_pos_le in E; lia. }
  assert (INJ : forall k k', 0 < k < ord Gr -> 0 < k' < ord Gr -> gpow m k = gpow m k' -> k = k').
  { intros k k' Hk Hk' E.
    assert (E' : gpow m (k - k') = gid). { unfold Z.sub. rewrite gpow_add, gpow_opp, E. apply gop_inv_r. }
    apply gpow_id_iff in E'; auto. destruct E' as (w & E'). assert (w = 0) by nia. subst w. lia. }
  split.
  - intros r Hr. unfold drawn in Hr. eexists. split; [reflexivity|]. apply NZ. lia.
  - intros b Hb. destruct (dlog_exists m) as (i & Hi & Ei). destruct (dlog_exists b) as (j & Hj & Ej).
    assert (Ni : ~ (ord Gr | i)). { intros D. apply Hm. rewrite Ei. apply gen_pow_id_iff. auto. }
    pose proof (prime_rel_prime _ (ord_prime Gr) i Ni) as R. apply rel_prime_bezout in R. destruct R as [u v B].
    set (k := (v * j) mod ord Gr).
    assert (Hk : 0 <= k < ord Gr) by (apply Z.mod_pos_bound; lia).
    assert (Ek : gpow m k = b).
    { unfold k. rewrite gpow_mod, Ei, <- gpow_mul, Ej. apply gen_pow_inj. exists (- u * j). 
      transitivity (j * (v * i) - j); [ring|]. replace (v * i) with (1 - u * ord Gr) by lia. ring. }
    assert (k <> 0). { intros K0. apply Hb. rewrite <- Ek, K0. apply gpow_0. }
    exists (k - 1). split; [unfold drawn; lia|]. split; [f_equal; rewrite <- Ek; f_equal; lia|].
    intros r' Hr' E. unfold drawn in Hr'. inversion E as [E']. rewrite <- Ek in E'. apply INJ in E'; lia.
Qed.
Lemma each_once_ext {A B} (D : A -> Prop) (f g : A -> option B) P : (forall a, D a -> f a = g a) -> each_once D f P -> each_once D g P.
Proof.
  intros H (H1 & H2). split.
  - intros r Hr. rewrite <- H; auto.
  - intros b Hb. destruct (H2 b Hb) as (r & Hr & E & U). exists r. split; auto. split; [rewrite <- H; auto|].
    intros r' Hr' E'. apply U; auto. rewrite H; auto.
Qed.

(** ** The masked candidates of the constructions without deletions *)
(** the value party zero gets from a candidate masked with draw [r] *)
Definition seen {P} (m : M (ct Gr * P)) (t : tape) (r : Z) : option Gr :=
  match m (coin r t) with Ok ((c, _), _) => Some (shown c) | _ => None end.

(** C63.  Cardinality, sum and shares: of a masked candidate party zero sees the
    identity if the two elements match, and otherwise every other group element
    for exactly one value of the mask: the same for all non-matching pairs.  The
    payload is not touched by the mask. *)
Theorem C63_match_bit :
  forall (c : ct Gr) t,
  let every_mask_shows_identity {P} (m : M (ct Gr * P)) := forall r, drawn (ord Gr - 1) r -> seen m t r = Some gid in
  let each_element_once {P} (m : M (ct Gr * P)) := each_once (drawn (ord Gr - 1)) (seen m t) (fun b => b <> gid) in
  (inside c = gid -> every_mask_shows_identity (ca_mask (c, tt)) /\
     (forall p, every_mask_shows_identity (sum_mask (c, p))) /\ (forall p, every_mask_shows_identity (ss_mask (c, p)))) /\
  (inside c <> gid -> each_element_once (ca_mask (c, tt)) /\
     (forall p, each_element_once (sum_mask (c, p))) /\ (forall p, each_element_once (ss_mask (c, p)))).
Proof.
  intros c t Z1 E1.
  assert (S1 : forall r, drawn (ord Gr - 1) r -> seen (ca_mask (c, tt)) t r = Some (gpow (inside c) (r + 1))).
  { intros r Hr. unfold seen, ca_mask, bind. rewrite mask_range by auto. cbn [ret fst]. unfold ret. rewrite decrypt_partial, decrypt_exp_ct. reflexivity. }
  assert (S2 : forall p r, drawn (ord Gr - 1) r -> seen (sum_mask (c, p)) t r = Some (gpow (inside c) (r + 1))).
  { intros p r Hr. unfold seen, sum_mask, bind. rewrite mask_range by auto. cbn [ret fst]. unfold ret. rewrite decrypt_partial, decrypt_exp_ct. reflexivity. }
  assert (S3 : forall p r, drawn (ord Gr - 1) r -> seen (ss_mask (c, p)) t r = Some (gpow (inside c) (r + 1))).
  { intros p r Hr. unfold seen, ss_mask, bind. rewrite mask_range by auto. cbn [ret fst]. unfold ret. rewrite decrypt_partial, decrypt_exp_ct. reflexivity. }
  split; intros H.
  - unfold Z1. split; [|split]; intros; [rewrite S1|rewrite S2|rewrite S3]; auto; rewrite H, gpow_id; reflexivity.
  - pose proof (pow_each_once _ H) as X. unfold E1.
    split; [|split]; intros; eapply each_once_ext; try exact X; intros a Ha; symmetry; auto.
Qed.

(** the two values party zero gets from a candidate of the intersection
    protocol masked with the draws [r] *)
Definition seen2 (m : M (ct Gr * ct Gr)) (t : tape) (r : Z * Z) : option (Gr * Gr) :=
  match m (coin (fst r) (coin (snd r) t)) with Ok ((c, d), _) => Some (shown c, shown d) | _ => None end.
(** C63.  Intersection: a matching candidate shows the identity and the
    element; of a non-matching candidate party zero sees each pair of a
    non-identity element and an element other than its payload for exactly one
    pair of masks. *)
Theorem C63_intersection :
  forall (c p : ct Gr) t,
  (inside c = gid -> forall r, drawn2 (ord Gr - 1) r -> seen2 (psi_mask (c, p)) t r = Some (gid, inside p)) /\
  (inside c <> gid -> each_once (drawn2 (ord Gr - 1)) (seen2 (psi_mask (c, p)) t) (fun ab => fst ab <> gid /\ snd ab <> inside p)).
Proof.
  intros c p t.
  assert (SS : forall r, drawn2 (ord Gr - 1) r -> seen2 (psi_mask (c, p)) t r =
     Some (gpow (inside c) (fst r + 1), gop (inside p) (gpow (gpow (inside c) (fst r + 1)) (snd r + 1)))).
  { intros r (R1 & R2). unfold seen2, psi_mask, bind. rewrite mask_range by auto. rewrite mask_range by auto. unfold ret.
    cbn [fst snd]. rewrite !decrypt_partial, decrypt_mul, !decrypt_exp_ct. reflexivity. }
  split; intros H.
  - intros r Hr. rewrite SS by auto. rewrite H, !gpow_id, gop_id_r. reflexivity.
  - apply (each_once_ext _ (fun r => Some (gpow (inside c) (fst r + 1), gop (inside p) (gpow (gpow (inside c) (fst r + 1)) (snd r + 1))))).
    { intros; symmetry; auto. }
    pose proof (pow_each_once _ H) as (A1 & A2). 
    assert (NZ : forall r, drawn (ord Gr - 1) r -> gpow (inside c) (r + 1) <> gid).
    { intros r Hr. destruct (A1 r Hr) as (b & E & Nb). injection E as E. rewrite E. exact Nb. }
    split.
    + intros r (R1 & R2). eexists. split; [reflexivity|]. cbn [fst snd]. split; [auto|].
      destruct (proj1 (pow_each_once _ (NZ _ R1)) _ R2) as (b & E & Nb). injection E as E. subst b.
      intros Q. apply Nb. apply (gop_cancel_l (inside p)). rewrite gop_id_r. exact Q.
    + intros (a & b) (Ha & Hb). cbn [fst snd] in *. destruct (A2 a Ha) as (r & Hr & E & U). injection E as Ea.
      destruct (proj2 (pow_each_once a Ha) (gop (ginv (inside p)) b)) as (s & Hs & E2 & U2).
      { intros Q. apply Hb. apply (gop_cancel_l (ginv (inside p))). rewrite Q, gop_inv. reflexivity. }
      injection E2 as Eb. exists (r, s). split; [split; auto|]. cbn [fst snd]. split.
      * rewrite Ea, Eb, gop_assoc, gop_inv_r, gop_id. reflexivity.
      * intros (r', s') (R1 & R2) Q. cbn [fst snd] in *. injection Q as Q1 Q2.
        assert (r' = r) by (apply U; auto; rewrite Q1; auto). subst r'. f_equal. apply U2; auto. f_equal.
        try rewrite Q1 in Q2. try rewrite Ea in Q2. apply (gop_cancel_l (inside p)). rewrite Q2, gop_assoc, gop_inv_r, gop_id. reflexivity.
Qed.
End Mask.

(** ** Shares *)
Lemma shift_each_once n k : 0 < n -> each_once (drawn n) (fun r => Some ((k + r) mod n)) (drawn n).
Proof.
  intros Hn. unfold drawn. split.
  - intros r Hr. eexists. split; [reflexivity|]. apply Z.mod_pos_bound. lia.
  - intros b Hb. exists ((b - k) mod n). split; [apply Z.mod_pos_bound; lia|]. split.
    + f_equal. rewrite Zplus_mod_idemp_r. replace (k + (b - k)) with b by ring. apply Z.mod_small. lia.
    + intros r' Hr' E. injection E as E. rewrite <- E. rewrite Zminus_mod_idemp_l. replace (k + r' - k) with r' by ring.
      symmetry. apply Z.mod_small. lia.
Qed.

Lemma share_spec (Gr : group) p q n psk0 psk1 pai0 : prime p -> prime q -> p <> q -> n = p * q -> 0 <= psk0 -> 0 <= psk1 ->
  eqm n (psk0 + psk1) 1 -> ((p - 1) * (q - 1) | psk0 + psk1) -> thr_object n pai0 ->
  forall v (w : ct Gr) cv r t, 0 <= r < n -> ct_of n v cv ->
  exists b1 b2 tp', ss_share n pai0 psk0 (w, cv) (coin r t) = Ok ((n - r, [b1; b2]), tp')
    /\ thr_decrypt n psk1 (of_bytes b1) (of_bytes b2) = Ok ((v + r) mod n).
Proof.
  intros Pp Pq Npq En S0 S1 DD1 DD2 OB0 v w cv r t BR C.
  assert (1 < p) by (destruct Pp; auto). assert (1 < q) by (destruct Pq; auto). assert (Hn : 1 < n) by nia.
  unfold ss_share, bind, lift, ret.
  unfold rand_less_than. destruct (Z.ltb_spec 0 n); [|lia]. cbn [coin]. rewrite Z.mod_small by lia. cbn [snd].
  destruct (thr_object_facts _ _ Hn OB0) as (F1 & F2 & F3 & F4 & F5 & F6).
  destruct (pub_encrypt_spec pai0 n Hn F1 F2 F3 F4 F5 F6 r (tl_tape (coin r t))) as (_ & B2).
  destruct (B2 BR) as (e & t2 & EE & CE). rewrite EE.
  assert (CS : ct_of n (v + r) (thr_add n cv e)) by (apply ct_add; auto).
  destruct (thr_decrypt_spec p q n psk0 psk1 Pp Pq Npq En S0 S1 DD1 DD2 _ _ CS) as (a & EA & ED). rewrite EA.
  assert (P1 : 0 <= thr_add n cv e) by (apply (proj1 (proj1 CS))).
  destruct (to_bytes_of _ P1) as (b1 & E1 & E1'). rewrite E1.
  assert (P2 : 0 <= a). { unfold thr_partial in EA. destruct (_ <? 0); [discriminate|]. destruct (_ <=? _); [discriminate|]. rewrite mod_exp_total in EA by nia. inversion EA. apply Z.mod_pos_bound. nia. }
  destruct (to_bytes_of _ P2) as (b2 & E2 & E2'). rewrite E2.
  exists b1, b2, t2. rewrite E1', E2'. auto.
Qed.
(** C63.  Secret shares of the addition-only protocol: as party zero's draw
    varies, party one's share takes every value below n exactly once and so does
    party zero's (which it writes as n for 0): one share alone says nothing about
    the payload, the two together always determine it. *)
Theorem C63_shares :
  forall (Gr : group) p q bits kt n psk0 psk1 kt' pai0 (w : ct Gr) v cv t,
  prime p -> prime q -> p <> q -> threshold_keygen p q bits kt = Ok ((n, psk0, psk1), kt') -> thr_object n pai0 ->
  0 <= v < n -> encrypts n v cv ->
  let theirs r := match ss_share n pai0 psk0 (w, cv) (coin r t) with
                  | Ok ((_, [b1; b2]), _) => match thr_decrypt n psk1 (of_bytes b1) (of_bytes b2) with Ok x => Some x | _ => None end
                  | _ => None end in
  let ours r := match ss_share n pai0 psk0 (w, cv) (coin r t) with Ok ((x, _), _) => Some x | _ => None end in
  each_once (drawn n) theirs (drawn n) /\
  each_once (drawn n) ours (fun x => 0 < x <= n) /\
  (forall r a b, drawn n r -> ours r = Some a -> theirs r = Some b -> (a + b) mod n = v).
Proof.
  intros Gr p q bits kt n psk0 psk1 kt' pai0 w v cv t Pp Pq NE KG OB Hv HC theirs ours.
  assert (1 < p) by (destruct Pp; auto). assert (1 < q) by (destruct Pq; auto).
  apply keygen_spec in KG as (En & S1 & S2 & D1 & D2); auto.
  assert (Hn : 1 < n) by nia.
  assert (X : forall r, drawn n r -> ours r = Some (n - r) /\ theirs r = Some ((v + r) mod n)).
  { intros r Hr. unfold drawn in Hr. unfold ours, theirs.
    destruct (share_spec Gr p q n psk0 psk1 pai0 Pp Pq NE En S1 (Z.lt_le_incl _ _ S2) D1 D2 OB v w cv r t Hr) as (b1 & b2 & tp' & E & D).
    { destruct HC as (B & u & R & Q). split; auto. exists u. split; auto. }
    rewrite E, D. auto. }
  split.
  { apply (each_once_ext _ (fun r => Some ((v + r) mod n))); [intros a Ha; symmetry; apply X; auto|]. apply shift_each_once. lia. }
  split.
  { apply (each_once_ext _ (fun r => Some (n - r))); [intros a Ha; symmetry; apply X; auto|]. unfold drawn. split.
    - intros r Hr. eexists. split; [reflexivity|lia].
    - intros b Hb. exists (n - b). split; [lia|]. split; [f_equal; lia|]. intros r' Hr' Q. injection Q as Q. lia. }
  intros r a b Hr Ea Eb. destruct (X r Hr) as (X1 & X2). rewrite X1 in Ea. rewrite X2 in Eb. injection Ea as <-. injection Eb as <-.
  rewrite Zplus_mod_idemp_r. replace (n - r + (v + r)) with (v + 1 * n) by ring. rewrite Z_mod_plus_full. apply Z.mod_small. lia.
Qed.

(** ** The constructions with deletions *)
(** C63.  The first mask of the equality test: a draw below the element fails;
    over the others, the responder sees each value from its own entry y on
    upwards (modulo n), n - x of them, exactly once.  So the x values just below
    y never occur: for elements far below n that is all it can learn. *)
Theorem C63_equality_mask :
  forall p q P V, paillier_pair p q P V -> let n := p * q in
  forall x pay y pay' cy cq t,
  0 <= x < n -> - n < pay < n -> 0 <= y < n -> encrypts n y cy -> encrypts n pay' cq ->
  let sees r := match combine_item P (x, pay) (cy, cq) (coin r t) with
                | Ok ((_, _, msg), _) => match priv_decrypt V msg with Ok v => Some v | _ => None end
                | _ => None end in
  (forall r, 0 <= r < x -> combine_item P (x, pay) (cy, cq) (coin r t) = Err InvalidArgument) /\
  each_once (fun r => x <= r < n) sees (fun v => 0 <= v < n /\ (v - y) mod n < n - x).
Proof.
  intros p q P V HP n x pay y pay' cy cq t Hx Hp Hy Cy Cq sees.
  pose proof (pair_keyed _ _ _ _ HP) as K. fold n in K. pose proof K as (Hn & En & _ & HE & _ & HM & _).
  assert (RL : forall r, 0 <= r < n -> rand_less_than n (coin r t) = Ok (r, t)).
  { intros r Hr. unfold rand_less_than. destruct (Z.ltb_spec 0 n); [|lia]. cbn [coin]. rewrite Z.mod_small by lia. reflexivity. }
  assert (Mq : ct_of n pay' cq) by (destruct Cq as (B & u & R & Q); split; auto; exists u; split; auto).
  assert (My : ct_of n y cy) by (destruct Cy as (B & u & R & Q); split; auto; exists u; split; auto).
  assert (X : forall r, x <= r < n -> sees r = Some ((r - x + y) mod n)).
  { intros r Hr. unfold sees.
    pose proof (combine_item_spec n P V K (x, pay) (cy, cq) (y, pay') (coin r t) (conj Hx Hp)) as X.
    cbn [fst snd] in X. specialize (X (conj Hy (conj My (proj2 (ct_mod n pay' cq ltac:(lia)) Mq)))).
    destruct (HE (r - x) t) as (H1 & _). destruct H1 as (c & t' & H1 & _); [lia|].
    unfold combine_item in *. rewrite En in *. unfold bind at 1 in X. unfold bind at 1. rewrite RL in * by lia.
    cbn [fst snd] in *. unfold bind at 1 in X. unfold bind at 1. rewrite H1 in *.
    destruct (pay =? 1).
    - unfold bind, ret in *. destruct X as (_ & _ & _ & -> & _). reflexivity.
    - unfold bind at 1 in X. unfold bind at 1. unfold lift in *.
      destruct (HM _ _ (if pay <? 0 then pay + n else pay) ltac:(destruct (Z.ltb_spec pay 0); lia) Mq) as (z & EZ & _). rewrite EZ in *.
      unfold ret in *. destruct X as (_ & _ & _ & -> & _). reflexivity. }
  split.
  { intros r Hr. destruct (HE (r - x) t) as (_ & H2). unfold combine_item. rewrite En. unfold bind at 1. rewrite RL by lia. unfold bind at 1. cbn [fst].
    rewrite H2 by lia. reflexivity. }
  apply (each_once_ext _ (fun r => Some ((r - x + y) mod n))); [intros a Ha; symmetry; apply X; auto|]. split.
  - intros r Hr. eexists. split; [reflexivity|]. split; [apply Z.mod_pos_bound; lia|].
    rewrite Zminus_mod_idemp_l. replace (r - x + y - y) with (r - x) by ring. rewrite Z.mod_small by lia. lia.
  - intros v (Bv & Lv). pose proof (Z.mod_pos_bound (v - y) n ltac:(lia)). exists (x + (v - y) mod n). split; [lia|]. split.
    + f_equal. replace (x + (v - y) mod n - x + y) with (y + (v - y) mod n) by ring. rewrite Zplus_mod_idemp_r.
      replace (y + (v - y)) with v by ring. apply Z.mod_small. lia.
    + intros r' Hr' E. injection E as E. rewrite <- E. rewrite Zminus_mod_idemp_l. replace (r' - x + y - y) with (r' - x) by ring.
      rewrite Z.mod_small by lia. lia.
Qed.

(** C63.  The conversion to shares after the equality test: the draw 0 fails;
    over the others, the receiver's share takes every value below n once, except
    the one it would have to have if the sender's share were 0: the product of
    the payloads if the compared values agree, and 0 otherwise.  The sender's
    share is the draw. *)
Theorem C63_product_shares :
  forall p q P V, paillier_pair p q P V -> let n := p * q in
  forall circuit_input alice u z y a b w bit t,
  circuit_input u = Ok a -> circuit_input y = Ok b -> encrypts n w z ->
  let run r := gc_item circuit_input P V alice (u, z) y (coin bit (coin r t)) in
  run 0 = Err InvalidArgument /\
  (forall r, 0 < r < n -> exists share t', run r = Ok ((r, share), t')) /\
  each_once (fun r => 0 < r < n) (fun r => match run r with Ok ((_, share), _) => Some share | _ => None end)
    (fun v => 0 <= v < n /\ v <> (if list_eq_dec bool_dec a b then w mod n else 0)).
Proof.
  intros p q P V HP n ci alice u z y a b w bit t Ca Cb HC run.
  pose proof (pair_keyed _ _ _ _ HP) as K. fold n in K. pose proof K as (Hn & En & _ & HE & HA & HM & HD).
  assert (CW : ct_of n w z) by (destruct HC as (B & uu & R & Q); split; auto; exists uu; split; auto).
  assert (RL : forall r, 0 <= r < n -> rand_less_than n (tl_tape (coin bit (coin r t))) = Ok (r, t)).
  { intros r Hr. unfold rand_less_than. destruct (Z.ltb_spec 0 n); [|lia]. cbn [coin tl_tape]. unfold tl_tape. cbn [coin]. rewrite Z.mod_small by lia. reflexivity. }
  assert (Z0 : run 0 = Err InvalidArgument).
  { unfold run, gc_item. rewrite En. cbn [fst]. unfold bind at 1. unfold lift at 1. rewrite Ca. unfold bind at 1. unfold lift at 1. rewrite Cb.
    unfold bind at 1. unfold rand_less_than at 1. cbn [Z.ltb Z.compare]. unfold bind at 1. rewrite RL by lia. unfold bind at 1.
    destruct (HE (n - 0) t) as (_ & H2). rewrite H2 by lia. reflexivity. }
  set (w' := if list_eq_dec bool_dec a b then w mod n else 0).
  assert (Bw : 0 <= w' < n). { unfold w'. destruct (list_eq_dec bool_dec a b); [apply Z.mod_pos_bound; lia|lia]. }
  assert (X : forall r, 0 < r < n -> exists t', run r = Ok ((r, (w' - r) mod n), t')).
  { intros r Hr. pose proof (gc_item_spec (fun _ => []) ci n P V K alice (u, z) y w (coin bit (coin r t)) CW) as G. fold (run r) in G.
    destruct (HE (n - r) t) as (H1 & _). destruct H1 as (c & t3 & H1 & C); [lia|].
    assert (CE := HA _ _ _ _ CW C).
    destruct (run r) as [[[beta s] t']|e| |] eqn:E.
    2-4: exfalso.
    - destruct G as (a' & b' & Ea & Eb & Bb & Bs & Q). cbn [fst] in Ea. rewrite Ca in Ea. rewrite Cb in Eb. injection Ea as <-. injection Eb as <-.
      assert (beta = r).
      { unfold run, gc_item in E. rewrite En in E. cbn [fst snd] in E. unfold bind at 1 in E. unfold lift at 1 in E. rewrite Ca in E. unfold bind at 1 in E. unfold lift at 1 in E. rewrite Cb in E.
        unfold bind at 1 in E. unfold rand_less_than at 1 in E. cbn [Z.ltb Z.compare] in E. unfold bind at 1 in E. rewrite RL in E by lia. unfold bind at 1 in E.
        rewrite H1 in E. unfold bind, lift, ret in E. destruct (bignum2block (pub_add P z c) _); try discriminate. destruct (bignum2block c _); try discriminate.
        destruct (priv_decrypt V _); try discriminate. injection E as E1 _ _. auto. }
      subst beta. exists t'. do 3 f_equal. unfold bits_eqb in Q.
      assert (QW : eqm n (r + s) w'). { unfold w'. destruct (list_eq_dec bool_dec a b); auto. eapply eqm_trans; [exact Q|]. apply eqm_sym, eqm_mod. lia. }
      destruct QW as (k & QW). apply Zmod_unique with (- k); [lia|]. lia.
    - unfold run, gc_item in E. rewrite En in E. cbn [fst snd] in E. unfold bind at 1 in E. unfold lift at 1 in E. rewrite Ca in E. unfold bind at 1 in E. unfold lift at 1 in E. rewrite Cb in E.
      unfold bind at 1 in E. unfold rand_less_than at 1 in E. cbn [Z.ltb Z.compare] in E. unfold bind at 1 in E. rewrite RL in E by lia. unfold bind at 1 in E.
      rewrite H1 in E.
      destruct (proj1 C38_ciphertext_width n (pub_add P z c) ltac:(lia) (ct_range _ _ _ CE)) as (be & Q1 & Q2).
      destruct (proj1 C38_ciphertext_width n c ltac:(lia) (ct_range _ _ _ C)) as (bn & Q3 & Q4).
      unfold bind at 1 in E. unfold lift at 1 in E. rewrite Q1 in E. unfold bind at 1 in E. unfold lift at 1 in E. rewrite Q3 in E.
      unfold bind, lift, ret in E.
      match type of E with context [priv_decrypt V (block2bignum ?x)] => assert (XX : x = be \/ x = bn) end.
      { repeat match goal with |- context [if ?cnd then _ else _] => destruct cnd end; auto. }
      destruct XX as [XX|XX]; rewrite XX in E; [rewrite Q2, (HD _ _ CE) in E|rewrite Q4, (HD _ _ C) in E]; discriminate.
    - apply G. cbn [fst]. rewrite Ca, Cb. cbn. auto.
    - apply G. cbn [fst]. rewrite Ca, Cb. cbn. auto. }
  split; [exact Z0|]. split; [intros r Hr; destruct (X r Hr) as (t' & ->); eauto|].
  fold w'. apply (each_once_ext _ (fun r => Some ((w' - r) mod n))).
  { intros r Hr. destruct (X r Hr) as (t' & ->). reflexivity. }
  assert (MM : forall r, 0 < r < n -> (w' - r) mod n = if r <=? w' then w' - r else w' - r + n).
  { intros r Hr. symmetry. destruct (Z.leb_spec r w').
    - apply Zmod_unique with 0; lia.
    - apply Zmod_unique with (-1); lia. }
  split.
  - intros r Hr. eexists. split; [reflexivity|]. rewrite MM by auto. destruct (Z.leb_spec r w'); lia.
  - intros v (Bv & Nv). exists ((w' - v) mod n).
    assert (BM : (w' - v) mod n = if v <=? w' then w' - v else w' - v + n).
    { symmetry. destruct (Z.leb_spec v w'); [apply Zmod_unique with 0|apply Zmod_unique with (-1)]; lia. }
    assert (0 < (w' - v) mod n < n) by (rewrite BM; destruct (Z.leb_spec v w'); lia).
    split; [auto|]. split.
    + f_equal. rewrite Zminus_mod_idemp_r. replace (w' - (w' - v)) with v by ring. apply Z.mod_small. lia.
    + intros r' Hr' E. injection E as E. rewrite <- E, Zminus_mod_idemp_r. replace (w' - (w' - r')) with r' by ring. symmetry. apply Z.mod_small. lia.
Qed.

(** ** The original construction *)
Section Original.
Context {Gr : group}.
Lemma finite_exp (c : ct Gr) k : 0 < k < ord Gr -> (finite (ct_exp c k) <-> finite c).
Proof.
  intros Hk. unfold finite. cbn [ct_exp ct_u ct_e].
  assert (E : forall x : Gr, gpow x k <> gid <-> x <> gid).
  { intros x. split; intros N Q; apply N.
    - rewrite Q. apply gpow_id.
    - destruct (geqb x gid) eqn:EX; [apply geqb_spec; auto|]. apply geqb_false in EX. apply gpow_id_iff in Q; auto. apply Z.divide_pos_le in Q; lia. }
  rewrite !E. tauto.
Qed.
(** C63.  A candidate that party one decrypts and masks for party zero: it can be
    sent or not whatever the mask; if it is sent, party zero decrypts it to the
    identity when it is equal to its blinding point [a], and otherwise to every
    other point for exactly one mask. *)
Theorem C63_original_mask :
  forall sk0 sk1 (minus_alpha c : ct Gr) (a : Gr) w t,
  deser_cand_plain w = Ok c -> decrypt sk0 minus_alpha = ginv a ->
  let sees r := match oc_candidates (mkPk gen (gpow gen sk0)) sk1 minus_alpha [w] (coin r t) with
                | Ok ([w'], _) => match deser_cand_plain w' with Ok c' => Some (decrypt sk0 c') | _ => None end
                | _ => None end in
  (forall r, drawn (ord Gr - 1) r -> sees r = None) \/
  ((decrypt sk1 c = a -> forall r, drawn (ord Gr - 1) r -> sees r = Some gid) /\
   (decrypt sk1 c <> a -> each_once (drawn (ord Gr - 1)) sees (fun b => b <> gid))).
Proof.
  intros sk0 sk1 ma c a w t Ew Ea sees.
  pose proof (ord_pos (Gr := Gr)) as OP.
  destruct (encrypt_point_total (Gr := Gr) (mkPk gen (gpow gen sk0)) (decrypt sk1 c) t) as (b & t1 & Eb).
  assert (Db : decrypt sk0 b = decrypt sk1 c) by (eapply encrypt_point_Ok; exact Eb).
  set (x := ct_mul b ma).
  assert (Dx : decrypt sk0 x = gop (decrypt sk1 c) (ginv a)) by (unfold x; rewrite decrypt_mul, Db, Ea; reflexivity).
  assert (SX : forall r, drawn (ord Gr - 1) r -> sees r = match ser_plain (ct_exp x (r + 1)) with
              | Ok w' => match deser_cand_plain w' with Ok c' => Some (decrypt sk0 c') | _ => None end | _ => None end).
  { intros r Hr. unfold sees, oc_candidates. unfold bind at 1. unfold lift at 1. cbn [omap]. rewrite Ew. cbn [obind]. unfold bind at 1.
    cbn [mapM]. unfold bind at 1. unfold bind at 1. rewrite mask_range by auto. unfold bind at 1. rewrite Eb. unfold ret at 1. unfold bind at 1. unfold ret at 1. unfold ret at 1.
    unfold bind at 1. cbn [shuffle]. unfold bind at 1. unfold ret at 1. unfold bind at 1. unfold rand_less_than. cbn [length Z.of_nat Pos.of_succ_nat Z.ltb Z.compare].
    unfold ret at 1. rewrite Z.mod_1_r. cbn [Z.to_nat insert_at]. unfold lift. cbn [omap].
    fold x. destruct (ser_plain (ct_exp x (r + 1))); reflexivity. }
  assert (FD : {finite x} + {~ finite x}).
  { unfold finite. destruct (geqb (ct_u x) gid) eqn:E1; [right; intros (N & _); apply N, geqb_spec; auto|].
    destruct (geqb (ct_e x) gid) eqn:E2; [right; intros (_ & N); apply N, geqb_spec; auto|].
    left. split; apply geqb_false; auto. }
  destruct FD as [F|F].
  - right.
    assert (SY : forall r, drawn (ord Gr - 1) r -> sees r = Some (gpow (gop (decrypt sk1 c) (ginv a)) (r + 1))).
    { intros r Hr. rewrite SX by auto. unfold drawn in Hr. assert (FE : finite (ct_exp x (r + 1))) by (apply finite_exp; [lia|auto]).
      unfold ser_plain. rewrite (ser_ct_ok _ FE). cbn [obind deser_cand_plain].
      rewrite (proj2 (deser_ct_iff _ _) (conj FE eq_refl)). rewrite decrypt_exp_ct, Dx. reflexivity. }
    split.
    + intros Q r Hr. rewrite SY by auto. rewrite Q, gop_inv_r, gpow_id. reflexivity.
    + intros Q. apply (each_once_ext _ (fun r => Some (gpow (gop (decrypt sk1 c) (ginv a)) (r + 1)))); [intros; symmetry; auto|].
      apply pow_each_once. intros Z. apply Q. apply (gop_cancel_l (ginv a)). rewrite gop_inv, gop_comm. auto.
  - left. intros r Hr. rewrite SX by auto. unfold drawn in Hr. unfold ser_plain. rewrite ser_ct_fail; [reflexivity|]. rewrite finite_exp by lia. auto.
Qed.

(** C63.  Party zero's answer to message I blinds all candidates with one and
    the same point: party one, decrypting them, gets that point from a candidate
    exactly if it is a match.  (So all matches of a day look alike to party one,
    at known positions: two of them give themselves away.) *)
Theorem C63_original_same_point :
  forall hash (H : Z -> Gr) pk0 sk1 (tr : tree (ct Gr)) es coins alpha css coins',
  og_answer_ii hash H pk0 (mkPk gen (gpow gen sk1)) tr es coins = Ok (OR_II alpha css, coins') ->
  exists point, point = H (coins O mod ord Gr) /\
  Forall2 (fun x ws => Forall2 (fun y w => exists c, deser_cand_plain w = Ok c /\
      (decrypt sk1 c = point <-> decrypt sk1 y = gpow gen x)) (get_path (hash x) tr) ws) es css.
Proof.
  intros hash H pk0 sk1 tr es tp alpha css tp' E. unfold og_answer_ii in E.
  pose proof (ord_pos (Gr := Gr)) as OP.
  apply bind_Ok in E as (r & t1 & E1 & E). unfold rand_less_than in E1. destruct (Z.ltb_spec 0 (ord Gr)); [|lia]. injection E1 as <- <-.
  apply bind_Ok in E as (a0 & t2 & _ & E). apply bind_Ok in E as (al & t3 & _ & E).
  apply bind_Ok in E as (a1 & t4 & E1 & E). apply encrypt_point_Ok in E1.
  apply bind_Ok in E as (css0 & t5 & E2 & E). apply bind_Ok in E as (ws & t6 & E3 & E).
  apply ret_Ok in E as (E & _). injection E as _ ->. apply lift_Ok in E3 as (E3 & _).
  exists (H (tp O mod ord Gr)). split; auto. set (pt := H (tp O mod ord Gr)) in *. clearbody pt.
  apply mapM_Ok in E2. apply omap_Ok_Forall2 in E3.
  clear - E1 E2 E3. revert ws E3. induction E2 as [|x cs es css0 E2 _ IH]; intros ws E3; inversion E3 as [|? w ? ws' E4 E5]; subst; constructor; auto.
  clear IH E3 E5. destruct E2 as (ta & tb & E2). unfold og_candidates in E2.
  apply bind_Ok in E2 as (cx & tc & EC & E2). apply encrypt_Ok in EC. apply mapM_Ok in E2. apply omap_Ok_Forall2 in E4.
  revert w E4. induction E2 as [|y c ys cs E2 _ IH]; intros w E4; inversion E4 as [|? v ? w' E5 E6]; subst; constructor; auto.
  clear IH E4 E6. destruct E2 as (td & te & E2). apply bind_Ok in E2 as (be & tf & EB & E2). apply ret_Ok in E2 as (E2 & _).
  apply gen_private_key_range in EB.
  exists c. split.
  { unfold ser_plain in E5. apply obind_Ok in E5 as (u & E5 & E6). injection E6 as <-. apply ser_ct_inv in E5 as (F & ->).
    cbn [deser_cand_plain]. apply deser_ct_iff. auto. }
  assert (DC : decrypt sk1 c = gop (decrypt sk1 a1) (gpow (gop (gpow gen x) (ginv (decrypt sk1 y))) be)).
  { rewrite E2, decrypt_mul, decrypt_exp_ct, decrypt_mul, decrypt_invert, EC. reflexivity. }
  rewrite DC. set (m := gop (gpow gen x) (ginv (decrypt sk1 y))). split.
  - intros Q. assert (M1 : gpow m be = gid). { apply (gop_cancel_l (decrypt sk1 a1)). rewrite gop_id_r. exact Q. }
    destruct (geqb m gid) eqn:EM.
    + apply geqb_spec in EM. unfold m in EM. apply (gop_cancel_l (ginv (decrypt sk1 y))). rewrite gop_inv, gop_comm. auto.
    + apply geqb_false in EM. apply gpow_id_iff in M1; auto. apply Z.divide_pos_le in M1; lia.
  - intros Q. unfold m. rewrite Q, gop_inv_r, gpow_id, gop_id_r. reflexivity.
Qed.
End Original.

(** ** Concrete cases *)
Definition ex11 : group := zmod_group 11 prime_11.
Definition ex_cipher (m : Z) : ct ex11 := mkCt (gpow gen 6) (gop (gpow gen m) (gpow (gpow gen 7) 6)).
Definition masks10 : list Z := map Z.of_nat (seq 0 10).
Definition plain_of (o : option ex11) : option Z := option_map (fun x : zp 11 => proj1_sig x) o.
(** secret keys 4 and 3: a match; a non-match with difference 5 *)
Example C63_example_match_bit :
  decrypt (4 + 3) (ex_cipher 0) = @gid ex11 /\ decrypt (4 + 3) (ex_cipher 5) <> @gid ex11 /\
  map (fun r => plain_of (seen 4 3 (ca_mask (ex_cipher 0, tt)) (fun _ => 8) r)) masks10 = repeat (Some 0) 10 /\
  map (fun r => plain_of (seen 4 3 (ca_mask (ex_cipher 5, tt)) (fun _ => 8) r)) masks10 =
    map Some [5; 10; 4; 9; 3; 8; 2; 7; 1; 6].
Proof.
  split; [apply geqb_spec; vm_compute; reflexivity|]. split; [apply geqb_false; vm_compute; reflexivity|]. split; vm_compute; reflexivity.
Qed.
(** with the element 2 as payload, 100 pairs of masks show 100 different pairs, never the element *)
Example C63_example_intersection :
  let shown := map (fun r => option_map (fun ab : zp 11 * zp 11 => (proj1_sig (fst ab), proj1_sig (snd ab)))
     (seen2 4 3 (psi_mask (ex_cipher 5, ex_cipher 2)) (fun _ => 8) r)) (list_prod masks10 masks10) in
  length (nodup (fun a b : option (Z * Z) => ltac:(repeat decide equality) : {a = b} + {a <> b}) shown) = 100%nat /\
  forallb (fun o => match o with Some (a, b) => negb (a =? 0) && negb (b =? 2) | None => false end) shown = true.
Proof. vm_compute. auto. Qed.
(** modulus 15: the other party's shares of 7 over all draws *)
Example C63_example_shares :
  match threshold_keygen 3 5 4 (const_tape 2), pub_new false 5 15 1 (const_tape 7) with
  | Ok ((n, k0, k1), _), Some (Ok (P0, _)) =>
    match pub_encrypt P0 7 (const_tape 2) with
    | Ok (cv, _) =>
      map (fun r => match ss_share n P0 k0 (ex_cipher 0, cv) (coin r (const_tape 2)) with
                    | Ok ((a, [b1; b2]), _) => match thr_decrypt n k1 (of_bytes b1) (of_bytes b2) with Ok b => Some (a, b) | _ => None end
                    | _ => None end) [0; 1; 7; 8; 14] = map Some [(15, 7); (14, 8); (8, 14); (7, 0); (1, 6)]
    | _ => False end
  | _, _ => False end.
Proof. vm_compute. reflexivity. Qed.
(** modulus 77, element 70, entry 10: the draws 70 to 76 show 10 to 16 *)
Example C63_example_equality :
  match demo_pub, demo_priv with
  | Some (Ok (P, _)), Ok V =>
    match pub_encrypt P 10 demo_tape, pub_encrypt P 3 demo_tape with
    | Ok (cy, _), Ok (cq, _) =>
      map (fun r => match combine_item P (70, 1) (cy, cq) (coin r demo_tape) with
                    | Ok ((_, _, msg), _) => match priv_decrypt V msg with Ok v => Some v | _ => None end | _ => None end) [0; 69; 70; 73; 76]
        = [None; None; Some 10; Some 13; Some 16] /\
      map (fun r => match gc_item (fun z => Ok [Z.odd z]) P V true (1, cq) 1 (coin 0 (coin r demo_tape)) with
                    | Ok ((b, s), _) => Some (b, s) | _ => None end) [0; 1; 3; 4; 76]
        = [None; Some (1, 2); Some (3, 0); Some (4, 76); Some (76, 4)]
    | _, _ => False end
  | _, _ => False end.
Proof. vm_compute. auto. Qed.
(** the original construction: elements 2 and 5 against a tree holding 5, 9 and
    2 (in one node): party one decrypts the blinding point 4 twice *)
Example C63_example_original :
  let enc m := mkCt (gpow gen 6) (gpow gen (m + 6 * 3)) in
  let tr := mkTree 4 1 0 1 [mkNode [enc 5; enc 9; enc 2] 4; mkNode [] 1] in
  match og_answer_ii (Gr := ex11) (fun _ => repeat false 256) (fun _ => gpow gen 4) (mkPk gen (gpow gen 4)) (mkPk gen (gpow gen 3)) tr [2; 5] (fun i => 1 + Z.of_nat i) with
  | Ok (OR_II _ css, _) => map (map (fun w => plain_of (match deser_cand_plain w with Ok c => Some (decrypt 3 c) | _ => None end))) css =
      [[Some 8; Some 10; Some 4]; [Some 4; Some 0; Some 10]]
  | _ => False end.
Proof. vm_compute. reflexivity. Qed.
Print Assumptions C63_match_bit.
Print Assumptions C63_intersection.
Print Assumptions C63_shares.
Print Assumptions C63_equality_mask.
Print Assumptions C63_product_shares.
Print Assumptions C63_original_mask.
Print Assumptions C63_original_same_point.
