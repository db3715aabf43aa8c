(** * C55: hashing to the curve yields curve points, deterministically, and
    point encodings are exact. *)
Require Import List Arith Lia ZArith Znumtheory Bool.
Import ListNotations.
From Verif Require Import Prelude BytesModel BytesProofs ContextModel ContextProofs NumTheory PaillierModel PaillierProofs Euler
  CurveModel CurveSpec CurveProofs.
Local Open Scope Z_scope.

(** [sha] is a digest of [hlen] bits *)
Definition digest (hlen : Z) (sha : bytes -> bytes) : Prop :=
  (hlen = 256 \/ hlen = 384 \/ hlen = 512) /\
  forall s, Z.of_nat (length (sha s)) * 8 = hlen /\ Forall is_byte (sha s).
(** fields for which the random oracle does not refuse its output length (any
    standard curve) *)
Definition moderate (p : Z) : Prop := 0 < p /\ Z.log2 p < 100000.

Lemma oracle_total hlen sha p : digest hlen sha -> moderate p ->
  exists H, forall s, random_oracle hlen sha s p = Ok (H s).
Proof.
  intros (Hl & Hs) (P0 & P1).
  assert (BL : 0 <= bit_length p <= 100000).
  { unfold bit_length. destruct (Z.eqb_spec p 0); [lia|]. rewrite Z.abs_eq by lia.
    pose proof (Z.log2_nonneg p). lia. }
  exists (fun s => match random_oracle hlen sha s p with Ok r => r | _ => 0 end).
  intros s. destruct (random_oracle_statement hlen sha s p Hl Hs P0) as (n & Bn & _ & E).
  { assert (hlen <= 512) by lia. change (2 ^ 24) with 16777216. lia. }
  destruct E as (r & -> & _); auto. destruct Hl as [ -> | [ -> | -> ] ]; lia.
Qed.

(** For every curve, message and digest: as long as the loop runs, no candidate
    tried so far is the abscissa of a point with y <> 0; when it returns, it
    returns the point on the first such candidate with the even y.  It never
    fails otherwise. *)
Theorem C55_hash_to_curve :
  forall root p a b g hlen sha m,
  finds_roots root -> ec_group_create p a b = Ok g -> digest hlen sha -> moderate p ->
  exists H, (forall s, random_oracle hlen sha s p = Ok (H s)) /\
  forall rounds,
    match hash_to_curve root hlen sha rounds g m with
    | Some (Ok P) => exists k x y, (k < rounds)%nat /\ P = Affine x y /\
        x = candidate H bn2bin m k /\
        (forall j, (j < k)%nat -> ~ usable p a b (candidate H bn2bin m j)) /\
        on_curve p a b x y /\ y <> 0 /\ Z.even y = true
    | None => forall j, (j < rounds)%nat -> ~ usable p a b (candidate H bn2bin m j)
    | _ => False
    end.
Proof.
  intros root p a b g hlen sha m HR Hg Hd Hm. destruct (oracle_total hlen sha p Hd Hm) as (H & HH).
  exists H. split; auto. intros rounds. pose proof (hash_to_curve_spec p a b g Hg root HR hlen sha H HH m rounds) as Sp.
  destruct (hash_to_curve root hlen sha rounds g m) as [[P|c| |]|]; auto.
  destruct Sp as (k & x & y & Hk & Ex & N & C & Ny & Ey & ->). exists k, x, y. tauto.
Qed.

(** Two messages whose hashes have the same encoding had a candidate in common:
    distinct final candidates give distinct strings. *)
Theorem C55_distinct :
  forall root p a b g hlen sha, finds_roots root -> ec_group_create p a b = Ok g -> digest hlen sha -> moderate p ->
  exists H, (forall s, random_oracle hlen sha s p = Ok (H s)) /\
  forall m m' r r' P P',
    hash_to_curve root hlen sha r g m = Some (Ok P) -> hash_to_curve root hlen sha r' g m' = Some (Ok P') ->
    to_compressed g P = to_compressed g P' ->
    P = P' /\ exists k k' y, P = Affine (candidate H bn2bin m k) y /\ P' = Affine (candidate H bn2bin m' k') y.
Proof.
  intros root p a b g hlen sha HR Hg Hd Hm. destruct (oracle_total hlen sha p Hd Hm) as (H & HH).
  exists H. split; auto. intros m m' r r' P P' E E' EC.
  pose proof (hash_to_curve_spec p a b g Hg root HR hlen sha H HH m r) as Sp.
  pose proof (hash_to_curve_spec p a b g Hg root HR hlen sha H HH m' r') as Sp'. rewrite E in Sp. rewrite E' in Sp'.
  destruct Sp as (k & x & y & _ & Ex & _ & C & _ & _ & ->). destruct Sp' as (k' & x' & y' & _ & Ex' & _ & C' & _ & _ & ->).
  cbn [to_compressed] in EC.
  pose proof (decode_compressed p a b g Hg root HR x y C) as D1. pose proof (decode_compressed p a b g Hg root HR x' y' C') as D2.
  apply Ok_inj in EC. rewrite EC, D2 in D1. apply Ok_inj in D1. inversion D1 as [ [X1 X2] ]. clear D1. split; [congruence|].
  exists k, k', y. rewrite <- Ex, <- Ex'. split; congruence.
Qed.

(** A known limit of the construction: whenever the first candidate of a message
    is not usable, the message that consists of the bytes of that candidate hashes
    to the same point (so the map has collisions even for an ideal digest). *)
Theorem C55_related_messages :
  forall root p a b g hlen sha m rounds, finds_roots root -> ec_group_create p a b = Ok g -> digest hlen sha -> moderate p ->
  exists x, random_oracle hlen sha m p = Ok x /\ 0 <= x < p /\
  (~ usable p a b x ->
   hash_to_curve root hlen sha (S rounds) g m = hash_to_curve root hlen sha rounds g (bn2bin x)).
Proof.
  intros root p a b g hlen sha m rounds HR Hg Hd Hm. destruct (oracle_total hlen sha p Hd Hm) as (H & HH).
  exists (H m). split; auto. pose proof (H_range p a b g Hg hlen sha H HH m) as B. split; auto. intros NU.
  destruct (group_facts p a b g Hg) as (_ & _ & Eg). assert (Ep : eg_p g = p) by (rewrite Eg; auto).
  unfold hash_to_curve. rewrite Ep, !HH. cbn [hash_loop].
  pose proof (hash_internal_spec p a b g Hg root HR (H m) B) as Sp. destruct (hash_internal root g (H m)) as [P|c| |]; try contradiction.
  - destruct Sp as (y & C & Ny & _). exfalso. apply NU. exists y. auto.
  - unfold to_bytes. destruct (Z.ltb_spec (H m) 0); [lia|]. cbn [obind]. rewrite Ep, HH. reflexivity.
Qed.

(** Every point of the curve other than infinity survives both encodings; a byte
    string decodes only to a point of the curve and only if it is one of that
    point's two encodings; infinity cannot be encoded. *)
Theorem C55_encodings :
  forall root p a b g, finds_roots root -> ec_group_create p a b = Ok g ->
  (forall x y, on_curve p a b x y ->
     exists c u, to_compressed g (Affine x y) = Ok c /\ to_uncompressed g (Affine x y) = Ok u /\
       length c = S (length (bn2bin p)) /\ length u = S (2 * length (bn2bin p)) /\
       create_point_bytes root g c = Ok (Affine x y) /\ create_point_bytes root g u = Ok (Affine x y) /\
       is_curve_point root g c = true /\ is_curve_point root g u = true) /\
  (forall s P, Forall is_byte s -> create_point_bytes root g s = Ok P ->
     exists x y, P = Affine x y /\ on_curve p a b x y /\ (to_compressed g P = Ok s \/ to_uncompressed g P = Ok s)) /\
  (forall s, Forall is_byte s ->
     (is_curve_point root g s = true <->
      exists x y, on_curve p a b x y /\ (to_compressed g (Affine x y) = Ok s \/ to_uncompressed g (Affine x y) = Ok s))) /\
  to_compressed g Infinity = Err Internal /\ to_uncompressed g Infinity = Err Internal.
Proof.
  intros root p a b g HR Hg. destruct (group_facts p a b g Hg) as (_ & _ & Eg).
  assert (FL : field_len g = length (bn2bin p)) by (rewrite Eg; reflexivity).
  assert (RT : forall x y, on_curve p a b x y ->
     exists c u, to_compressed g (Affine x y) = Ok c /\ to_uncompressed g (Affine x y) = Ok u /\
       length c = S (length (bn2bin p)) /\ length u = S (2 * length (bn2bin p)) /\
       create_point_bytes root g c = Ok (Affine x y) /\ create_point_bytes root g u = Ok (Affine x y) /\
       is_curve_point root g c = true /\ is_curve_point root g u = true).
  { intros x y C. pose proof (decode_compressed p a b g Hg root HR x y C) as D1.
    pose proof (decode_uncompressed p a b g Hg root x y C) as D2. pose proof C as (Bx & By & _).
    destruct (coordinate p a b g Hg x Bx) as (Lx & _), (coordinate p a b g Hg y By) as (Ly & _).
    eexists. eexists. split; [reflexivity|]. split; [reflexivity|]. cbn [length]. rewrite app_length, Lx, Ly, FL in *.
    split; [lia|]. split; [lia|]. split; [exact D1|]. split; [exact D2|]. unfold is_curve_point. rewrite D1, D2. auto. }
  split; [exact RT|]. split.
  { intros s P Bs E. eapply decoded_on_curve; eauto. }
  split; [|split; reflexivity].
  intros s Bs. split.
  - unfold is_curve_point. destruct (create_point_bytes root g s) as [P|c| |] eqn:E; try discriminate. intros _.
    destruct (decoded_on_curve p a b g Hg root HR s P Bs E) as (x & y & -> & C & D). exists x, y. auto.
  - intros (x & y & C & D). destruct (RT x y C) as (c & u & E1 & E2 & _ & _ & _ & _ & I1 & I2).
    destruct D as [D|D]; [rewrite E1 in D|rewrite E2 in D]; apply Ok_inj in D; subst; auto.
Qed.

(** The point utility and the commutative cipher agree on the hash types both
    support, the point utility refuses the others, and every string it returns is
    accepted as a curve point and starts with the byte 2. *)
Theorem C55_point_util :
  forall root p a b g D sswu rounds input,
  finds_roots root -> ec_group_create p a b = Ok g -> moderate p -> digest 256 (d256 D) -> digest 512 (d512 D) ->
  (forall t, t = 0 \/ t = 2 ->
     util_hash_to_curve root D rounds g input t = cipher_hash_to_curve root D sswu rounds g input t) /\
  (forall t, t <> 0 -> t <> 2 -> util_hash_to_curve root D rounds g input t = Some (Err InvalidArgument)) /\
  (forall t, match util_hash_to_curve root D rounds g input t with
     | Some (Ok s) => is_curve_point root g s = true /\ hd 0 s = 2 /\ length s = S (length (bn2bin p))
     | Some (Err e) => e = InvalidArgument /\ t <> 0 /\ t <> 2
     | Some _ => False
     | None => True
     end).
Proof.
  intros root p a b g D sswu rounds input HR Hg Hm D2 D5. split; [|split].
  - intros t [-> | ->]; reflexivity.
  - intros t N0 N2. unfold util_hash_to_curve. destruct (Z.eqb_spec t 2), (Z.eqb_spec t 0); auto; contradiction.
  - assert (G : forall hlen sha, digest hlen sha ->
      match compress_hash g (hash_to_curve root hlen sha rounds g input) with
      | Some (Ok s) => is_curve_point root g s = true /\ hd 0 s = 2 /\ length s = S (length (bn2bin p))
      | None => True | _ => False end).
    { intros hlen sha Hd. destruct (C55_hash_to_curve root p a b g hlen sha input HR Hg Hd Hm) as (H & _ & Sp).
      specialize (Sp rounds). unfold compress_hash. destruct (hash_to_curve root hlen sha rounds g input) as [[P|c| |]|]; auto.
      destruct Sp as (k & x & y & _ & -> & _ & _ & C & Ny & Ey). cbn [obind to_compressed].
      destruct (C55_encodings root p a b g HR Hg) as (RT & _). destruct (RT x y C) as (c & u & E1 & _ & L & _ & _ & _ & I & _).
      cbn [to_compressed] in E1. apply Ok_inj in E1. rewrite E1. split; auto. split; auto. rewrite <- E1. cbn [hd].
      rewrite Zmod_odd, <- Z.negb_even, Ey. reflexivity. }
    intros t. unfold util_hash_to_curve. destruct (Z.eqb_spec t 2) as [T2|T2]; [|destruct (Z.eqb_spec t 0) as [T0|T0]].
    + specialize (G _ _ D5). destruct (compress_hash g _) as [[s|e| |]|]; auto; contradiction.
    + specialize (G _ _ D2). destruct (compress_hash g _) as [[s|e| |]|]; auto; contradiction.
    + auto.
Qed.

(** What counts as a point: an affine pair with reduced coordinates is accepted
    exactly when it satisfies the equation of the curve, the point at infinity
    never is; and the negative of a residue is the residue that cancels it. *)
Theorem C55_points :
  forall p a b g, ec_group_create p a b = Ok g ->
  is_valid g Infinity = false /\
  (forall x y, 0 <= x < p -> 0 <= y < p -> (is_valid g (Affine x y) = true <-> on_curve p a b x y)) /\
  (forall x y, on_curve p a b x y -> create_point_xy g x y = Ok (Affine x y)) /\
  (forall x y P, create_point_xy g x y = Ok P -> on_curve p a b x y /\ P = Affine x y) /\
  (forall r, 0 <= r < p -> 0 <= mod_negate r p < p /\ (p | r + mod_negate r p)).
Proof.
  intros p a b g Hg. pose proof (on_curve_iff p a b g Hg) as OC.
  assert (V : forall x y, is_valid g (Affine x y) = is_on_curve g (Affine x y)).
  { intros x y. unfold is_valid. cbn [is_at_infinity]. rewrite orb_false_r. destruct (is_on_curve g (Affine x y)); reflexivity. }
  assert (EP : eg_p g = p). { unfold ec_group_create in Hg. destruct (prime_b p); [|discriminate]. unfold bn_div in Hg. cbn in Hg.
    destruct (Z.rem (p - 1) 2 =? 0); cbn in Hg; inversion Hg; reflexivity. }
  split; [reflexivity|]. split.
  { intros x y Hx Hy. rewrite V. rewrite OC. tauto. }
  split.
  { intros x y C. apply OC in C as (Hx & Hy & C). unfold create_point_xy, affine_point. rewrite EP, C.
    destruct (Z.leb_spec 0 x), (Z.leb_spec 0 y); try lia. destruct (Z.ltb_spec x p), (Z.ltb_spec y p); try lia.
    cbn [andb obind]. rewrite V, C. reflexivity. }
  split.
  { intros x y P. unfold create_point_xy, affine_point. rewrite EP.
    destruct (Z.leb_spec 0 x), (Z.leb_spec 0 y), (Z.ltb_spec x p), (Z.ltb_spec y p); cbn [andb obind]; try discriminate.
    destruct (is_on_curve g (Affine x y)) eqn:C; cbn [obind]; [|discriminate]. rewrite V, C. cbn [negb].
    intros X. inversion X. split; auto. apply OC. auto. }
  intros r Hr. unfold mod_negate. destruct (Z.eqb_spec r 0) as [ -> | N].
  - split; [lia|]. exists 0. lia.
  - rewrite Z.mod_small by lia. split; [lia|]. exists 1. lia.
Qed.


(** ** a concrete curve: y^2 = x^3 - 3 x + 5 over the integers modulo 103 *)
Definition ex_root (a p : Z) : option Z :=
  find (fun r => (r * r - a) mod p =? 0) (map Z.of_nat (seq 0 (Z.to_nat p))).
Lemma ex_root_finds : finds_roots ex_root.
Proof.
  intros p a Hp Ba. assert (P1 : 1 < p) by (destruct Hp; auto). unfold ex_root.
  destruct (find _ _) as [r|] eqn:E.
  - apply find_some in E as (I & E). apply in_map_iff in I as (k & <- & I). apply in_seq in I.
    split; [lia|]. apply Z.eqb_eq in E. apply Z.mod_divide in E; auto. lia.
  - intros r Dr. assert (I : In (r mod p) (map Z.of_nat (seq 0 (Z.to_nat p)))).
    { pose proof (Z.mod_pos_bound r p). apply in_map_iff. exists (Z.to_nat (r mod p)). split; [lia|]. apply in_seq. lia. }
    apply (find_none _ _ E) in I. apply Z.eqb_neq in I. apply I. apply Z.mod_divide; [lia|].
    assert (eqm p (r mod p * (r mod p)) (r * r)) by (apply eqm_mul; apply eqm_mod; lia).
    replace (r mod p * (r mod p) - a) with ((r mod p * (r mod p) - r * r) + (r * r - a)) by ring. apply Z.divide_add_r; auto.
Qed.
Definition ex_sha (s : bytes) : bytes := repeat ((7 * of_bytes s + 1) mod 251) 32.
Lemma ex_digest : digest 256 ex_sha.
Proof.
  split; auto. intros s. unfold ex_sha. rewrite repeat_length. split; [reflexivity|].
  apply Forall_forall. intros x Hx. apply repeat_spec in Hx. subst. unfold is_byte.
  pose proof (Z.mod_pos_bound (7 * of_bytes s + 1) 251). lia.
Qed.
Definition ex_group : ec_group := mkEcGroup 103 (-3) 5 51.
Example C55_example_group : ec_group_create 103 (-3) 5 = Ok ex_group.
Proof. vm_compute. reflexivity. Qed.
(** the message [2] needs a second candidate, [3] a third *)
Example C55_example_runs :
  hash_to_curve ex_root 256 ex_sha 3 ex_group [1] = Some (Ok (Affine 21 6)) /\
  hash_to_curve ex_root 256 ex_sha 1 ex_group [2] = None /\
  hash_to_curve ex_root 256 ex_sha 2 ex_group [2] = Some (Ok (Affine 20 80)) /\
  hash_to_curve ex_root 256 ex_sha 3 ex_group [3] = Some (Ok (Affine 67 42)).
Proof. vm_compute. auto. Qed.
Example C55_example_encodings :
  to_compressed ex_group (Affine 20 80) = Ok [2; 20] /\ to_compressed ex_group (Affine 20 23) = Ok [3; 20] /\
  to_uncompressed ex_group (Affine 20 80) = Ok [4; 20; 80] /\
  create_point_bytes ex_root ex_group [3; 20] = Ok (Affine 20 23) /\
  is_curve_point ex_root ex_group [2; 104] = false /\ is_curve_point ex_root ex_group [2; 0; 20] = false /\
  is_curve_point ex_root ex_group [4; 20; 81] = false.
Proof. vm_compute. repeat split. Qed.
Example C55_example_points :
  is_valid ex_group (Affine 20 80) = true /\ is_valid ex_group (Affine 20 81) = false /\ is_valid ex_group Infinity = false /\
  mod_negate 80 103 = 23 /\ mod_negate 0 103 = 0.
Proof. vm_compute. repeat split. Qed.
Example C55_example_applies :
  finds_roots ex_root /\ ec_group_create 103 (-3) 5 = Ok ex_group /\ digest 256 ex_sha /\ moderate 103 /\
  on_curve 103 (-3) 5 20 80 /\ usable 103 (-3) 5 20.
Proof.
  split; [exact ex_root_finds|]. split; [exact C55_example_group|]. split; [exact ex_digest|]. split; [split; vm_compute; reflexivity|].
  assert (C : on_curve 103 (-3) 5 20 80). { split; [lia|]. split; [lia|]. exists (-15). vm_compute. reflexivity. }
  split; auto. exists 80. split; [lia|auto].
Qed.
