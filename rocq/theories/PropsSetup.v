(** * C49, C50: trees prepared by the setup program.

    Program: SetupModel.v.  Both theorems are for every group of prime order at
    least 2 * 10^15, every hash with 256 bits, all key shares, all coins, all
    tree sizes and all data. *)
Require Import String.
Require Import List Arith Lia ZArith Permutation Bool Znumtheory.
Import ListNotations.
From Verif Require Import Prelude TreeModel TreeSpec TreeHistory Coins Group ElGamalModel ElGamalProofs BytesModel CipherModel PaillierModel PaillierProofs PropsPaillier WireModel PropsWire SyncModel SyncSpec PropsSync FlagModel AddModel AddSpec AddProofs AddRun AddStart PropsAdd BigPrime SetupModel SetupProofs DataProofs.
Local Open Scope Z_scope.

(** ** Specification *)
Section Spec.
Context {A C : Type}.
(** [my] is a party's own tree holding [data] and [other] the encrypted copy the
    other party has: sizes as configured, everything counted, nothing foreign,
    nothing missing unless the stash overflowed, every entry found by looking up
    its element; and the copy encrypts it node by node. *)
Definition start_pair (stash node : nat) (hash : Z -> list bool) (key : A -> Z) (Rep : A -> C -> Prop) (is_pad : A -> Prop)
    (my : tree A) (other : tree C) (data : list A) : Prop :=
  t_stash_size my = stash /\ t_node_size my = node /\ t_actual my = length data
  /\ (exists lost, Permutation (contents my ++ lost) data /\ (no_overflow my -> lost = []))
  /\ (forall x, In x (contents my) -> In x (get_path (hash (key x)) my))
  /\ mirrors Rep is_pad my other.
End Spec.
Definition int32 (n : nat) : Prop := Z.of_nat n < 2 ^ 31.
(** the initial sets: no duplicates, elements below the padding range, values
    not negative, fewer than 2^30 *)
Definition start_data (start0 : list (Z * Z)) (start1 : list Z) : Prop :=
  proper fst [start0] /\ proper (fun x => x) [start1] /\ Forall (fun a => 0 <= snd a) start0.
(** the Paillier key the setup program read (only used for secret shares) *)
Definition paillier_ready (func : functionality) (n : Z) (pai0 : pub) : Prop :=
  func = SS -> 1 < n /\ thr_object n pai0.

Section Facts.
Context {Gr : group}.
Lemma side_pair {A C} stash node (hash : Z -> list bool) (key : A -> Z) (Rep : A -> C -> Prop) is_pad my other data :
  (forall x, length (hash x) = 256%nat) -> int_range (length data) ->
  t_stash_size my = stash -> t_node_size my = node -> side (fun a => hash (key a)) my data -> mirrors Rep is_pad my other ->
  start_pair stash node hash key Rep is_pad my other data.
Proof.
  intros HH IR E1 E2 SD MI. pose proof (side_lost _ _ _ SD) as LO. destruct SD as (R & _).
  split; [auto|]. split; [auto|]. split; [apply (r_actual _ _ _ R)|]. split; [exact LO|]. split; [|exact MI].
  intros x Hx.
  pose proof (placed_filter_path (fun a => hash (key a)) (fun y => key y =? key x) (hash (key x)) my) as P.
  assert (Q : In x (filter (fun y => key y =? key x) (get_path (hash (key x)) my))).
  { eapply Permutation_in; [symmetry; apply P|].
    - apply (r_wf _ _ _ R).
    - intros y. pose proof (depth_bound _ _ (r_min _ _ _ R) IR). rewrite HH. lia.
    - intros y Hy. apply Z.eqb_eq in Hy. congruence.
    - apply filter_In. split; auto. apply Z.eqb_refl. }
  apply filter_In in Q. tauto.
Qed.
End Facts.

Section Start.
Lemma start_ok_fst (start0 : list (Z * Z)) (start1 : list Z) d0 d1 : proper fst (start0 :: d0) -> proper (fun x => x) (start1 :: d1) -> Forall (fun a => 0 <= snd a) start0 ->
  int_range (length start0) /\ int_range (length start1) /\ Forall (fun a => 0 <= fst a /\ 0 <= snd a) start0 /\ Forall (fun x => 0 <= x) start1.
Proof.
  intros (_ & E0 & R0) (_ & E1 & R1) V0. cbn [concat] in *. unfold int_range in *. rewrite !app_length in *. apply Forall_app in E0 as (E0 & _). apply Forall_app in E1 as (E1 & _).
  split; [lia|]. split; [lia|]. split.
  - rewrite Forall_forall in *. intros a Ha. split; [apply E0|apply V0]; auto.
  - eapply Forall_impl; [|exact E1]. intros x Hx. apply Hx.
Qed.
Lemma start_ok (start0 : list (Z * Z)) (start1 : list Z) d0 d1 : proper (fun x => x) (map fst start0 :: d0) -> proper (fun x => x) (start1 :: d1) -> Forall (fun a => 0 <= snd a) start0 ->
  int_range (length start0) /\ int_range (length start1) /\ Forall (fun a => 0 <= fst a /\ 0 <= snd a) start0 /\ Forall (fun x => 0 <= x) start1.
Proof.
  intros (N0 & E0 & R0). apply (start_ok_fst start0 start1 (map (map (fun x => (x, 0))) d0) d1). cbn [concat] in *.
  unfold proper. cbn [concat]. rewrite <- concat_map, map_app, map_map. cbn [fst]. rewrite !map_id in *.
  split; [exact N0|]. rewrite !app_length, !map_length in *. split; [|exact R0].
  apply Forall_app in E0 as (E0 & E1). apply Forall_app. split.
  - rewrite Forall_forall in *. intros a Ha. apply E0. apply in_map. auto.
  - apply Forall_map. exact E1.
Qed.
End Start.

Section Statements.
Variables (Gr : group) (hash : Z -> list bool) (pk : pubkey Gr) (sk0 sk1 : Z).
Variables (csize : client_msg Gr -> Z) (ssize : server_msg Gr -> Z).
Variables (n : Z) (pai0 pai1 : pub) (psk0 psk1 : Z).
(** what an entry of an encrypted tree stands for: decrypting with both shares
    gives g^element, and the payload decrypts to the value *)
Definition enc_of (a : Z) (c : ct Gr) : Prop := decrypt (sk0 + sk1) c = gpow gen a.
Definition enc_with_value (a : Z * Z) (c : ct Gr * ct Gr) : Prop := enc_of (fst a) (fst c) /\ enc_of (snd a) (snd c).
Definition enc_with_paillier (a : Z * Z) (c : ct Gr * Z) : Prop := enc_of (fst a) (fst c) /\ 0 <= snd a < n /\ ct_of n (snd a) (snd c).

Definition plain_pair s nd := start_pair s nd hash (fun x : Z => x) enc_of pad_elem.
Definition value_pair s nd := start_pair s nd hash (@fst Z Z) enc_with_value pad_entry.
Definition paillier_pair s nd := start_pair s nd hash (@fst Z Z) enc_with_paillier pad_entry.

(** C49.  Whatever [func] the trees were prepared for, the setup program ends
    normally (or with an error status), and the trees the parties load from its
    files are the initial sets and their encryptions: party zero's tree at party
    zero is party zero's set, and party one's copy of it encrypts it, and vice
    versa.  CA and PSI can load either kind; SUM needs trees prepared for
    another functionality than SS, SS needs trees prepared for SS. *)
Theorem C49_prepared_trees : forall stash node func start0 start1 coins,
  setting Gr hash pk sk0 sk1 -> int32 stash -> int32 node -> start_data start0 start1 -> paillier_ready func n pai0 ->
  ends_well (fun '(d, _) =>
    (exists my0 other0 my1 other1,
       import_zero_no_payload d = Ok (my0, other0) /\ import_one_no_payload d = Ok (my1, other1)
       /\ plain_pair stash node my0 other1 (map fst start0) /\ plain_pair stash node my1 other0 start1)
    /\ (func <> SS -> exists my0 other0 my1 other1,
       import_zero_payload d = Ok (my0, other0) /\ import_one_sum d = Ok (my1, other1)
       /\ value_pair stash node my0 other1 start0 /\ plain_pair stash node my1 other0 start1)
    /\ (func = SS -> exists my0 other0 my1 other1,
       import_zero_payload d = Ok (my0, other0) /\ import_one_ss d = Ok (my1, other1)
       /\ paillier_pair stash node my0 other1 start0 /\ plain_pair stash node my1 other0 start1))
    (setup_trees stash node hash pk func pai0 start0 start1 coins).
Proof.
  intros stash node func start0 start1 tp (HH & BG & EP) IS IN ((N0 & E0 & R0) & (N1 & E1 & R1) & V0) PR. apply pk_shares in EP. subst pk.
  cbn [concat] in *. rewrite app_nil_r in *.
  assert (G0 : Forall (fun a => 0 <= fst a /\ 0 <= snd a) start0).
  { rewrite Forall_forall in *. intros a Ha. split; [apply E0|apply V0]; auto. }
  assert (G1 : Forall (fun x => 0 <= x) start1). { eapply Forall_impl; [|exact E1]. intros x Hx. apply Hx. }
  pose proof (@setup_written Gr stash node IS IN hash HH sk0 sk1 n pai0 func start0 start1 PR R0 R1 G0 G1 tp) as W.
  destruct (setup_trees stash node hash (key_of (sk0 + sk1)) func pai0 start0 start1 tp) as [[d tp']| | |]; auto. cbn [ends_well].
  assert (R0' : int_range (length (map fst start0))) by (rewrite map_length; auto).
  split; [|split].
  - destruct (load_plain stash node hash sk0 sk1 n pai0 func start0 start1 PR d W) as (my0 & other0 & my1 & other1 & L0 & L1 & (Z1 & Z2) & (Z3 & Z4) & [A0 A1 A2 A3]).
    exists my0, other0, my1, other1. split; [auto|]. split; [auto|]. split; apply side_pair; auto.
  - intros NE. destruct (load_value stash node hash sk0 sk1 n func start0 start1 d W NE) as (my0 & other0 & my1 & other1 & L0 & L1 & (Z1 & Z2) & (Z3 & Z4) & [A0 A1 A2 A3]).
    exists my0, other0, my1, other1. split; [auto|]. split; [auto|]. split; apply side_pair; auto.
  - intros NE. destruct (load_paillier stash node hash sk0 sk1 n func start0 start1 d W NE) as (my0 & other0 & my1 & other1 & L0 & L1 & (Z1 & Z2) & (Z3 & Z4) & [A0 A1 A2 A3]).
    exists my0, other0, my1, other1. split; [auto|]. split; [auto|]. split; apply side_pair; auto.
Qed.

(** C49.  Trees prepared for the wrong functionality are refused when party one
    starts (an exception ends the process): the payloads are of the wrong kind.
    Only an empty tree gets through. *)
Theorem C49_wrong_kind : forall stash node func start0 start1 coins d coins' my0 other0,
  setting Gr hash pk sk0 sk1 -> int32 stash -> int32 node -> start_data start0 start1 -> paillier_ready func n pai0 ->
  setup_trees stash node hash pk func pai0 start0 start1 coins = Ok (d, coins') ->
  import_zero_payload d = Ok (my0, other0) -> contents my0 <> [] ->
  (func <> SS -> import_one_ss d = Abort) /\ (func = SS -> import_one_sum d = Abort).
Proof.
  intros stash node func start0 start1 tp d tp' my0 other0 (HH & BG & EP) IS IN ((N0 & E0 & R0) & (N1 & E1 & R1) & V0) PR ES EI NE. apply pk_shares in EP. subst pk.
  cbn [concat] in *. rewrite app_nil_r in *.
  assert (G0 : Forall (fun a => 0 <= fst a /\ 0 <= snd a) start0).
  { rewrite Forall_forall in *. intros a Ha. split; [apply E0|apply V0]; auto. }
  assert (G1 : Forall (fun x => 0 <= x) start1). { eapply Forall_impl; [|exact E1]. intros x Hx. apply Hx. }
  pose proof (@setup_written Gr stash node IS IN hash HH sk0 sk1 n pai0 func start0 start1 PR R0 R1 G0 G1 tp) as W. rewrite ES in W.
  destruct W as ((pt1 & et1 & D1 & D1' & _) & W1 & W2). cbn [fst snd] in *.
  unfold import_zero_payload, import_trees in EI. split; intros Q.
  - destruct (W1 Q) as (pt0 & et0 & D0 & D0' & _ & _ & _ & M0). cbn [fst snd] in *. rewrite D0, D1' in EI. inversion EI; subst my0 other0.
    unfold import_one_ss, import_trees. rewrite D1.
    assert (X : is_ok (tree_deserialize (deser_node deser_paillier) (p1_encrypted d)) = false).
    { eapply wrong_kind; [|exact D0'|eapply mirrors_nonempty; eauto]. intros w c. destruct w; cbn; try discriminate; auto. }
    destruct (tree_deserialize (deser_node deser_paillier) (p1_encrypted d)); auto. discriminate.
  - destruct (W2 Q) as (pt0 & et0 & D0 & D0' & _ & _ & _ & M0). cbn [fst snd] in *. rewrite D0, D1' in EI. inversion EI; subst my0 other0.
    unfold import_one_sum, import_trees. rewrite D1.
    assert (X : is_ok (tree_deserialize (deser_node deser_elgamal) (p1_encrypted d)) = false).
    { eapply wrong_kind; [|exact D0'|eapply mirrors_nonempty; eauto]. intros w c. destruct w; cbn; try discriminate; auto. }
    destruct (tree_deserialize (deser_node deser_elgamal) (p1_encrypted d)); auto. discriminate.
Qed.

(** C50.  The whole deployment: setup, both parties load the trees, and the
    protocol runs for [k] days.  Only what joined the intersection after the
    initial sets is reported. *)
Theorem C50_cardinality : forall stash node func start0 start1 d0 d1 k coins,
  setting Gr hash pk sk0 sk1 -> int32 stash -> int32 node -> Forall (fun a => 0 <= snd a) start0 -> paillier_ready func n pai0 ->
  length d1 = length d0 -> proper (fun x => x) (map fst start0 :: d0) -> proper (fun x => x) (start1 :: d1) ->
  ends_well (fun '((c, s), _) =>
      cl_day c = min k (length d0) /\ sv_day s = min k (length d0) /\
      exists found, partly (common (fun x => x) (map fst start0 ++ upto (cl_day c) d0) (start1 ++ upto (cl_day c) d1))
                           (common (fun x => x) (map fst start0) start1 ++ found) (no_loss (cl_my c) (sv_my s))
                    /\ cl_out c = Z.of_nat (length found))
    (ca_prepared hash pk sk0 sk1 csize ssize pai0 stash node func start0 start1 d0 d1 k coins).
Proof.
  intros stash node func start0 start1 d0 d1 k tp (HH & BG & EP) IS IN V0 PR L P0 P1. apply pk_shares in EP. subst pk.
  destruct (start_ok start0 start1 d0 d1 P0 P1 V0) as (R0 & R1 & G0 & G1).
  pose proof (@setup_written Gr stash node IS IN hash HH sk0 sk1 n pai0 func start0 start1 PR R0 R1 G0 G1 tp) as W.
  unfold ca_prepared, prepared. unfold bind at 1.
  destruct (setup_trees stash node hash (key_of (sk0 + sk1)) func pai0 start0 start1 tp) as [[d tp']| | |]; auto.
  destruct (load_plain stash node hash sk0 sk1 n pai0 func start0 start1 PR d W) as (my0 & other0 & my1 & other1 & L0 & L1 & _ & _ & AG).
  unfold bind. rewrite L1, L0. unfold lift.
  exact (ca_start Gr hash sk0 sk1 csize ssize HH BG my0 other0 my1 other1 (repeat 0 (length d0)) (map fst start0) start1 d0 d1 k tp' AG L P0 P1).
Qed.
(** without losses: the common elements of everything minus those of the start *)
Corollary C50_exact : forall stash node func start0 start1 d0 d1 k coins c s coins',
  setting Gr hash pk sk0 sk1 -> int32 stash -> int32 node -> Forall (fun a => 0 <= snd a) start0 -> paillier_ready func n pai0 ->
  length d1 = length d0 -> proper (fun x => x) (map fst start0 :: d0) -> proper (fun x => x) (start1 :: d1) ->
  ca_prepared hash pk sk0 sk1 csize ssize pai0 stash node func start0 start1 d0 d1 k coins = Ok ((c, s), coins') ->
  no_loss (cl_my c) (sv_my s) ->
  cl_out c = Z.of_nat (length (common (fun x => x) (map fst start0 ++ upto (min k (length d0)) d0) (start1 ++ upto (min k (length d0)) d1)))
             - Z.of_nat (length (common (fun x => x) (map fst start0) start1)).
Proof.
  intros stash node func start0 start1 d0 d1 k tp c s tp' ST IS IN V0 PR L P0 P1 R NL.
  pose proof (C50_cardinality stash node func start0 start1 d0 d1 k tp ST IS IN V0 PR L P0 P1) as X. rewrite R in X. cbn [ends_well] in X.
  destruct X as (DA & _ & found & (mi & PM & M) & O). rewrite (M NL), app_nil_r in PM. rewrite O, <- DA. apply Permutation_length in PM. rewrite app_length in PM. lia.
Qed.

(** PSI: the same, except that an element party zero had from the start appears
    as the empty string when party one gets it later *)
Theorem C50_intersection : forall dec_string stash node func start0 start1 d0 d1 k coins,
  setting Gr hash pk sk0 sk1 -> int32 stash -> int32 node -> Forall (fun a => 0 <= snd a) start0 -> paillier_ready func n pai0 ->
  length d1 = length d0 -> proper (fun x => x) (map fst start0 :: d0) -> proper (fun x => x) (start1 :: d1) ->
  ends_well (fun '((c, s), _) =>
      cl_day c = min k (length d0) /\ sv_day s = min k (length d0) /\
      exists found, partly (common (fun x => x) (map fst start0 ++ upto (cl_day c) d0) (start1 ++ upto (cl_day c) d1))
                           (common (fun x => x) (map fst start0) start1 ++ found) (no_loss (cl_my c) (sv_my s))
                    /\ snd (cl_out c) = map (fun x => if mem x (map fst start0) then EmptyString else dec_string x) found)
    (psi_prepared hash pk sk0 sk1 csize ssize pai0 stash node func start0 start1 dec_string d0 d1 k coins).
Proof.
  intros dec_string stash node func start0 start1 d0 d1 k tp (HH & BG & EP) IS IN V0 PR L P0 P1. apply pk_shares in EP. subst pk.
  destruct (start_ok start0 start1 d0 d1 P0 P1 V0) as (R0 & R1 & G0 & G1).
  pose proof (@setup_written Gr stash node IS IN hash HH sk0 sk1 n pai0 func start0 start1 PR R0 R1 G0 G1 tp) as W.
  unfold psi_prepared, prepared. unfold bind at 1.
  destruct (setup_trees stash node hash (key_of (sk0 + sk1)) func pai0 start0 start1 tp) as [[d tp']| | |]; auto.
  destruct (load_plain stash node hash sk0 sk1 n pai0 func start0 start1 PR d W) as (my0 & other0 & my1 & other1 & L0 & L1 & _ & _ & AG).
  unfold bind. rewrite L1, L0. unfold lift.
  exact (psi_start Gr hash sk0 sk1 csize ssize HH BG dec_string my0 other0 my1 other1 (repeat 0 (length d0)) (map fst start0) start1 d0 d1 k tp' AG L P0 P1).
Qed.

(** SUM: count and sum of the values of what joined *)
Theorem C50_sum : forall stash node func start0 start1 d0 d1 k coins,
  setting Gr hash pk sk0 sk1 -> int32 stash -> int32 node -> func <> SS ->
  length d1 = length d0 -> proper fst (start0 :: d0) -> proper (fun x => x) (start1 :: d1) ->
  Forall (fun a => 0 <= snd a) (start0 ++ concat d0) -> total (map snd (start0 ++ concat d0)) < ord Gr -> Z.of_nat (length d0) < 2 ^ 31 ->
  ends_well (fun '((c, s), _) =>
      cl_day c = min k (length d0) /\ sv_day s = min k (length d0) /\
      exists found, partly (common fst (start0 ++ upto (cl_day c) d0) (start1 ++ upto (cl_day c) d1))
                           (common fst start0 start1 ++ found) (no_loss (cl_my c) (sv_my s))
                    /\ fst (cl_out c) = Z.of_nat (length found) /\ snd (cl_out c) = total (map snd found))
    (sum_prepared hash pk sk0 sk1 csize ssize pai0 stash node func start0 start1 d0 d1 k coins).
Proof.
  intros stash node func start0 start1 d0 d1 k tp (HH & BG & EP) IS IN NE L P0 P1 POS SM DR. apply pk_shares in EP. subst pk.
  assert (V0 : Forall (fun a => 0 <= snd a) start0) by (apply Forall_app in POS; tauto).
  destruct (start_ok_fst start0 start1 d0 d1 P0 P1 V0) as (R0 & R1 & G0 & G1).
  pose proof (@setup_written Gr stash node IS IN hash HH sk0 sk1 n pai0 func start0 start1 (fun Q => match NE Q with end) R0 R1 G0 G1 tp) as W.
  unfold sum_prepared, prepared. unfold bind at 1.
  destruct (setup_trees stash node hash (key_of (sk0 + sk1)) func pai0 start0 start1 tp) as [[d tp']| | |]; auto.
  destruct (load_value stash node hash sk0 sk1 n func start0 start1 d W NE) as (my0 & other0 & my1 & other1 & L0 & L1 & _ & _ & AG).
  unfold bind. rewrite L1, L0. unfold lift.
  pose proof (sum_start Gr hash sk0 sk1 csize ssize HH BG my0 other0 my1 other1 (repeat 0 (length d0)) start0 start1 d0 d1 k tp' AG L P0 P1 POS SM DR) as X.
  unfold client_with, server_with. cbn [fst snd]. destruct (run_days _ _ k _ tp') as [[[c s] tp2]| | |]; auto. cbn [ends_well] in *. tauto.
Qed.

(** SS: the shares add up to what was stored with the element: for batches of
    the protocol that is the element itself (LoadData), for initial trees it is
    the *value* of the element. *)
Theorem C50_shares : forall p q bits kt kt' stash node start0 start1 raw d1 k coins,
  setting Gr hash pk sk0 sk1 -> int32 stash -> int32 node -> Forall (fun a => 0 <= snd a) start0 ->
  prime p -> prime q -> p <> q -> threshold_keygen p q bits kt = Ok ((n, psk0, psk1), kt') -> thr_object n pai0 -> thr_object n pai1 ->
  length d1 = length raw -> proper fst (start0 :: raw) -> proper (fun x => x) (start1 :: d1) ->
  ends_well (fun '((c, s), _) =>
      cl_day c = min k (length raw) /\ sv_day s = min k (length raw) /\ length (cl_out c) = length (sv_shares s) /\
      exists found, partly (common fst (start0 ++ upto (cl_day c) raw) (start1 ++ upto (cl_day c) d1))
                           (common fst start0 start1 ++ found) (no_loss (cl_my c) (sv_my s))
                    /\ map (fun ab => (fst ab + snd ab) mod n) (combine (cl_out c) (sv_shares s))
                       = map (fun a => if mem (fst a) (map fst start0) then snd a else fst a) found)
    (ss_prepared hash pk sk0 sk1 csize ssize n pai0 pai1 psk0 psk1 stash node SS start0 start1 (map (map ss_payload) raw) d1 k coins).
Proof.
  intros p q bits kt kt' stash node start0 start1 raw d1 k tp (HH & BG & EP) IS IN V0 Pp Pq NE KG OB0 OB1 L P0 P1. apply pk_shares in EP. subst pk.
  assert (1 < p) by (destruct Pp; auto). assert (1 < q) by (destruct Pq; auto).
  apply keygen_spec in KG as (En & S1 & S2 & D1 & D2); auto. assert (Hn : 1 < n) by nia.
  destruct (start_ok_fst start0 start1 raw d1 P0 P1 V0) as (R0 & R1 & G0 & G1).
  pose proof (@setup_written Gr stash node IS IN hash HH sk0 sk1 n pai0 SS start0 start1 (fun _ => conj Hn OB0) R0 R1 G0 G1 tp) as W.
  unfold ss_prepared, prepared. unfold bind at 1.
  destruct (setup_trees stash node hash (key_of (sk0 + sk1)) SS pai0 start0 start1 tp) as [[d tp']| | |]; auto.
  destruct (load_paillier stash node hash sk0 sk1 n SS start0 start1 d W eq_refl) as (my0 & other0 & my1 & other1 & L0 & L1 & _ & _ & AG).
  unfold bind. rewrite L1, L0. unfold lift. set (d0 := map (map ss_payload) raw).
  assert (EC : concat d0 = map ss_payload (concat raw)) by (unfold d0; rewrite concat_map; auto).
  assert (LD : length raw = length d0) by (unfold d0; rewrite map_length; auto). rewrite LD in *.
  assert (P0' : proper fst (start0 :: d0)).
  { destruct P0 as (ND0 & EL0 & RR0). unfold proper in *. cbn [concat] in *. rewrite EC. rewrite !map_app, !app_length, map_map, map_length in *. split; [exact ND0|]. split; auto.
    apply Forall_app in EL0 as (EL1 & EL2). apply Forall_app. split; auto. apply Forall_map. eapply Forall_impl; [|exact EL2]. cbn. auto. }
  pose proof (ss_start Gr hash sk0 sk1 csize ssize HH BG p q n psk0 psk1 pai0 pai1 Pp Pq NE En S1 (Z.lt_le_incl _ _ S2) D1 D2 OB0 OB1
    my0 other0 my1 other1 (repeat 0 (length d0)) start0 start1 d0 d1 k tp' AG L P0' P1) as X.
  unfold client_with, server_with. cbn [fst snd]. destruct (run_days _ _ k _ tp') as [[[c s] tp2]| | |]; auto. cbn [ends_well] in *.
  destruct X as (DA & DB & O1 & found & (mi & PM & MI) & O2). split; auto. split; auto. split; auto.
  pose (f := fun a : Z * Z => if mem (fst a) (map fst start0) then a else ss_payload a).
  assert (FK : forall a, fst (f a) = fst a) by (intros a; unfold f; destruct (mem (fst a) (map fst start0)); auto).
  assert (FS : forall l, Forall (fun a => mem (fst a) (map fst start0) = true) l -> map f l = l).
  { intros l F. rewrite <- (map_id l) at 2. apply map_ext_in. intros a Ha. rewrite Forall_forall in F. unfold f. rewrite (F a Ha). auto. }
  assert (F0 : Forall (fun a => mem (fst a) (map fst start0) = true) start0).
  { apply Forall_forall. intros a Ha. apply existsb_exists. exists (fst a). split; [apply in_map; auto|apply Z.eqb_refl]. }
  assert (FR : forall m, map f (start0 ++ upto m raw) = start0 ++ upto m d0).
  { intros m. rewrite map_app, (FS _ F0). f_equal. unfold upto at 2, d0. rewrite firstn_map, <- concat_map. fold (upto m raw). apply map_ext_in. intros a Ha. unfold f.
    destruct (mem (fst a) (map fst start0)) eqn:ME; auto. exfalso. apply existsb_exists in ME as (x & Hx & Q). apply Z.eqb_eq in Q. subst x.
    destruct P0 as (ND0 & _). cbn [concat] in ND0. rewrite map_app in ND0. apply (NoDup_app_no _ _ _ ND0 Hx).
    apply in_map. apply in_concat in Ha as (b & Hb & Ha). apply in_concat. exists b. split; auto. rewrite <- (firstn_skipn m raw). apply in_or_app. auto. }
  assert (CF : forall l l1, common fst (map f l) l1 = map f (common fst l l1)).
  { intros l l1. unfold common. induction l as [|a l IH]; auto. cbn [map filter]. rewrite FK, IH. destruct (mem (fst a) l1); auto. }
  rewrite <- FR, CF in PM. symmetry in PM. apply Permutation_sym, Permutation_map_inv in PM as (l' & EL & PL).
  symmetry in EL. apply map_eq_app in EL as (l12 & l3 & -> & E12 & E3). apply map_eq_app in E12 as (l1 & l2 & -> & E1 & E2).
  assert (Q1 : l1 = common fst start0 start1).
  { rewrite <- E1. symmetry. apply FS. apply Forall_forall. intros a Ha. rewrite <- FK. apply (in_map f) in Ha. rewrite E1 in Ha. apply filter_In in Ha as (Ha & _).
    apply existsb_exists. exists (fst (f a)). split; [apply in_map; auto|apply Z.eqb_refl]. }
  subst l1. exists l2. split.
  - exists l3. split; [symmetry; exact PL|]. intros NL. specialize (MI NL). rewrite MI in E3. destruct l3; auto. discriminate.
  - rewrite O2, <- E2, map_map. apply map_ext. intros a. unfold f. destruct (mem (fst a) (map fst start0)); auto.
Qed.
End Statements.

(** ** Non-vacuity: setup and one day, in the group of order 2000001980000443 *)
Section Examples.
Definition st0 : list (Z * Z) := [(3, 40); (8, 1)].
Definition st1 : list Z := [8; 4].
Example st_data : start_data st0 st1.
Proof.
  assert (G : forall l : list Z, forallb (fun x => (0 <=? x) && (x <? 10 ^ 15)) l = true -> Forall element l).
  { intros l H. apply Forall_forall. rewrite forallb_forall in H. intros x Hx. specialize (H x Hx). unfold element. lia. }
  split; [|split].
  - split; [repeat constructor; cbn [In map fst]; intuition lia|]. split; [|vm_compute; reflexivity]. apply (proj1 (Forall_map fst element [(3, 40); (8, 1)])). apply G. reflexivity.
  - split; [repeat constructor; cbn [In map]; intuition lia|]. split; [|vm_compute; reflexivity]. apply G. reflexivity.
  - repeat constructor; cbn [snd]; lia.
Qed.
(** the start sets have {8} in common; party one then adds 3 and 5, party zero
    5: two more are found.  [run] gets keys for the modulus 15. *)
Definition with_keys (run : Z -> Z -> Z -> pub -> pub -> bool) : bool :=
  match threshold_keygen 3 5 4 (const_tape 2), pub_new false 5 15 1 (const_tape 7), pub_new false 5 15 1 (const_tape 2) with
  | Ok ((n, k0, k1), _), Some (Ok (P0, _)), Some (Ok (P1, _)) => run n k0 k1 P0 P1
  | _, _, _ => false end.
Definition ex_ca (func : functionality) (st : list (Z * Z)) : bool := with_keys (fun n k0 k1 P0 P1 =>
  match ca_prepared ex_bits ex_pk 4 9 zero_size zero_size P0 2 2 func st st1 [[5]] [[3; 5]] 1 ex_tape with
  | Ok ((c, s), _) => (cl_out c =? 2) && (cl_day c =? 1)%nat && no_overflowb (cl_my c) && no_overflowb (sv_my s)
  | _ => false end).
Example ex_C50_ca : ex_ca CA st0 = true.
Proof. vm_cast_no_check (eq_refl true). Qed.
(** trees prepared for secret shares work as well (values below 15) *)
Definition st0' : list (Z * Z) := [(3, 7); (8, 1)].
Example ex_C50_ca_ss : ex_ca SS st0' = true.
Proof. vm_cast_no_check (eq_refl true). Qed.
(** PSI reports 5 and, for 3, the empty string *)
Example ex_C50_psi : with_keys (fun n k0 k1 P0 P1 =>
  match psi_prepared ex_bits ex_pk 4 9 zero_size zero_size P0 2 2 PSI st0 st1 ex_string [[5]] [[3; 5]] 1 ex_tape with
  | Ok ((c, s), _) => let out := snd (cl_out c) in (length out =? 2)%nat && existsb (String.eqb (ex_string 5)) out && existsb (String.eqb EmptyString) out
  | _ => false end) = true.
Proof. vm_cast_no_check (eq_refl true). Qed.
Example ex_C50_sum : with_keys (fun n k0 k1 P0 P1 =>
  match sum_prepared ex_bits ex_pk 4 9 zero_size zero_size P0 2 2 SUM st0 st1 [[(5, 2)]] [[3; 5]] 1 ex_tape with
  | Ok ((c, s), _) => (fst (cl_out c) =? 2) && (snd (cl_out c) =? 42)
  | _ => false end) = true.
Proof. vm_cast_no_check (eq_refl true). Qed.
(** SS: shares of 7 (the value of 3) and of 5 *)
Example ex_C50_ss : with_keys (fun n k0 k1 P0 P1 =>
  match ss_prepared ex_bits ex_pk 4 9 zero_size zero_size n P0 P1 k0 k1 2 2 SS st0' st1 (map (map ss_payload) [[(5, 2)]]) [[3; 5]] 1 ex_tape with
  | Ok ((c, s), _) => list_eqb (sorted (map (fun ab => (fst ab + snd ab) mod n) (combine (cl_out c) (sv_shares s)))) [5; 7]
  | _ => false end) = true.
Proof. vm_cast_no_check (eq_refl true). Qed.
(** and with trees of the wrong kind party one does not start *)
Example ex_C49_wrong : with_keys (fun n k0 k1 P0 P1 =>
  match ss_prepared ex_bits ex_pk 4 9 zero_size zero_size n P0 P1 k0 k1 2 2 SUM st0' st1 [] [] 1 ex_tape with Abort => true | _ => false end) = true.
Proof. vm_cast_no_check (eq_refl true). Qed.
End Examples.

Print Assumptions C49_prepared_trees.
Print Assumptions C49_wrong_kind.
Print Assumptions C50_cardinality.
Print Assumptions C50_exact.
Print Assumptions C50_intersection.
Print Assumptions C50_sum.
Print Assumptions C50_shares.
