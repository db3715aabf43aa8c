(** * C54: the original construction from its setup program to the result.

    Program: OrigSetupModel.v.  For all groups of prime order at least 2 * 10^15,
    all hashes with 256 bits, all hashes to the group, all generated key pairs,
    all coins, all tree sizes and all data. *)
Require Import String.
Require Import List Arith Lia ZArith Permutation Bool Znumtheory.
Import ListNotations.
From Verif Require Import Prelude TreeModel TreeSpec Coins Group ElGamalModel ElGamalProofs WireModel SyncSpec SyncProofs PropsSync PropsPaillier CsvModel DataModel DataSpec PropsData AddModel AddSpec AddProofs AddRun PropsAdd BigPrime AddStart SetupModel SetupProofs PropsSetup DeployModel DeployProofs PropsDeploy OrigModel OrigRun PropsOrig OrigSetupModel OrigSetupProofs.
Local Open Scope Z_scope.

Section Statements.
Variables (Gr : group) (hash : Z -> list bool) (H : Z -> Gr) (dec_string : Z -> string).
Variables (pk0 pk1 : pubkey Gr) (sk0 sk1 : Z).
Variables (csize : og_req Gr -> Z) (ssize : og_reply Gr -> Z).
Variables stash node : nat.
Definition setup_then_run (start0 start1 : list Z) (d0 d1 : list (list Z)) (k : nat) : M (og_client * og_server Gr) :=
  f <- og_setup_files hash H dec_string pk1 sk0 sk1 stash node start0 start1 ;;
  og_prepared hash H dec_string pk0 pk1 sk0 sk1 stash node csize ssize (Some f) d0 d1 k.

(** C54.  The setup program writes the initial sets, both parties load them and
    run [k] days: party zero reports what became common after the start, each
    element once and nothing else, and misses something only if party one's stash
    has overflowed. *)
Theorem C54_initial_sets : forall start0 start1 d0 d1 k coins,
  og_setting Gr hash pk0 pk1 sk0 sk1 -> int32 stash -> int32 node -> length d1 = length d0 ->
  proper (fun x => x) (start0 :: d0) -> proper (fun x => x) (start1 :: d1) -> no_collision Gr H (start0 :: d0) (start1 :: d1) ->
  ends_well (fun '((c, s), _) =>
      oc_day c = min k (length d0) /\ og_day s = min k (length d0) /\
      exists found, og_inter s = map dec_string found
        /\ partly (common (fun x => x) (start0 ++ upto (og_day s) d0) (start1 ++ upto (og_day s) d1)) (common (fun x => x) start0 start1 ++ found) (no_overflow (oc_tree c)))
    (setup_then_run start0 start1 d0 d1 k coins).
Proof.
  intros s0 s1 d0 d1 k tp (HH & BG & (t0 & t0' & E0) & (t1 & t1' & E1)) IS IN L P0 P1 NC.
  unfold setup_then_run. apply gen_key_pair_Ok in E0 as (-> & K0), E1 as (-> & K1). destruct (start_fits _ _ _ _ P0 P1) as (IR & G).
  unfold bind. pose proof (setup_files_spec hash H dec_string sk0 sk1 stash node HH IS IN s0 s1 tp IR G) as X.
  destruct (og_setup_files _ _ _ _ _ _ _ _ _ _ _) as [[f tp1]| | |]; auto.
  assert (INJ : forall x y, In x (s0 ++ concat d0) -> In y (concat d1) -> H x = H y -> x = y).
  { intros x y Hx Hy E. destruct (Z.eq_dec x y); auto. exfalso. apply (NC x y); auto. cbn [concat]. apply in_or_app; auto. }
  pose proof (prepared_run hash H dec_string sk0 sk1 stash node HH csize ssize (Some f) s0 s1 d0 d1 k tp1 BG K0 K1 P0 P1 INJ X) as Y.
  destruct (og_prepared _ _ _ _ _ _ _ _ _ _ _ _ _ _ _ _) as [[[c s] tp2]| | |]; auto. cbn [ends_well] in *.
  destruct Y as (Y1 & Y2 & found & Y3 & Y4). split; [auto|]. split; [auto|]. exists found. auto.
Qed.
Corollary C54_exact : forall start0 start1 d0 d1 k coins c s coins',
  og_setting Gr hash pk0 pk1 sk0 sk1 -> int32 stash -> int32 node -> length d1 = length d0 ->
  proper (fun x => x) (start0 :: d0) -> proper (fun x => x) (start1 :: d1) -> no_collision Gr H (start0 :: d0) (start1 :: d1) ->
  setup_then_run start0 start1 d0 d1 k coins = Ok ((c, s), coins') -> no_overflow (oc_tree c) ->
  Permutation (map dec_string (common (fun x => x) start0 start1) ++ og_inter s)
    (map dec_string (common (fun x => x) (start0 ++ upto (min k (length d0)) d0) (start1 ++ upto (min k (length d0)) d1))).
Proof.
  intros s0 s1 d0 d1 k tp c s tp' ST IS IN L P0 P1 NC E NO. pose proof (C54_initial_sets s0 s1 d0 d1 k tp ST IS IN L P0 P1 NC) as X.
  rewrite E in X. cbn [ends_well] in X. destruct X as (_ & DB & found & -> & (mi & PM & M)). rewrite (M NO), app_nil_r in PM. rewrite <- DB, <- map_app. apply Permutation_map; auto.
Qed.

(** ** with generated data *)
(** the setup program ran with these flags and left [d]; the strings drawn for
    the data were all different, and so are the points of different elements *)
Definition og_was_setup (days daily start shared max : Z) (expected : bool) (d : og_deployed Gr) : Prop :=
  flags days daily start shared max
  /\ (exists coins coins', og_generate hash H dec_string pk1 sk0 sk1 stash node days daily start shared max expected coins = Ok (d, coins'))
  /\ let '(tree0, days0, tree1, days1) := od_data d in let n := start + days * daily in
     no_coincidence n (if shared <? 0 then n / 8 else shared) (all_elements tree0 days0) (all_elements tree1 days1)
     /\ forall a b, In a (all_elements tree0 days0) -> In b (all_elements tree1 days1) -> a <> b -> H (num a) <> H (num b).

(** With possible flags the setup program ends normally or with an error status. *)
Theorem C54_setup : forall days daily start shared max expected coins,
  og_setting Gr hash pk0 pk1 sk0 sk1 -> int32 stash -> int32 node -> flags days daily start shared max -> shared <= start + days * daily ->
  ends_well (fun _ => True) (og_generate hash H dec_string pk1 sk0 sk1 stash node days daily start shared max expected coins).
Proof.
  intros days daily start shared max expected tp (HH & BG & _ & (t1 & t1' & E1)) IS IN (U1 & U2 & U3 & FL & MX & TB) SH.
  apply gen_key_pair_Ok in E1 as (-> & K1). apply og_setup_total; auto.
Qed.
(** The intersection size it announces is the number of elements party zero
    reports, unless party one's stash overflowed; then it reports at most that
    many. *)
Theorem C54_announced : forall days daily start shared max expected d size k coins,
  og_setting Gr hash pk0 pk1 sk0 sk1 -> int32 stash -> int32 node -> og_was_setup days daily start shared max expected d ->
  days <= Z.of_nat k -> od_size d = Some size ->
  ends_well (fun '((c, s), _) => Z.of_nat (og_day s) = days /\ Z.of_nat (length (og_inter s)) <= size
               /\ (no_overflow (oc_tree c) -> Z.of_nat (length (og_inter s)) = size))
    (og_deployed_run hash H dec_string pk0 pk1 sk0 sk1 stash node csize ssize d k coins).
Proof.
  intros days daily start shared max expected d size k tp (HH & BG & (t0 & t0' & E0) & (t1 & t1' & E1)) IS IN ((U1 & U2 & U3 & FL & MX & TB) & (c0 & c1 & G) & AD) DK ES.
  apply gen_key_pair_Ok in E0 as (-> & K0), E1 as (EK & K1). rewrite EK in *.
  assert (NC : let '(t0, l0, t1, l1) := od_data d in no_coincidence (start + days * daily) (shared_size (start + days * daily) shared) (all_elements t0 l0) (all_elements t1 l1)).
  { destruct (od_data d) as [[[q0 l0] q1] l1]. apply AD. }
  destruct (og_deployed_facts hash H dec_string sk0 sk1 stash node HH IS IN _ _ _ _ _ _ _ _ _ U1 U2 U3 FL MX TB G NC) as (s0 & b0 & s1 & b1 & L0 & L1 & LD & LB & P0 & P1 & FH & SZ & DT).
  specialize (SZ size ES). unfold og_deployed_run, bind, lift. rewrite L0, L1.
  assert (INJ : forall x y, In x (s0 ++ concat b0) -> In y (concat b1) -> H x = H y -> x = y).
  { destruct (od_data d) as [[[q0 l0] q1] l1]. destruct DT as (A0 & A1 & _). destruct AD as (_ & AD). intros x y Hx Hy EH. destruct (Z.eq_dec x y); auto. exfalso.
    rewrite A0 in Hx. assert (Hy' : In y (s1 ++ concat b1)) by (apply in_or_app; auto). rewrite A1 in Hy'. apply in_map_iff in Hx as (a & <- & Ha). apply in_map_iff in Hy' as (b & <- & Hb).
    apply (AD a b Ha Hb); [congruence|exact EH]. }
  pose proof (prepared_run hash H dec_string sk0 sk1 stash node HH csize ssize (od_files d) s0 s1 b0 b1 k tp BG K0 K1 P0 P1 INJ FH) as Y.
  destruct (og_prepared _ _ _ _ _ _ _ _ _ _ _ _ _ _ _ _) as [[[c s] tp2]| | |]; auto. cbn [ends_well] in *.
  destruct Y as (Y1 & Y2 & found & (mi & PM & MI) & ->). assert (KD : og_day s = length b0) by lia. split; [lia|].
  assert (LE : forall d1 : list (list Z), length d1 = length b0 -> upto (og_day s) d1 = concat d1).
  { intros d1 Q. unfold upto. rewrite firstn_all2 by lia. auto. }
  rewrite (LE b0 eq_refl) in PM.
  rewrite (LE b1 LB) in PM. apply Permutation_length in PM. rewrite !app_length in PM. rewrite SZ, map_length. split; [lia|]. intros NO. rewrite (MI NO) in PM. cbn [length] in PM. lia.
Qed.
End Statements.

(** ** Non-vacuity: the group of order 2000001980000443, keys 4 and 9 *)
Section Examples.
(** 3 is common from the start, 5 on day one (in the initial tree), 6 on day two
    (in the map from the start) *)
Example ex_C54 :
  match setup_then_run exG ex_bits ex_H ex_string (ex_k 4) (ex_k 9) 4 9 zero_size zero_size 2 2 [3; 6] [3; 5] [[5]; [8]] [[2]; [6]] 5 ex_tape with
  | Ok ((c, s), _) => strings_eqb (og_inter s) [ex_string 5; ex_string 6] && (og_day s =? 2)%nat && no_overflowb (oc_tree c)
  | _ => false end = true.
Proof. vm_cast_no_check (eq_refl true). Qed.
Example ex_C54_data : proper (fun x => x) [[3; 6]; [5]; [8]] /\ proper (fun x => x) [[3; 5]; [2]; [6]] /\ no_collision exG ex_H [[3; 6]; [5]; [8]] [[3; 5]; [2]; [6]].
Proof.
  split; [|split].
  - split; [cbn; repeat constructor; cbn; intuition lia|]. split; [cbn; repeat constructor; unfold element; lia|]. cbn. unfold int_range. cbn. lia.
  - split; [cbn; repeat constructor; cbn; intuition lia|]. split; [cbn; repeat constructor; unfold element; lia|]. cbn. unfold int_range. cbn. lia.
  - intros x y Hx Hy NE E. apply NE. assert (x + 1 = y + 1); [|lia].
    assert (R : forall z, In z (concat [[3; 6]; [5]; [8]]) \/ In z (concat [[3; 5]; [2]; [6]]) -> 0 <= z + 1 < ord exG).
    { intros z Hz. change (ord exG) with big_prime. cbn in Hz. unfold big_prime. lia. }
    apply (gen_pow_inj_small (Gr := exG)); auto.
Qed.
(** one initial element and two days of one element, two of three common: 1 is
    announced and reported *)
Example ex_C54_announced :
  match og_generate ex_bits ex_H (fun _ => "x"%string) (ex_k 9) 4 9 2 2 2 1 1 2 5 true (ex_coins 7) with
  | Ok (d, _) =>
      match og_deployed_run ex_bits ex_H (fun _ => "x"%string) (ex_k 4) (ex_k 9) 4 9 2 2 zero_size zero_size d 2 ex_tape with
      | Ok ((c, s), _) =>
          let '(tree0, days0, tree1, days1) := od_data d in
          (length (distinct (all_elements tree0 days0 ++ all_elements tree1 days1)) =? 4)%nat
          && match od_size d with Some n => (Z.of_nat (length (og_inter s)) =? n) && (0 <? n) | None => false end && (og_day s =? 2)%nat && no_overflowb (oc_tree c)
      | _ => false end
  | _ => false end = true.
Proof. vm_cast_no_check (eq_refl true). Qed.
End Examples.

Print Assumptions C54_initial_sets.
Print Assumptions C54_exact.
Print Assumptions C54_setup.
Print Assumptions C54_announced.
