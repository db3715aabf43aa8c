(** * C56: the constructions with deletions from their setup programs to the result. *)
Require Import List Arith Lia ZArith Permutation Bool Znumtheory.
Import ListNotations.
From Verif Require Import Prelude TreeModel TreeSpec TreeHistory TreeDelModel TreeDelSpec TreeDelProofs Coins Group ElGamalModel BytesModel BytesProofs PropsBytes ContextModel CipherModel NumTheory PaillierModel PaillierProofs PropsPaillier WireModel WireProofs SyncModel SyncSpec SyncProofs KindProofs PropsSync FlagModel CsvModel CsvSpec CsvProofs DataModel DataSpec DataProofs AddModel AddSpec AddProofs AddRun DelModel DelSpec DelProofs DelRun BigPrime PropsDel PsiModel PsiSpec PsiSets PsiRun PropsPsi SetupModel DeployModel DeployProofs PropsData DataDelProofs PropsDataDel DelSetupModel DelSetupProofs PropsAdd DataSpec.
Local Open Scope Z_scope.

(** [history_of tree h]: the initial tree as a first batch, then the days as
    written down, as numbers *)
Definition history_of (tree : list (bytes * Z)) (h : changes) : list (list entry) :=
  map as_number tree :: map (fun day => map as_number (written day)) h.

Section C56.
Context {Gr : group}.
Variable hash : Z -> list bool.
Variable circuit_input : Z -> outcome (list bool).
Variables (p0 q0 p1 q1 : Z) (P0 P1 : pub) (V0 V1 : priv).
Notation n0 := (p0 * q0). Notation n1 := (p1 * q1).

(** what the setup program may be asked for *)
Definition del_request (stash node : nat) (days daily start max_value : Z) : Prop :=
  PropsDel.keys hash p0 q0 p1 q1 P0 P1 V0 V1 /\ Z.of_nat stash < 2 ^ 31 /\ Z.of_nat node < 2 ^ 31 /\
  uint32 days /\ uint32 daily /\ uint32 start /\ 0 < days /\ start + days * daily < 2 ^ 30 /\
  10 ^ 15 <= n0 /\ 10 ^ 15 <= n1 /\ u32 max_value <= n0 /\ u32 max_value <= n1.
(** [h0], [h1]: the rows deleted and added day by day in the generated data *)
Definition generated (d : del_deployed Gr) (days start : Z) (tree0 tree1 : dataset) (h0 h1 : changes) : Prop :=
  (exists days0 days1, dd_data d = (tree0, days0, tree1, days1) /\ map rows days0 = map written h0 /\ map rows days1 = map written h1) /\
  only_held (rows tree0) h0 /\ only_held (rows tree1) h1 /\ added_once (rows tree0) h0 /\ added_once (rows tree1) h1 /\
  Z.of_nat (length h0) = days /\ Z.of_nat (length h1) = days /\
  Z.of_nat (length (rows tree0)) = start /\ Z.of_nat (length (rows tree1)) = start.

Lemma facts_generated stash node days daily start max_value func coins : del_request stash node days daily start max_value ->
  match del_generate (Gr := Gr) hash V0 V1 stash node days daily start max_value func coins with
  | Ok (d, _) => exists t0 t1 D0 D1 h0 h1 l0 l1, del_facts hash stash node n0 n1 days start (u32 max_value) func d t0 t1 D0 D1 h0 h1 l0 l1 /\
      generated d days start t0 t1 h0 h1 /\ l0 = history_of (rows t0) h0 /\ l1 = history_of (rows t1) h1
  | _ => True end.
Proof.
  intros ((HH & K0 & K1) & S1 & S2 & U1 & U2 & U3 & DP & SM & _).
  pose proof (del_generate_facts (Gr := Gr) stash node S1 S2 hash HH p0 q0 p1 q1 P0 P1 V0 V1 K0 K1 days daily start max_value func U1 U2 U3 SM DP coins) as X.
  destruct (del_generate hash V0 V1 stash node days daily start max_value func coins) as [[d tp]| | |]; auto.
  destruct X as (t0 & t1 & D0 & D1 & h0 & h1 & l0 & l1 & F & _). exists t0, t1, D0, D1, h0, h1, l0, l1. split; auto.
  pose proof F as [A1 A2 A3 A4 A5 A6 A7 A8 A9 B1 B2 B3 B4 B5 B6 _ _ _ _ _ _]. split; [|split].
  - split; [exists D0, D1; auto|]. do 4 (split; [auto|]). split; [lia|]. split; [lia|]. auto.
  - rewrite B1. unfold history_of. cbn [map]. rewrite map_map. auto.
  - rewrite B2. unfold history_of. cbn [map]. rewrite map_map. auto.
Qed.

Lemma change_of_facts stash node days daily start max_value func d k tp2 tree0 tree1 D0 D1 h0 h1 l0 l1 :
  del_request stash node days daily start max_value -> func = CA \/ func = SUM -> Z.of_nat k <= days ->
  del_facts (Gr := Gr) hash stash node n0 n1 days start (u32 max_value) func d tree0 tree1 D0 D1 h0 h1 l0 l1 ->
  match del_deployed_run hash P0 P1 V0 V1 stash node circuit_input d k tp2 with
  | Ok (((c0, s0, _), trace), _) => length trace = k /\
      (start = 0 -> holds (pt_my (dc_party c0)) (upto 1 l0) /\ holds (pt_my (ds_party s0)) (upto 1 l1)) /\
      forall j c s rounds, nth_error trace j = Some (c, s, rounds) ->
        holds (pt_my (dc_party c0)) (upto 1 l0) -> holds (pt_my (ds_party s0)) (upto 1 l1) ->
        (forall i st, (i <= j)%nat -> nth_error trace i = Some st -> lucky_day circuit_input p0 q0 p1 q1 l0 l1 (S i) st) ->
        dc_result c = (score func (held_after (rows tree0) (firstn (S j) h0)) (held_after (rows tree1) (firstn (S j) h1)) - score func (rows tree0) (rows tree1)) mod 2 ^ 64 /\
        (Z.of_nat (S j) = days -> dc_result c = dd_expected d mod 2 ^ 64)
  | Err _ => True
  | _ => ~ forall x, returns (circuit_input x)
  end.
Proof.
  intros RQ FN LK F.
  destruct RQ as ((HH & K0 & K1) & S1 & S2 & U1 & U2 & U3 & DP & SM & B0 & B1 & M0 & M1).
  pose proof F as [A1 A2 A3 A4 A5 A6 A7 A8 A9 C1 C2 C3 C4 C5 C6 PS LO0 LO1 TR _ CH].
  destruct TR as (a0 & o0 & a1 & o1 & T0 & T1 & R0 & R1 & MI0 & MI1 & NEW).
  unfold del_deployed_run. unfold bind at 1, lift at 1. rewrite LO1. unfold bind at 1, lift at 1. rewrite T1. unfold bind at 1, lift at 1. rewrite LO0. unfold bind at 1, lift at 1. rewrite T0.
  assert (LL0 : length l0 = S (Z.to_nat days)) by (rewrite C1, map_length; cbn [length]; rewrite map_length; lia).
  assert (LL1 : length l1 = S (Z.to_nat days)) by (rewrite C2, map_length; cbn [length]; rewrite map_length; lia).
  assert (DI : dinv hash p0 q0 p1 q1 l0 l1 1 1 (fst (fst (del_start_with (a0, o0) (a1, o1) (tl l0) (tl l1)))) (snd (fst (del_start_with (a0, o0) (a1, o1) (tl l0) (tl l1))))).
  { apply (dinv_deployed (Gr := Gr) hash p0 q0 p1 q1 l0 l1 a0 o0 a1 o1); auto; intros E; rewrite E in *; discriminate. }
  destruct (PS n1 B1 M1) as (PR0 & _). destruct (PS n0 B0 M0) as (_ & PR1).
  set (base := inner (upto 1 l0) (upto 1 l1)).
  pose proof (trace_spec (Gr := Gr) hash circuit_input HH p0 q0 p1 q1 P0 P1 V0 V1 K0 K1 l0 l1 ltac:(lia) PR0 PR1 1 base k 1 _ _ ((0, 0), (0, 0)) tp2 ltac:(lia) DI) as X.
  change (fst (fst (del_start_with (a0, o0) (a1, o1) (tl l0) (tl l1))), snd (fst (del_start_with (a0, o0) (a1, o1) (tl l0) (tl l1))), (0, 0, (0, 0)))
    with (del_start_with (a0, o0) (a1, o1) (tl l0) (tl l1)) in X.
  unfold bind. destruct (run_trace _ k (del_start_with (a0, o0) (a1, o1) (tl l0) (tl l1)) tp2) as [[trace tp3]| | |]; auto.
  destruct X as (X1 & X2 & X3). unfold ret. cbn [del_start_with]. split; [auto|].
  assert (IN : forall j, (j <= Z.to_nat days)%nat -> inner (upto (S j) l0) (upto (S j) l1) = score func (held_after (rows tree0) (firstn j h0)) (held_after (rows tree1) (firstn j h1))).
  { intros j _. rewrite C1, C2, !upto_rows. apply inner_held; auto; try apply only_prefix; auto; try (apply added_prefix; auto); try (apply forall_prefix; auto).
    eapply Forall_impl; [|exact A8]. cbn. tauto. }
  assert (Q : base = score func (rows tree0) (rows tree1)). { unfold base. rewrite (IN O) by lia. reflexivity. }
  split.
  { intros Z0. destruct (NEW Z0) as (-> & ->). cbn [dc_party ds_party pt_my fst snd]. rewrite C1, C2, !upto_rows. cbn [firstn map concat]. rewrite !app_nil_r.
    destruct (rows tree0); [|cbn in C5; lia]. destruct (rows tree1); [|cbn in C6; lia]. split; apply holds_new. }
  cbn [dc_party ds_party pt_my fst snd]. intros j c s r EJ H0 H1 GD.
  assert (LJ : (j < length trace)%nat) by (apply nth_error_Some; congruence).
  assert (RES : dc_result c = (inner (upto (S (S j)) l0) (upto (S (S j)) l1) - base) mod 2 ^ 64).
  { apply (X3 H0 H1) with (s' := s) (r' := r); auto. unfold base. rewrite Z.sub_diag. reflexivity. }
  rewrite (IN (S j)) in RES by lia. rewrite Q in RES. split; [auto|]. intros LAST. rewrite RES, CH. f_equal.
  rewrite !firstn_all2 by lia. reflexivity.
Qed.

(** Cardinality and sum.  After day [j], if the initial trees hold the initial
    sets and nothing went wrong up to this day, the number party zero has is the
    result on the current sets minus the result on the initial sets; after the
    last day it is the number announced by the setup program.  (All modulo
    2^64.) *)
Theorem C56_change_of_result : forall stash node days daily start max_value func coins d coins1 k coins2,
  del_request stash node days daily start max_value -> func = CA \/ func = SUM ->
  del_generate (Gr := Gr) hash V0 V1 stash node days daily start max_value func coins = Ok (d, coins1) -> Z.of_nat k <= days ->
  exists tree0 tree1 h0 h1, generated d days start tree0 tree1 h0 h1 /\
  let l0 := history_of (rows tree0) h0 in let l1 := history_of (rows tree1) h1 in
  match del_deployed_run hash P0 P1 V0 V1 stash node circuit_input d k coins2 with
  | Ok (((c0, s0, _), trace), _) => length trace = k /\
      (start = 0 -> holds (pt_my (dc_party c0)) (upto 1 l0) /\ holds (pt_my (ds_party s0)) (upto 1 l1)) /\
      forall j c s rounds, nth_error trace j = Some (c, s, rounds) ->
        holds (pt_my (dc_party c0)) (upto 1 l0) -> holds (pt_my (ds_party s0)) (upto 1 l1) ->
        (forall i st, (i <= j)%nat -> nth_error trace i = Some st -> lucky_day circuit_input p0 q0 p1 q1 l0 l1 (S i) st) ->
        dc_result c = (score func (held_after (rows tree0) (firstn (S j) h0)) (held_after (rows tree1) (firstn (S j) h1)) - score func (rows tree0) (rows tree1)) mod 2 ^ 64 /\
        (Z.of_nat (S j) = days -> dc_result c = dd_expected d mod 2 ^ 64)
  | Err _ => True
  | _ => ~ forall x, returns (circuit_input x)
  end.
Proof.
  intros stash node days daily start max_value func tp d tp1 k tp2 RQ FN EG LK.
  pose proof (facts_generated stash node days daily start max_value func tp RQ) as X. rewrite EG in X.
  destruct X as (t0 & t1 & D0 & D1 & h0 & h1 & l0 & l1 & F & G & EL0 & EL1). exists t0, t1, h0, h1. split; auto. cbv zeta. rewrite <- EL0, <- EL1.
  eapply change_of_facts; eauto.
Qed.

(** ** deletion-psi *)
(** no element drawn is the string of zeros *)
Definition no_zero_element (tree : dataset) (h : changes) : Prop :=
  Forall (fun r => numeric_string2uint (fst r) <> 0) (rows tree ++ concat (map snd h)).
(** the intersection after the first [j] days, as numbers *)
Definition meet_after (tree0 tree1 : dataset) (h0 h1 : changes) (j : nat) : list Z :=
  both (numbers (held_after (rows tree0) (firstn j h0))) (numbers (held_after (rows tree1) (firstn j h1))).

Definition with_first (t : dataset) (h : changes) : changes := ([], rows t) :: h.
Lemma psi_facts stash node days start max d t0 t1 D0 D1 h0 h1 l0 l1 :
  del_facts (Gr := Gr) hash stash node n0 n1 days start max PSI d t0 t1 D0 D1 h0 h1 l0 l1 -> uint32 max -> no_zero_element t0 h0 -> no_zero_element t1 h1 ->
  let g0 := number_history (with_first t0 h0) in let g1 := number_history (with_first t1 h1) in
  proper_history g0 /\ proper_history g1 /\ length g0 = S (Z.to_nat days) /\ length g1 = S (Z.to_nat days) /\
  data_of (fun x => x) l0 g0 /\ data_of (fun _ => 1) l1 g1 /\ (forall k, (k < length g0)%nat -> no_return k g0 g1) /\
  (forall j, (j <= Z.to_nat days)%nat -> both (current (S j) g0) (current (S j) g1) = meet_after t0 t1 h0 h1 j) /\
  (forall j, (j <= Z.to_nat days)%nat -> Z.of_nat (length (meet_after t0 t1 h0 h1 j)) = score PSI (held_after (rows t0) (firstn j h0)) (held_after (rows t1) (firstn j h1))).
Proof.
  intros F UM N0 N1 g0 g1. pose proof F as [A1 A2 A3 O0 O1 A6 A7 W0 W1 C1 C2 C3 C4 C5 C6 PS LO0 LO1 TR _ CH]. unfold no_zero_element in *.
  assert (E0 : Forall (fun r => set_element (fst r)) (rows t0 ++ concat (map snd h0))) by (eapply Forall_impl; [|exact W0]; cbn; tauto).
  assert (E1 : Forall (fun r => set_element (fst r)) (rows t1 ++ concat (map snd h1))) by (eapply Forall_impl; [|exact W1]; cbn; tauto).
  assert (V0' : Forall (fun r => snd r = numeric_string2uint (fst r) /\ 0 < snd r) (rows t0 ++ concat (map snd h0))).
  { rewrite Forall_forall in *. intros r Hr. destruct (W0 r Hr) as (Q1 & Q2). cbn [value_ok] in Q2. rewrite stoll_set_element in Q2 by auto. apply Ok_inj' in Q2. specialize (N0 r Hr). pose proof (number_range _ Q1) as NR. split; [exact Q2|]. apply Z.le_neq. split; [apply (Z.le_trans _ (numeric_string2uint (fst r))); [apply NR|apply Z.eq_le_incl; symmetry; exact Q2]|]. intros Q3. apply N0. transitivity (snd r); [symmetry; exact Q2|symmetry; exact Q3]. }
  assert (V1' : Forall (fun r => snd r = 1 /\ 0 < snd r) (rows t1 ++ concat (map snd h1))). { eapply Forall_impl; [|exact W1]. cbn beta. intros r (Q1 & Q2). lia. }
  assert (OH0 : only_held [] (with_first t0 h0)). { cbn [with_first only_held]. split; [constructor|]. split; [intros x []|]. exact O0. }
  assert (OH1 : only_held [] (with_first t1 h1)). { cbn [with_first only_held]. split; [constructor|]. split; [intros x []|]. exact O1. }
  destruct (PS (Z.max max (10 ^ 15))) as ((_ & IR0) & (_ & IR1)); [apply Z.le_max_r|apply Z.le_max_l|].
  assert (LG0 : length g0 = S (Z.to_nat days)) by (unfold g0, number_history; rewrite map_length; cbn [with_first length]; f_equal; exact C3).
  assert (LG1 : length g1 = S (Z.to_nat days)) by (unfold g1, number_history; rewrite map_length; cbn [with_first length]; f_equal; exact C4).
  assert (LW0 : length (with_first t0 h0) = S (Z.to_nat days)) by (cbn [with_first length]; f_equal; exact C3).
  assert (LW1 : length (with_first t1 h1) = S (Z.to_nat days)) by (cbn [with_first length]; f_equal; exact C4).
  split; [apply proper_numbers; auto|]. split; [apply proper_numbers; auto|]. split; [auto|]. split; [auto|].
  split. { split; auto. rewrite C1. change (rows t0 :: map written h0) with (map written (with_first t0 h0)). apply (rows_numbers _ OH0). exact V0'. }
  split. { split; auto. rewrite C2. change (rows t1 :: map written h1) with (map written (with_first t1 h1)). apply (rows_numbers _ OH1). exact V1'. }
  split.
  { intros k L x Hx Hy. apply both_In in Hx as (X1 & X2). apply both_In in Hy as (Y1 & Y2). apply both_In.
    split; [apply (no_return_one (with_first t0 h0)); auto|apply (no_return_one (with_first t1 h1)); auto]; lia. }
  assert (CN : forall j, (j <= Z.to_nat days)%nat -> both (current (S j) g0) (current (S j) g1) = meet_after t0 t1 h0 h1 j).
  { intros j L. unfold g0, g1. rewrite (current_numbers _ OH0 E0 (S j)), (current_numbers _ OH1 E1 (S j)) by lia. reflexivity. }
  split; [exact CN|]. intros j L. unfold meet_after. rewrite both_numbers; [reflexivity| |]; apply held_forall; apply forall_prefix; auto.
Qed.

Lemma pinv_deployed (l0 l1 : list (list entry)) stash node a0 o0 a1 o1 : l0 <> [] -> l1 <> [] ->
  reach (hash_entry hash) a0 (length (nth 0 l0 [])) -> reach (hash_entry hash) a1 (length (nth 0 l1 [])) ->
  mirrors (del_rep n0) pad_entry a0 o1 -> mirrors (del_rep n1) pad_entry a1 o0 ->
  let st := psi_start_with stash node (a0, o0) (a1, o1) (tl l0) (tl l1) in pinv hash p0 q0 p1 q1 (halves l0) (halves l1) l0 l1 1 1 (fst (fst st)) (snd (fst st)).
Proof.
  intros N0 N1 R0 R1 M0 M1. destruct l0 as [|s0 l0]; [congruence|]. destruct l1 as [|s1 l1]; [congruence|]. cbn [nth tl] in *.
  assert (L : forall s l, length (upto (2 * 1) (halves (s :: l))) = length s).
  { intros s l. change (upto (2 * 1) (halves (s :: l))) with (concat (halves [s])). rewrite concat_halves. cbn [concat]. rewrite app_nil_r. auto. }
  constructor; cbn [psi_start_with fst snd pc_party ps_party pg_my pg_other pc_day ps_day pc_total pc_data ps_data]; auto.
  constructor; cbn [pg_my pg_other]; rewrite ?L; auto.
Qed.
Lemma holds_first (t : tree entry) l : l <> [] -> holds t (upto 1 l) -> holds t (upto (2 * 1) (halves l)).
Proof.
  destruct l as [|s l]; [congruence|]. intros _ H x. rewrite H. apply net_perm. change (upto (2 * 1) (halves (s :: l))) with (filter (fun e => snd e <? 0) s ++ filter (fun e => 0 <=? snd e) s ++ []).
  unfold upto. cbn [firstn concat]. rewrite !app_nil_r. clear. induction s as [|e s IH]; [constructor|]. cbn [filter].
  destruct (Z.ltb_spec (snd e) 0), (Z.leb_spec 0 (snd e)); try lia; [constructor; auto|apply Permutation_cons_app; auto].
Qed.

Lemma psi_of_facts stash node days daily start max_value d k tp2 tree0 tree1 D0 D1 h0 h1 l0 l1 :
  del_request stash node days daily start max_value -> 2 ^ 65 <= n0 -> 2 ^ 65 <= n1 -> Z.of_nat k <= days ->
  del_facts (Gr := Gr) hash stash node n0 n1 days start (u32 max_value) PSI d tree0 tree1 D0 D1 h0 h1 l0 l1 ->
  no_zero_element tree0 h0 -> no_zero_element tree1 h1 ->
  let meet := meet_after tree0 tree1 h0 h1 in
  forall c0 s0 di0 trace coins3, psi_deployed_run hash P0 P1 V0 V1 stash node circuit_input d k tp2 = Ok (((c0, s0, di0), trace), coins3) ->
  length trace = k /\ (start = 0 -> holds (pg_my (ps_party s0)) (upto 1 l1)) /\
  forall j c s di, nth_error trace j = Some (c, s, di) -> holds (pg_my (ps_party s0)) (upto 1 l1) ->
    (forall i st, (i <= j)%nat -> nth_error trace i = Some st -> lucky_psi_day circuit_input p0 q0 p1 q1 l0 l1 (S i) st) ->
    pc_result c = (Z.of_nat (length (meet (S j))) - Z.of_nat (length (meet 0%nat))) mod 2 ^ 64 /\
    (Z.of_nat (S j) = days -> pc_result c = dd_expected d mod 2 ^ 64) /\
    signed_change (pc_set c) (meet (S j)) (meet 0%nat) /\
    (start = 0 -> same_set (pc_set c) (meet (S j))).
Proof.
  intros RQ N0 N1 LK F Z0 Z1. cbv zeta.
  destruct RQ as ((HH & K0 & K1) & S1 & S2 & U1 & U2 & U3 & DP & SM & B0 & B1 & M0 & M1).
  assert (UM : uint32 (u32 max_value)) by (apply Z.mod_pos_bound; reflexivity).
  destruct (psi_facts _ _ _ _ _ _ _ _ _ _ _ _ _ _ F UM Z0 Z1) as (PH0 & PH1 & LG0 & LG1 & DO0 & DO1 & NR & CN & SC).
  set (g0 := number_history (with_first tree0 h0)) in *. set (g1 := number_history (with_first tree1 h1)) in *.
  pose proof F as [A1 A2 A3 A4 A5 A6 A7 A8 A9 C1 C2 C3 C4 C5 C6 PS LO0 LO1 TR _ CH].
  destruct TR as (a0 & o0 & a1 & o1 & T0 & T1 & R0 & R1 & MI0 & MI1 & NEW).
  intros c0 s0 di0 trace tp3 E. unfold psi_deployed_run in E.
  apply bind_Ok in E as (d1 & u1 & Q & E). apply lift_Ok in Q as (Q & ->). rewrite LO1 in Q. apply Ok_inj' in Q. subst d1.
  apply bind_Ok in E as (tt1 & u2 & Q & E). apply lift_Ok in Q as (Q & ->). rewrite T1 in Q. apply Ok_inj' in Q. subst tt1.
  apply bind_Ok in E as (d0 & u3 & Q & E). apply lift_Ok in Q as (Q & ->). rewrite LO0 in Q. apply Ok_inj' in Q. subst d0.
  apply bind_Ok in E as (tt0 & u4 & Q & E). apply lift_Ok in Q as (Q & ->). rewrite T0 in Q. apply Ok_inj' in Q. subst tt0.
  cbv zeta in E. apply bind_Ok in E as (tr & u5 & ER & E). apply ret_Ok in E as (E & ->). apply pair_equal_spec in E as (ES & <-).
  assert (NE0 : l0 <> []) by (rewrite C1; discriminate). assert (NE1 : l1 <> []) by (rewrite C2; discriminate).
  pose proof (pinv_deployed l0 l1 stash node a0 o0 a1 o1 NE0 NE1 R0 R1 MI0 MI1) as PI. cbv zeta in PI. rewrite <- ES in PI, ER. cbn [fst snd] in PI.
  assert (L0 : length l0 = length g0) by (destruct DO0 as (FF & _); clear - FF; induction FF; cbn; lia).
  assert (L1 : length l1 = length g1) by (destruct DO1 as (FF & _); clear - FF; induction FF; cbn; lia).
  assert (PR0 : proper_signed n1 (halves l0)) by (apply (proper_halves (fun x => x) n1 l0 g0); auto).
  assert (PR1 : proper_signed n0 (halves l1)) by (apply (proper_halves (fun _ => 1) n0 l1 g1); auto; intros; lia).
  assert (LG : length g1 = length g0) by lia.
  assert (BR : Forall (fun x => 0 < x < 2 ^ 63) (both (current 1 g0) (current 1 g1))) by (apply (meet_range g0 g1 PH0 1); lia).
  set (Inv := fun (j : nat) (st : Z * list Z) => (1 <= j)%nat /\ fst st = (Z.of_nat (length (both (current j g0) (current j g1))) - Z.of_nat (length (both (current 1 g0) (current 1 g1)))) mod 2 ^ 64 /\
    signed_change (snd st) (both (current j g0) (current j g1)) (both (current 1 g0) (current 1 g1))).
  assert (STEP : forall k us st st', (k < length l0)%nat -> Inv k st ->
     Permutation us (filter (fun u => 0 <? u) (map (fun v => v mod 2 ^ 64) (values0 k (halves l0) (halves l1) ++ values1 k (halves l0) (halves l1)))) ->
     apply_updates us st = Ok st' -> Inv (S k) st').
  { intros i us [r S0] [r' S'] Hi (I0 & I1 & I2) PU AU. rewrite L0 in Hi. cbn [fst snd] in *. split; [lia|]. cbn [fst snd]. split.
    - eapply (count_step g0 g1 l0 l1 PH0 PH1 (proj1 DO0) (proj1 DO1) LG); eauto.
    - eapply (signed_step g0 g1 l0 l1 PH0 PH1 (proj1 DO0) (proj1 DO1) LG); eauto. }
  pose proof (ptrace_spec (Gr := Gr) hash circuit_input HH p0 q0 p1 q1 P0 P1 V0 V1 K0 K1 (halves l0) (halves l1) PR0 PR1 l0 l1 eq_refl eq_refl ltac:(lia) 1 N0 Inv STEP k 1 c0 s0 di0 tp2 trace u5 ltac:(lia) PI ER) as (X1 & X2 & X3).
  split; [auto|]. split.
  { intros S0. destruct (NEW S0) as (_ & ->). unfold psi_start_with in ES. apply pair_equal_spec in ES as (ES & _). apply pair_equal_spec in ES as (_ & ->). cbn [ps_party pg_my fst snd].
    rewrite C2, upto_rows. cbn [firstn map concat]. rewrite app_nil_r. destruct (rows tree1); [|cbn in C6; lia]. apply holds_new. }
  intros j c s di EJ H1 GD. assert (LJ : (j < length trace)%nat) by (apply nth_error_Some; congruence).
  assert (IJ : Inv (S (1 + j)) (pc_result c, pc_set c)).
  { apply (X3 (holds_first _ _ NE1 H1)) with (s' := s) (di' := di); auto.
    - split; [lia|]. unfold psi_start_with in ES. apply pair_equal_spec in ES as (ES & _). apply pair_equal_spec in ES as (EC & _). apply (f_equal (fun c => (pc_result c, pc_set c))) in EC. cbn [pc_result pc_set] in EC. rewrite EC. cbn [fst snd].
      rewrite Z.sub_diag. split; [reflexivity|]. split; [constructor|]. intros v. cbn. tauto. }
  destruct IJ as (_ & I1 & I2). cbn [fst snd] in *. change (1 + j)%nat with (S j) in *. rewrite !CN in I1 by lia. rewrite !CN in I2 by lia.
  split; [exact I1|]. split; [|split; [exact I2|]].
  - intros LAST. rewrite I1, !SC, CH by lia. f_equal. rewrite !(firstn_all2 _ (n := S j)) by lia. reflexivity.
  - intros S0. destruct I2 as (ND & I2). split; [auto|]. intros x. rewrite I2. unfold meet_after at 2 3. cbn [firstn held_after]. destruct (rows tree0); [|cbn in C5; lia]. cbn. tauto.
Qed.

(** After day [j], if party one's initial tree holds its initial set and nothing
    went wrong up to this day: the counter is the size of the intersection now
    minus its size at the start (modulo 2^64; after the last day the number
    announced by the setup program), and the set kept by party zero is the
    difference between the two intersections, x standing for an element gained
    and -x for an element lost; with empty initial sets it is the intersection. *)
Theorem C56_psi : forall stash node days daily start max_value coins d coins1 k coins2,
  del_request stash node days daily start max_value -> 2 ^ 65 <= n0 -> 2 ^ 65 <= n1 ->
  del_generate (Gr := Gr) hash V0 V1 stash node days daily start max_value PSI coins = Ok (d, coins1) -> Z.of_nat k <= days ->
  exists tree0 tree1 h0 h1, generated d days start tree0 tree1 h0 h1 /\
  (no_zero_element tree0 h0 -> no_zero_element tree1 h1 ->
  let l0 := history_of (rows tree0) h0 in let l1 := history_of (rows tree1) h1 in
  let meet := meet_after tree0 tree1 h0 h1 in
  forall c0 s0 di0 trace coins3, psi_deployed_run hash P0 P1 V0 V1 stash node circuit_input d k coins2 = Ok (((c0, s0, di0), trace), coins3) ->
  length trace = k /\ (start = 0 -> holds (pg_my (ps_party s0)) (upto 1 l1)) /\
  forall j c s di, nth_error trace j = Some (c, s, di) -> holds (pg_my (ps_party s0)) (upto 1 l1) ->
    (forall i st, (i <= j)%nat -> nth_error trace i = Some st -> lucky_psi_day circuit_input p0 q0 p1 q1 l0 l1 (S i) st) ->
    pc_result c = (Z.of_nat (length (meet (S j))) - Z.of_nat (length (meet 0%nat))) mod 2 ^ 64 /\
    (Z.of_nat (S j) = days -> pc_result c = dd_expected d mod 2 ^ 64) /\
    signed_change (pc_set c) (meet (S j)) (meet 0%nat) /\
    (start = 0 -> same_set (pc_set c) (meet (S j)))).
Proof.
  intros stash node days daily start max_value tp d tp1 k tp2 RQ N0 N1 EG LK.
  pose proof (facts_generated stash node days daily start max_value PSI tp RQ) as X. rewrite EG in X.
  destruct X as (t0 & t1 & D0 & D1 & h0 & h1 & l0 & l1 & F & G & EL0 & EL1). exists t0, t1, h0, h1. split; auto. intros Z0 Z1. cbv zeta. rewrite <- EL0, <- EL1.
  intros. eapply psi_of_facts; eauto.
Qed.

(** The setup program crashes at most if a string is drawn twice. *)
Theorem C56_setup_returns : forall stash node days daily start max_value func coins,
  del_request stash node days daily start max_value -> 0 < daily -> usable func (u32 max_value) ->
  let total := start + days * daily in
  exists u0 u1 coins', (let! (us, c) := shared_universe (Z.to_nat (total / 3)) func (u32 max_value) [] [] coins in own_universe (Z.to_nat (total - total / 3)) func (u32 max_value) (fst us) (snd us) c) = Ok ((u0, u1), coins') /\
  (Z.of_nat (length u0) = total -> Z.of_nat (length u1) = total ->
   match del_generate (Gr := Gr) hash V0 V1 stash node days daily start max_value func coins with Ok _ | Err _ => True | _ => False end).
Proof.
  intros stash node days daily start max_value func tp ((HH & K0 & K1) & S1 & S2 & U1 & U2 & U3 & DP & SM & _) DY US total.
  assert (UM : uint32 (u32 max_value)) by (apply Z.mod_pos_bound; reflexivity).
  destruct (C43_returns days daily start (u32 max_value) func tp U1 U2 U3 UM DY US ltac:(lia)) as (u0 & u1 & tp' & E & _ & R).
  exists u0, u1, tp'. split; [exact E|]. intros L0 L1. destruct (R L0 L1) as (r & ER).
  pose proof (del_generate_facts (Gr := Gr) stash node S1 S2 hash HH p0 q0 p1 q1 P0 P1 V0 V1 K0 K1 days daily start max_value func U1 U2 U3 SM DP tp) as X.
  destruct (del_generate hash V0 V1 stash node days daily start max_value func tp) as [?| | |]; auto; rewrite ER in X; discriminate.
Qed.
End C56.

(** ** concrete cases: one day of one element after initial sets of one element *)
Definition ex_del_coins : tape := fun i => 10 ^ 15 + Z.of_nat i.
(** set up, run the day, see whether it was lucky: the announced number and the
    result *)
Definition ex_del_setup (k : Z) : option (Z * Z) :=
  match del_generate (Gr := zmod_group 11 prime_11') ex_hash exk0V exk1V 1 1 1 1 1 20 SUM (PropsData.ex_coins k) with
  | Ok (d, _) =>
    let '(t0, D0, t1, D1) := dd_data d in
    match omap dataset_pairs (t0 :: D0), omap dataset_pairs (t1 :: D1), del_deployed_run ex_hash exk0P exk1P exk0V exk1V 1 1 ex_circuit d 1 ex_del_coins with
    | Ok l0, Ok l1, Ok (((c, s, _), [st]), _) =>
        if holds_b (pt_my (dc_party c)) (upto 1 l0) && holds_b (pt_my (ds_party s)) (upto 1 l1) &&
           lucky_day_b ex_circuit (100011167 * 100014059) (100015079 * 100024187) l0 l1 1 st then Some (dd_expected d, dc_result (fst (fst st))) else None
    | _, _, _ => None end
  | _ => None end.
Example ex_C56 : match ex_del_setup 1 with Some (a, b) => (a =? 16) && (b =? 16) | None => false end = true.
Proof. vm_cast_no_check (eq_refl true). Qed.
Example ex_C56_request : del_request ex_hash 100011167 100014059 100015079 100024187 exk0P exk1P exk0V exk1V 1 1 1 1 1 20 /\
  del_request ex_hash 8589942443 8589951347 8589952139 8589957359 exl0P exl1P exl0V exl1V 1 1 1 1 1 20 /\
  2 ^ 65 <= 8589942443 * 8589951347 /\ 2 ^ 65 <= 8589952139 * 8589957359 /\ usable SUM (u32 20) /\ usable PSI (u32 20).
Proof.
  assert (HL : forall x, length (ex_hash x) = 256%nat) by (intros x; unfold ex_hash; rewrite map_length; apply seq_length).
  assert (U : uint32 1) by (unfold uint32; lia).
  assert (UM : u32 20 = 20) by reflexivity.
  split; [|split; [|split; [lia|split; [lia|cbn; lia]]]]; (split; [split; [exact HL|]; split; first [apply exk0_pair|apply exk1_pair|apply exl0_pair|apply exl1_pair]|]);
    do 2 (split; [reflexivity|]); do 3 (split; [exact U|]); rewrite UM; lia.
Qed.
Definition ex_psi_setup (k : Z) : option (Z * Z * list Z * list Z * bool) :=
  match del_generate (Gr := zmod_group 11 prime_11') ex_hash exl0V exl1V 1 1 1 1 1 20 PSI (PropsData.ex_coins k) with
  | Ok (d, _) =>
    let '(t0, D0, t1, D1) := dd_data d in
    match omap dataset_pairs (t0 :: D0), omap dataset_pairs (t1 :: D1), psi_deployed_run ex_hash exl0P exl1P exl0V exl1V 1 1 ex_circuit d 1 ex_del_coins with
    | Ok l0, Ok l1, Ok (((c, s, _), [st]), _) =>
        if holds_b (pg_my (ps_party s)) (upto 1 l1) && lucky_psi_b ex_circuit (8589942443 * 8589951347) (8589952139 * 8589957359) l0 l1 1 st
        then Some (dd_expected d, pc_result (fst (fst st)), pc_set (fst (fst st)), both (map fst (concat l0)) (map fst (concat l1)), forallb (fun e => negb (fst e =? 0)) (concat l0 ++ concat l1)) else None
    | _, _, _ => None end
  | _ => None end.
Example ex_C56_psi : match ex_psi_setup 9 with Some (a, b, s, m, nz) => (a =? 1) && (b =? 1) && list_eqb s m && (length s =? 1)%nat && nz | None => false end = true.
Proof. vm_cast_no_check (eq_refl true). Qed.
(** an element lost shows up with a minus sign *)
Example ex_C56_lost : match apply_updates [(- 7) mod 2 ^ 64] (0, []) with Ok (r, s) => r = 2 ^ 64 - 1 /\ s = [-7] | _ => False end.
Proof. vm_compute. auto. Qed.
Example ex_C56_signed : signed_change [-7; 8] [5; 8] [5; 7].
Proof.
  split; [constructor; [cbn; lia|constructor; [cbn; tauto|constructor]]|]. intros v. cbn. lia.
Qed.

Print Assumptions C56_change_of_result.
Print Assumptions C56_psi.
Print Assumptions C56_setup_returns.
