(** * C74: the stack the secure computations need.

    GarbledCircuit keeps an array entry on the stack for every position.  How many
    positions there are follows from the public sizes (the stash, the node size,
    the hashes received) and the elements looked up; a day fits in the stack or
    the program crashes, and nothing in the code looks at how much there is. *)
Require Import List Arith Lia ZArith Bool.
Import ListNotations.
From Verif Require Import Prelude TreeModel TreeSpec TreeDelModel Coins Group ElGamalModel BytesModel CipherModel PaillierModel PaillierProofs PropsPaillier WireModel SyncModel SyncSpec AddModel AddSpec DelModel DelSpec DelRun BigPrime PropsDel ShapeSpec ShapeProofs PropsShape.
From Verif Require Import PsiModel PsiSpec PsiRun PropsPsi PropsPsiCrash GcModel GcProofs GcCrash PropsGc StackModel StackProofs StackPsi DelProofs.

(** bytes per position of deletion: two integers, a bit, the choice bits *)
Definition per_position (z : sizes) (n : Z) : nat := 2 * sz_integer z + sz_bit z + blocks_for n.
(** the most a lookup can find in a tree that received [count] elements (C58_bound) *)
Definition longest (stash node count : nat) : nat := stash + (Nat.log2 count + 1) * node.

Section C74.
Context {Gr : group}.
Variable hash : Z -> list bool.
Hypothesis hash_len : forall x, length (hash x) = 256.
Variable circuit_input : Z -> outcome (list bool).
Variables (p0 q0 p1 q1 : Z) (P0 P1 : pub) (V0 V1 : priv).
Hypothesis key0 : paillier_pair p0 q0 P0 V0.
Hypothesis key1 : paillier_pair p1 q1 P1 V1.
Notation n0 := (p0 * q0)%Z. Notation n1 := (p1 * q1)%Z.
Variable z : sizes.
Variables room0 room1 : nat.
Notation del_own := (del_day_own (Gr := Gr) hash circuit_input P0 P1 V0 V1).
Notation psi_own := (psi_day_own (Gr := Gr) hash circuit_input P0 P1 V0 V1).
Notation del_stack := (del_day_stack z room0 room1 circuit_input (Gr := Gr) hash P0 P1 V0 V1).
Notation psi_stack := (psi_day_stack z room0 room1 circuit_input (Gr := Gr) hash P0 P1 V0 V1).

Lemma n_eq : pp_n P0 = n0 /\ pv_n V0 = n0 /\ pp_n P1 = n1 /\ pv_n V1 = n1.
Proof.
  destruct (pair_keyed _ _ _ _ key0) as (_ & E0 & _). destruct (pair_keyed _ _ _ _ key1) as (_ & E1 & _).
  destruct key0 as (_ & f0 & H0). destruct key1 as (_ & f1 & H1). apply priv_new_spec in H0, H1. tauto.
Qed.

(** The stack changes nothing but whether the program survives. *)
Theorem C74_deletion_same : forall k start coins,
  run_own del_stack k start coins = run_own del_own k start coins \/ run_own del_stack k start coins = UB.
Proof. intros. apply run_cases. intros. apply del_day_cases. Qed.
Theorem C74_psi_same : forall k start coins,
  run_own psi_stack k start coins = run_own psi_own k start coins \/ run_own psi_stack k start coins = UB.
Proof. intros. apply run_cases. intros. apply psi_day_cases. Qed.

(** ** deletion *)
(** The number of positions: one lookup for each of the day's elements, in what
    the party knew of the other's tree (party one: including today's update). *)
Theorem C74_deletion_positions : forall stash node d0 d1 k coins trace coins',
  length d1 = length d0 -> int_range (length (concat d0)) -> int_range (length (concat d1)) -> k <= length d0 ->
  run_own del_own k (del_start stash node d0 d1) coins = Ok (trace, coins') ->
  exists hist0 hist1 : list (list bytes),
  map (@length _) hist0 = map (@length _) (firstn k d0) /\ map (@length _) hist1 = map (@length _) (firstn k d1) /\
  forall j c s rounds, nth_error trace j = Some (c, s, rounds) ->
    let zero := lookups stash node (firstn j hist1) (map (fun e => hash (fst e)) (nth j d0 [])) in
    let one := lookups stash node (firstn (S j) hist0) (map (fun e => hash (fst e)) (nth j d1 [])) in
    length (pt_x (dc_party c)) = zero /\ length (pt_y (ds_party s)) = zero /\
    length (pt_x (ds_party s)) = one /\ length (pt_y (dc_party c)) = one.
Proof.
  intros st nd d0 d1 k co trace co' L R0 R1 LE E.
  change (del_start st nd d0 d1) with (fst (fst (del_start st nd d0 d1)), snd (fst (del_start st nd d0 d1)), snd (del_start st nd d0 d1)) in E.
  destruct (own_trace circuit_input hash P0 P1 V0 V1 hash_len st nd d0 d1 k 0 [] [] _ _ _ _ _ _ (einv_start (Gr := Gr) hash V0 V1 st nd d0 d1) ltac:(lia) ltac:(lia) eq_refl eq_refl R0 R1 E) as (g0 & g1 & _ & _ & M0 & M1 & F).
  exists g0, g1. split; [exact M0|]. split; [exact M1|]. exact F.
Qed.
(** A run that would succeed does so exactly if every day fits. *)
Theorem C74_deletion_stack : forall k start coins trace coins',
  run_own del_own k start coins = Ok (trace, coins') ->
  let fits (st : dclient * dserver * (round * round)) := let '(c, s, _) := st in
    per_position z n1 * length (pt_x (dc_party c)) <= room0 /\ per_position z n0 * length (pt_y (dc_party c)) <= room0 /\
    per_position z n0 * length (pt_x (ds_party s)) <= room1 /\ per_position z n1 * length (pt_y (ds_party s)) <= room1 in
  ((forall st, In st trace -> fits st) -> run_own del_stack k start coins = Ok (trace, coins')) /\
  ((exists st, In st trace /\ ~ fits st) -> run_own del_stack k start coins = UB).
Proof.
  intros k st co trace co' E fits.
  assert (Q : forall x, day_fits z room0 room1 P0 P1 V0 V1 x <-> fits x).
  { intros [[c s] rr]. unfold day_fits, del_fits, fits, del_need, per_position. cbn [fst snd]. destruct n_eq as (-> & -> & -> & ->). split; intros (A & B & C & D); repeat split; lia. }
  destruct (run_fits _ _ _ _ (del_day_fits (Gr := Gr) z room0 room1 circuit_input hash P0 P1 V0 V1) k st co trace co' E) as [(F & X)|(F & X)]; split; intros H; auto.
  - destruct H as (x & IN & NF). rewrite Forall_forall in F. exfalso. apply NF, Q, F, IN.
  - exfalso. apply F. apply Forall_forall. intros x IN. apply Q, H, IN.
Qed.
(** Enough: room for the longest lookups. *)
Theorem C74_deletion_enough : forall stash node d0 d1 k coins trace coins',
  length d1 = length d0 -> int_range (length (concat d0)) -> int_range (length (concat d1)) -> k <= length d0 ->
  (forall j, j < k ->
     per_position z n1 * (length (nth j d0 []) * longest stash node (length (concat (firstn j d1)))) <= Nat.min room0 room1 /\
     per_position z n0 * (length (nth j d1 []) * longest stash node (length (concat (firstn (S j) d0)))) <= Nat.min room0 room1) ->
  run_own del_own k (del_start stash node d0 d1) coins = Ok (trace, coins') ->
  run_own del_stack k (del_start stash node d0 d1) coins = Ok (trace, coins').
Proof.
  intros st nd d0 d1 k co trace co' L R0 R1 LE EN E.
  destruct (C74_deletion_positions _ _ _ _ _ _ _ _ L R0 R1 LE E) as (h0 & h1 & M0 & M1 & F).
  apply (C74_deletion_stack _ _ _ _ _ E). intros [[c s] rr] IN. apply In_nth_error in IN as (j & IN).
  assert (JK : j < k). { apply run_own_length in E. rewrite <- E. apply nth_error_Some. congruence. }
  destruct (F _ _ _ _ IN) as (-> & -> & -> & ->). destruct (EN _ JK) as (A & B).
  assert (Q : forall (h : list (list bytes)) (d : list (list entry)) i, map (@length _) h = map (@length _) (firstn k d) -> i <= k -> length (concat (firstn i h)) = length (concat (firstn i d))).
  { intros h d i M I. apply concat_len. rewrite <- !firstn_map, M, <- firstn_map, firstn_firstn. f_equal. lia. }
  pose proof (lookups_le st nd (firstn j h1) (map (fun e : entry => hash (fst e)) (nth j d0 []))) as Z0. rewrite map_length, (Q _ d1) in Z0 by (auto; lia).
  pose proof (lookups_le st nd (firstn (S j) h0) (map (fun e : entry => hash (fst e)) (nth j d1 []))) as Z1. rewrite map_length, (Q _ d0) in Z1 by (auto; lia).
  unfold longest in *. apply (Nat.mul_le_mono_l _ _ (per_position z n1)) in Z0. apply (Nat.mul_le_mono_l _ _ (per_position z n0)) in Z1.
  pose proof (Nat.le_trans _ _ _ Z0 A) as G0. pose proof (Nat.le_trans _ _ _ Z1 B) as G1. apply Nat.min_glb_iff in G0, G1. tauto.
Qed.
(** Too little: once the other party has anything, an element costs at least the
    stash.  Then the crash comes on a day that without this limit would have gone well. *)
Theorem C74_deletion_crash : forall stash node d0 d1 k coins trace coins' j,
  length d1 = length d0 -> int_range (length (concat d0)) -> int_range (length (concat d1)) -> k <= length d0 -> j < k ->
  (concat (firstn j d1) <> [] /\ Nat.min room0 room1 < per_position z n1 * (length (nth j d0 []) * stash) \/
   concat (firstn (S j) d0) <> [] /\ Nat.min room0 room1 < per_position z n0 * (length (nth j d1 []) * stash)) ->
  run_own del_own k (del_start stash node d0 d1) coins = Ok (trace, coins') ->
  run_own del_stack k (del_start stash node d0 d1) coins = UB.
Proof.
  intros st nd d0 d1 k co trace co' j L R0 R1 LE JK BIG E.
  destruct (C74_deletion_positions _ _ _ _ _ _ _ _ L R0 R1 LE E) as (h0 & h1 & M0 & M1 & F).
  apply (C74_deletion_stack _ _ _ _ _ E).
  destruct (nth_error trace j) as [[[c s] rr]|] eqn:IN. 2:{ apply nth_error_None in IN. apply run_own_length in E. lia. }
  exists (c, s, rr). split; [eapply nth_error_In; eauto|]. destruct (F _ _ _ _ IN) as (-> & -> & -> & ->).
  assert (Q : forall (h : list (list bytes)) (d : list (list entry)) i, map (@length _) h = map (@length _) (firstn k d) -> i <= k -> concat (firstn i d) <> [] -> concat (firstn i h) <> []).
  { intros h d i M I NE C. apply NE. apply length_zero_iff_nil. rewrite <- (concat_len (firstn i h)); [rewrite C; reflexivity|]. rewrite <- !firstn_map, M, <- firstn_map, firstn_firstn. f_equal. lia. }
  destruct BIG as [(NE & BIG)|(NE & BIG)]; intros (A & B & C & D).
  - apply (Q h1) in NE; [|auto|lia]. pose proof (lookups_ge st nd _ (map (fun e : entry => hash (fst e)) (nth j d0 [])) NE) as Z0. rewrite map_length in Z0.
    apply (Nat.mul_le_mono_l _ _ (per_position z n1)) in Z0. pose proof (Nat.lt_le_trans _ _ _ BIG Z0) as G.
    apply (Nat.lt_irrefl (Nat.min room0 room1)). eapply Nat.lt_le_trans; [exact G|]. apply Nat.min_glb; auto.
  - apply (Q h0) in NE; [|auto|lia]. pose proof (lookups_ge st nd _ (map (fun e : entry => hash (fst e)) (nth j d1 [])) NE) as Z0. rewrite map_length in Z0.
    apply (Nat.mul_le_mono_l _ _ (per_position z n0)) in Z0. pose proof (Nat.lt_le_trans _ _ _ BIG Z0) as G.
    apply (Nat.lt_irrefl (Nat.min room0 room1)). eapply Nat.lt_le_trans; [exact G|]. apply Nat.min_glb; auto.
Qed.

(** ** deletion-psi *)
(** bytes for [rows] elements with [positions] positions altogether: three vectors
    each, and the choice bits *)
Definition psi_bytes (n : Z) (rows positions : nat) : nat := 3 * sz_vector z * rows + blocks_for n * positions.
(** the lookups of [es], one by one *)
Definition each_lookup (stash node : nat) (hist : list (list bytes)) (es : list entry) : list nat :=
  map (fun e => lookup_size stash node (bits hist) (hash (fst e))) es.
Lemma load_len (rows : list entry) : length (fst (load_day rows)) + length (snd (load_day rows)) = length rows.
Proof. unfold load_day. cbn [fst snd]. induction rows as [|r rows IH]; [auto|]. cbn [filter]. destruct (is_deletion r); cbn [negb length]; lia. Qed.
Lemma halves_load (d : list (list entry)) : list_sum (halves_len (map load_day d)) = length (concat d).
Proof.
  induction d as [|r d IH]; [auto|]. cbn [map concat]. rewrite app_length, <- IH, <- (load_len r). unfold halves_len. cbn [flat_map app].
  change (list_sum (length (fst (load_day r)) :: length (snd (load_day r)) :: ?l)) with (length (fst (load_day r)) + (length (snd (load_day r)) + list_sum l)). lia.
Qed.
(** The positions of each element, in the order deletions - additions; the second
    half of a day already knows the other party's deletions of the day.  [hist0]
    and [hist1] have two updates for every day. *)
Theorem C74_psi_positions : forall stash node d0 d1 k coins trace coins',
  int_range (length (concat d0)) -> int_range (length (concat d1)) ->
  run_own psi_own k (psi_start stash node d0 d1) coins = Ok (trace, coins') ->
  exists hist0 hist1 : list (list bytes),
  let halves (d : list (list entry)) := flat_map (fun rows => [length (fst (load_day rows)); length (snd (load_day rows))]) (firstn k d) in
  map (@length _) hist0 = halves d0 /\ map (@length _) hist1 = halves d1 /\
  forall j c s di, nth_error trace j = Some (c, s, di) ->
    let '(dels0, adds0) := load_day (nth j d0 []) in
    let '(dels1, adds1) := load_day (nth j d1 []) in
    let zero := each_lookup stash node (firstn (2 * j) hist1) dels0 ++ each_lookup stash node (firstn (2 * j + 1) hist1) adds0 in
    let one := each_lookup stash node (firstn (2 * j + 1) hist0) dels1 ++ each_lookup stash node (firstn (2 * j + 2) hist0) adds1 in
    map (@length _) (pg_x (pc_party c)) = zero /\ map (@length _) (pg_y (ps_party s)) = zero /\
    map (@length _) (pg_x (ps_party s)) = one /\ map (@length _) (pg_y (pc_party c)) = one.
Proof.
  intros st nd d0 d1 k co trace co' R0 R1 E.
  assert (I : pxinv (Gr := Gr) hash V0 V1 st nd (map load_day d0) (map load_day d1) 0 [] [] (fst (fst (psi_start st nd d0 d1))) (snd (fst (psi_start st nd d0 d1)))).
  { constructor; cbn; auto. split; cbn; constructor. }
  change (psi_start st nd d0 d1) with (fst (fst (psi_start st nd d0 d1)), snd (fst (psi_start st nd d0 d1)), snd (psi_start st nd d0 d1)) in E.
  rewrite <- halves_load in R0, R1.
  destruct (psi_own_trace circuit_input hash P0 P1 V0 V1 hash_len st nd _ _ k 0 [] [] _ _ _ _ _ _ I eq_refl eq_refl R0 R1 E) as (g0 & g1 & _ & _ & M0 & M1 & F).
  assert (HL : forall d : list (list entry), halves_len (firstn k (map load_day d)) = flat_map (fun rows => [length (fst (load_day rows)); length (snd (load_day rows))]) (firstn k d)).
  { intros d. rewrite firstn_map. unfold halves_len. rewrite flat_map_concat_map, map_map, <- flat_map_concat_map. reflexivity. }
  exists g0, g1. cbv beta zeta. rewrite <- !HL. split; [exact M0|]. split; [exact M1|]. intros j c s di IN. specialize (F _ _ _ _ IN).
  cbn [Nat.add app] in F. cbv zeta in F. change (@nil entry, @nil entry) with (load_day []) in F. rewrite !map_nth in F.
  destruct (load_day (nth j d0 [])) as [dels0 adds0], (load_day (nth j d1 [])) as [dels1 adds1]. exact F.
Qed.
(** As C74_deletion_stack. *)
Theorem C74_psi_stack : forall k start coins trace coins',
  run_own psi_own k start coins = Ok (trace, coins') ->
  let bytes_of n (groups : list (list Z)) := psi_bytes n (length groups) (list_sum (map (@length _) groups)) in
  let fits (st : pclient * pserver * day_info) := let '(c, s, _) := st in
    bytes_of n1 (pg_x (pc_party c)) <= room0 /\ bytes_of n0 (pg_y (pc_party c)) <= room0 /\
    bytes_of n0 (pg_x (ps_party s)) <= room1 /\ bytes_of n1 (pg_y (ps_party s)) <= room1 in
  ((forall st, In st trace -> fits st) -> run_own psi_stack k start coins = Ok (trace, coins')) /\
  ((exists st, In st trace /\ ~ fits st) -> run_own psi_stack k start coins = UB).
Proof.
  intros k st co trace co' E bytes_of fits.
  assert (B : forall n g, psi_need z n g = bytes_of n g) by (intros; unfold bytes_of, psi_bytes, psi_need; rewrite sum_concat; lia).
  assert (Q : forall x, pday_fits z room0 room1 P0 P1 V0 V1 x <-> fits x).
  { intros [[c s] rr]. unfold pday_fits, psi_fits, fits. cbn [fst snd]. rewrite !B. destruct n_eq as (-> & -> & -> & ->). tauto. }
  destruct (run_fits _ _ _ _ (psi_day_fits (Gr := Gr) z room0 room1 circuit_input hash P0 P1 V0 V1) k st co trace co' E) as [(F & X)|(F & X)]; split; intros H; auto.
  - destruct H as (x & IN & NF). rewrite Forall_forall in F. exfalso. apply NF, Q, F, IN.
  - exfalso. apply F. apply Forall_forall. intros x IN. apply Q, H, IN.
Qed.
Lemma each_len st nd h es : length (each_lookup st nd h es) = length es.
Proof. apply map_length. Qed.
Lemma each_le st nd h es count : length (concat h) <= count -> list_sum (each_lookup st nd h es) <= length es * longest st nd count.
Proof.
  intros C. unfold each_lookup, longest. rewrite <- (list_sum_const _ es). apply list_sum_le. intros e _.
  pose proof (C58_bound st nd (bits h) (hash (fst e))) as B. unfold bits in *. rewrite concat_map_length in B.
  etransitivity; [exact B|]. pose proof (Nat.log2_le_mono _ _ C). apply Nat.add_le_mono_l, Nat.mul_le_mono_r. lia.
Qed.
Lemma each_ge st nd h es : concat h <> [] -> length es * st <= list_sum (each_lookup st nd h es).
Proof.
  intros NE. pose proof (lookups_ge st nd h (map (fun e => hash (fst e)) es) NE) as B. unfold lookups in B. rewrite map_length, map_map in B. exact B.
Qed.
Lemma halves_prefix (h : list (list bytes)) (d : list (list entry)) k i :
  map (@length _) h = flat_map (fun rows => [length (fst (load_day rows)); length (snd (load_day rows))]) (firstn k d) -> i <= k ->
  length (concat (firstn (2 * i) h)) = length (concat (firstn i d)).
Proof.
  intros M L. rewrite sum_concat, <- firstn_map, M. clear h M. revert d k L. induction i as [|i IH]; intros d [|k] L; try lia; try reflexivity.
  destruct d as [|r d]; [reflexivity|]. cbn [firstn flat_map concat app]. replace (2 * S i) with (S (S (2 * i))) by lia. cbn [firstn]. rewrite app_length, <- (IH d k), <- (load_len r) by lia.
  match goal with |- list_sum (?a :: ?b :: ?l) = _ => change (a + (b + list_sum l) = length (fst (load_day r)) + length (snd (load_day r)) + list_sum l) end. lia.
Qed.
Lemma prefix_le {A} (h : list (list A)) i j : i <= j -> length (concat (firstn i h)) <= length (concat (firstn j h)).
Proof.
  intros L. assert (E : firstn i h = firstn i (firstn j h)) by (rewrite firstn_firstn; f_equal; lia). rewrite E.
  rewrite <- (firstn_skipn i (firstn j h)) at 2. rewrite concat_app, app_length. lia.
Qed.
Lemma psi_bytes_le n r p q : p <= q -> psi_bytes n r p <= psi_bytes n r q.
Proof. intros L. unfold psi_bytes. apply Nat.add_le_mono_l, Nat.mul_le_mono_l. exact L. Qed.
Lemma lens_length {A} (g : list (list A)) l : map (@length A) g = l -> length g = length l.
Proof. intros <-. rewrite map_length. auto. Qed.
Theorem C74_psi_enough : forall stash node d0 d1 k coins trace coins',
  int_range (length (concat d0)) -> int_range (length (concat d1)) ->
  (forall j, j < k ->
     psi_bytes n1 (length (nth j d0 [])) (length (nth j d0 []) * longest stash node (length (concat (firstn (S j) d1)))) <= Nat.min room0 room1 /\
     psi_bytes n0 (length (nth j d1 [])) (length (nth j d1 []) * longest stash node (length (concat (firstn (S j) d0)))) <= Nat.min room0 room1) ->
  run_own psi_own k (psi_start stash node d0 d1) coins = Ok (trace, coins') ->
  run_own psi_stack k (psi_start stash node d0 d1) coins = Ok (trace, coins').
Proof.
  intros st nd d0 d1 k co trace co' R0 R1 EN E.
  destruct (C74_psi_positions _ _ _ _ _ _ _ _ R0 R1 E) as (h0 & h1 & M0 & M1 & F).
  apply (C74_psi_stack _ _ _ _ _ E). intros [[c s] di] IN. apply In_nth_error in IN as (j & IN).
  assert (JK : j < k). { apply run_own_length in E. rewrite <- E. apply nth_error_Some. congruence. }
  specialize (F _ _ _ _ IN). destruct (EN _ JK) as (A & B).
  pose proof (load_len (nth j d0 [])) as L0. pose proof (load_len (nth j d1 [])) as L1.
  destruct (load_day (nth j d0 [])) as [dels0 adds0], (load_day (nth j d1 [])) as [dels1 adds1]. cbn [fst snd] in L0, L1. destruct F as (F1 & F2 & F3 & F4).
  rewrite (lens_length _ _ F1), (lens_length _ _ F2), (lens_length _ _ F3), (lens_length _ _ F4), F1, F2, F3, F4, !list_sum_app, !app_length. rewrite !each_len, L0, L1.
  pose proof (halves_prefix _ _ _ (S j) M0 ltac:(lia)) as H0. pose proof (halves_prefix _ _ _ (S j) M1 ltac:(lia)) as H1. rewrite <- H0 in B. rewrite <- H1 in A.
  assert (Q0 := each_le st nd (firstn (2 * j) h1) dels0 _ (prefix_le h1 (2 * j) (2 * S j) ltac:(lia))).
  assert (Q1 := each_le st nd (firstn (2 * j + 1) h1) adds0 _ (prefix_le h1 (2 * j + 1) (2 * S j) ltac:(lia))).
  assert (Q2 := each_le st nd (firstn (2 * j + 1) h0) dels1 _ (prefix_le h0 (2 * j + 1) (2 * S j) ltac:(lia))).
  assert (Q3 := each_le st nd (firstn (2 * j + 2) h0) adds1 _ (prefix_le h0 (2 * j + 2) (2 * S j) ltac:(lia))).
  assert (W0 : list_sum (each_lookup st nd (firstn (2 * j) h1) dels0) + list_sum (each_lookup st nd (firstn (2 * j + 1) h1) adds0) <= length (nth j d0 []) * longest st nd (length (concat (firstn (2 * S j) h1)))).
  { rewrite <- L0, Nat.mul_add_distr_r. apply Nat.add_le_mono; assumption. }
  assert (W1 : list_sum (each_lookup st nd (firstn (2 * j + 1) h0) dels1) + list_sum (each_lookup st nd (firstn (2 * j + 2) h0) adds1) <= length (nth j d1 []) * longest st nd (length (concat (firstn (2 * S j) h0)))).
  { rewrite <- L1, Nat.mul_add_distr_r. apply Nat.add_le_mono; assumption. }
  pose proof (Nat.le_trans _ _ _ (psi_bytes_le n1 (length (nth j d0 [])) _ _ W0) A) as G0.
  pose proof (Nat.le_trans _ _ _ (psi_bytes_le n0 (length (nth j d1 [])) _ _ W1) B) as G1.
  apply Nat.min_glb_iff in G0, G1. tauto.
Qed.
Theorem C74_psi_crash : forall stash node d0 d1 k coins trace coins' j,
  int_range (length (concat d0)) -> int_range (length (concat d1)) -> j < k ->
  (concat (firstn j d1) <> [] /\ Nat.min room0 room1 < psi_bytes n1 (length (nth j d0 [])) (length (nth j d0 []) * stash) \/
   concat (firstn j d0) <> [] /\ Nat.min room0 room1 < psi_bytes n0 (length (nth j d1 [])) (length (nth j d1 []) * stash)) ->
  run_own psi_own k (psi_start stash node d0 d1) coins = Ok (trace, coins') ->
  run_own psi_stack k (psi_start stash node d0 d1) coins = UB.
Proof.
  intros st nd d0 d1 k co trace co' j R0 R1 JK BIG E.
  destruct (C74_psi_positions _ _ _ _ _ _ _ _ R0 R1 E) as (h0 & h1 & M0 & M1 & F).
  apply (C74_psi_stack _ _ _ _ _ E).
  destruct (nth_error trace j) as [[[c s] di]|] eqn:IN. 2:{ apply nth_error_None in IN. apply run_own_length in E. lia. }
  exists (c, s, di). split; [eapply nth_error_In; eauto|]. specialize (F _ _ _ _ IN).
  pose proof (load_len (nth j d0 [])) as L0. pose proof (load_len (nth j d1 [])) as L1.
  destruct (load_day (nth j d0 [])) as [dels0 adds0], (load_day (nth j d1 [])) as [dels1 adds1]. cbn [fst snd] in L0, L1. destruct F as (F1 & F2 & F3 & F4).
  assert (NE : forall (h : list (list bytes)) d i, map (@length _) h = flat_map (fun rows => [length (fst (load_day rows)); length (snd (load_day rows))]) (firstn k d) -> concat (firstn j d) <> [] -> 2 * j <= i -> concat (firstn i h) <> []).
  { intros h d i M N I C. apply N. apply length_zero_iff_nil. rewrite <- (halves_prefix h d k j M ltac:(lia)). pose proof (prefix_le h (2 * j) i I) as P. rewrite C in P. cbn [length] in P. lia. }
  assert (C0 : length (map (@length Z) (pg_x (pc_party c))) = length (nth j d0 [])) by (rewrite F1, app_length, !each_len; exact L0).
  assert (C1 : length (map (@length Z) (pg_x (ps_party s))) = length (nth j d1 [])) by (rewrite F3, app_length, !each_len; exact L1).
  assert (C2 := C0). assert (C3 := C1). rewrite F1, <- F2 in C2. rewrite F3, <- F4 in C3. rewrite !map_length in C0, C1, C2, C3.
  destruct BIG as [(N & BIG)|(N & BIG)]; intros (A & B & C & D).
  - assert (W : length (nth j d0 []) * st <= list_sum (map (@length Z) (pg_x (pc_party c)))).
    { rewrite F1, list_sum_app, <- L0, Nat.mul_add_distr_r. apply Nat.add_le_mono; apply each_ge; eapply NE; eauto; lia. }
    pose proof (Nat.lt_le_trans _ _ _ BIG (psi_bytes_le n1 (length (nth j d0 [])) _ _ W)) as G.
    rewrite F2, <- F1 in D. rewrite C0 in A. rewrite C2 in D. apply (Nat.lt_irrefl (Nat.min room0 room1)). eapply Nat.lt_le_trans; [exact G|]. apply Nat.min_glb; [exact A|exact D].
  - assert (W : length (nth j d1 []) * st <= list_sum (map (@length Z) (pg_x (ps_party s)))).
    { rewrite F3, list_sum_app, <- L1, Nat.mul_add_distr_r. apply Nat.add_le_mono; apply each_ge; eapply NE; eauto; lia. }
    pose proof (Nat.lt_le_trans _ _ _ BIG (psi_bytes_le n0 (length (nth j d1 [])) _ _ W)) as G.
    rewrite F4, <- F3 in B. rewrite C1 in C. rewrite C3 in B. apply (Nat.lt_irrefl (Nat.min room0 room1)). eapply Nat.lt_le_trans; [exact G|]. apply Nat.min_glb; [exact B|exact C].
Qed.
End C74.

(** ** Examples: the runs of ex_C73 and (one day of) ex_C73_psi *)
Definition ex_stack (room0 room1 : nat) := run_own (del_day_stack usual_sizes room0 room1 ex_circuit (Gr := zmod_group 11 prime_11') ex_hash exk0P exk1P exk0V exk1V) 2 (del_start 1 1 exd0 exd1) ex_coins3.
Definition ex_psi_stack (room0 room1 : nat) := run_own (psi_day_stack usual_sizes room0 room1 ex_circuit (Gr := zmod_group 11 prime_11') ex_hash exl0P exl1P exl0V exl1V) 1 (psi_start 1 1 exq0 exq1) (mkC3 (fun i => Z.of_nat (i * i / 3)) ex_psi_coins (fun i => 9 + Z.of_nat i mod 40)%Z).
Definition ends {A} (o : outcome A) : nat := match o with Ok _ => 1 | Err _ => 2 | Abort => 3 | UB => 0 end.
(** two days; on the second, party zero looks up one element (2 positions) and
    party one too (3 positions), 65 bytes each *)
Example ex_C74 : (ends (ex_stack 195 195), ends (ex_stack 195 194)) = (1, 0).
Proof. vm_cast_no_check (eq_refl (1, 0)). Qed.
Example ex_C74_psi : ends (ex_psi_stack 76 76) = 1.
Proof. vm_cast_no_check (eq_refl 1). Qed.
(** the hypotheses of C74_deletion_crash and C74_deletion_enough for this run (stash
    and nodes of size 1) *)
Definition ex_n0 : Z := 100011167 * 100014059.
Definition ex_n1 : Z := 100015079 * 100024187.
Example ex_C74_bounds :
  (per_position usual_sizes ex_n0, per_position usual_sizes ex_n1, longest 1 1 1, longest 1 1 2) = (65, 65, 2, 3)
  /\ (forall j, j < 2 ->
     per_position usual_sizes ex_n1 * (length (nth j exd0 []) * longest 1 1 (length (concat (firstn j exd1)))) <= Nat.min 195 195 /\
     per_position usual_sizes ex_n0 * (length (nth j exd1 []) * longest 1 1 (length (concat (firstn (S j) exd0)))) <= Nat.min 195 195)
  /\ concat (firstn 1 exd1) <> [] /\ Nat.min 64 64 < per_position usual_sizes ex_n1 * (length (nth 1 exd0 []) * 1).
Proof.
  split; [vm_compute; reflexivity|]. split; [|split; [discriminate|vm_compute; repeat constructor]].
  assert (P0 : per_position usual_sizes ex_n0 = 65) by (vm_compute; reflexivity). assert (P1 : per_position usual_sizes ex_n1 = 65) by (vm_compute; reflexivity).
  intros [|[|j]] L; [| |lia]; rewrite P0, P1; split; apply Nat.leb_le; vm_compute; reflexivity.
Qed.
(** the program's own sizes (deletion: stash 178, deletion/run.cc:60) with a
    modulus of 192 bytes: from 536 elements on, a day needs more than 8 MiB *)
Example ex_C74_default : forall n, blocks_for n = 24 ->
  535 * 178 * per_position usual_sizes n <= 8 * 1024 * 1024 < 536 * 178 * per_position usual_sizes n.
Proof. intros n E. unfold per_position. rewrite E. cbn [usual_sizes sz_integer sz_bit]. split; [apply Nat.leb_le|apply Nat.ltb_lt]; vm_compute; reflexivity. Qed.

Print Assumptions C74_deletion_same.
Print Assumptions C74_psi_same.
Print Assumptions C74_deletion_positions.
Print Assumptions C74_deletion_stack.
Print Assumptions C74_deletion_enough.
Print Assumptions C74_deletion_crash.
Print Assumptions C74_psi_positions.
Print Assumptions C74_psi_stack.
Print Assumptions C74_psi_enough.
Print Assumptions C74_psi_crash.
