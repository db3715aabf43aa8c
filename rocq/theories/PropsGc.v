(** * C73: the secure computations as the two programs run them. *)
Require Import List Arith Lia ZArith Bool.
Import ListNotations.
From Verif Require Import Prelude TreeModel TreeSpec TreeHistory TreeDelModel TreeDelSpec Coins Group ElGamalModel BytesModel CipherModel PaillierModel PaillierProofs PropsPaillier WireModel SyncModel SyncSpec AddModel AddSpec DelModel DelSpec DelRun BigPrime PropsDel.
From Verif Require Import PsiModel PsiSpec PsiRun PropsPsi PropsPsiCrash GcModel GcProofs GcCrash.
Local Open Scope Z_scope.

(** ** The bits (deletion/party.h:187-219).  Party one draws a bit for each
    position and feeds its negation; party zero learns [comparison xor negated
    bit].  The xor of both bits says whether the values are equal ... *)
Theorem C73_bits : forall alice bob bits i a b r, length bits = length alice ->
  nth_error alice i = Some a -> nth_error bob i = Some b -> nth_error bits i = Some r ->
  exists learned, nth_error (circuit alice bob (map negb bits)) i = Some learned /\ (xorb r learned = true <-> a <> b).
Proof.
  intros alice. unfold circuit. induction alice as [|a0 alice IH]; intros [|b0 bob] [|r0 bits] [|i] a b r L A B R; try discriminate; cbn [nth_error map combine fst snd] in *.
  - injection A as ->. injection B as ->. injection R as ->. eexists. split; [reflexivity|]. unfold bits_eqb. destruct (list_eq_dec bool_dec a b), r; cbn; split; intros; try tauto; try discriminate; auto; congruence.
  - eapply IH; eauto.
Qed.
(** ... and what party zero learns says nothing: whatever the values compared,
    every sequence of bits is what party zero sees for exactly one sequence
    drawn by party one. *)
Theorem C73_nothing_learned : forall alice bob seen, length bob = length alice -> length seen = length alice ->
  exists bits, length bits = length alice /\ circuit alice bob (map negb bits) = seen /\
  forall bits', length bits' = length alice -> circuit alice bob (map negb bits') = seen -> bits' = bits.
Proof.
  unfold circuit. induction alice as [|a alice IH]; intros [|b bob] [|s seen] L1 L2; try discriminate.
  - exists []. repeat split; auto. intros [|]; [auto|discriminate].
  - destruct (IH bob seen ltac:(cbn in L1; lia) ltac:(cbn in L2; lia)) as (bits & E1 & E2 & E3).
    exists (negb (xorb (bits_eqb a b) s) :: bits). cbn [length map combine fst snd]. repeat split; [lia| |].
    + rewrite E2. f_equal. destruct (bits_eqb a b), s; reflexivity.
    + intros [|r bits'] L E; [discriminate|]. cbn [map combine fst snd] in E. injection E as E E'. rewrite (E3 bits' ltac:(cbn in L; lia) E'). f_equal.
      subst s. destruct (bits_eqb a b), r; reflexivity.
Qed.

(** ** C21 for a whole call: all positions at once, through the flat arrays.
    Position [i] compares x (held with pay) and y (held with pay'). *)
Theorem C73_shares : forall p q P V, paillier_pair p q P V -> let n := p * q in
  forall circuit_input sender_is_alice xs zs ys coins betas ts coins',
  gc_flat circuit_input P V sender_is_alice xs zs ys coins = Ok ((betas, ts), coins') ->
  length betas = length xs /\ length ts = length xs /\
  forall i x pay y pay' cy cq coins1 alpha z msg coins1' y',
  0 <= x < n -> - n < pay < n -> 0 <= y < n -> made P V y cy -> made P V pay' cq ->
  combine_item P (x, pay) (cy, cq) coins1 = Ok ((alpha, z, msg), coins1') -> priv_decrypt V msg = Ok y' ->
  nth_error xs i = Some alpha -> nth_error zs i = Some z -> nth_error ys i = Some y' ->
  exists beta t, nth_error betas i = Some beta /\ nth_error ts i = Some t /\ 0 <= beta < n /\ 0 <= t < n /\
  (x = y -> (beta + t) mod n = (pay * pay') mod n) /\
  (x <> y -> circuit_input alpha <> circuit_input y' -> (beta + t) mod n = 0).
Proof.
  intros p q P V HP n ci al xs zs ys c betas ts c' E. apply gc_flat_possible in E as (L1 & L2 & L3 & L4 & F). split; auto. split; auto.
  intros i x pay y pay' cy cq t1 alpha z msg t1' y' Hx Hp Hy My Mp E1 E2 A Z Y.
  assert (G : exists beta t, nth_error betas i = Some beta /\ nth_error ts i = Some t /\ possible (gc_item ci P V al (alpha, z) y') (beta, t)).
  { clear - F L1 L2 L3 L4 A Z Y. revert zs ys betas ts i L1 L2 L3 L4 F A Z Y. induction xs as [|x0 xs IH]; intros [|z0 zs] [|y0 ys] [|b0 betas] [|t0 ts] [|i]; intros L1 L2 L3 L4 F A Z Y; try discriminate; cbn [nth_error combine] in *; inversion F; subst.
    - injection A as ->. injection Z as ->. injection Y as ->. cbn [fst snd] in *. eauto.
    - eapply IH; [| | | |eassumption|..]; eauto; cbn in *; lia. }
  destruct G as (beta & t & B & T & PO). destruct (PO (fun _ => 0)) as (coins2 & u & EI & _).
  destruct (C21_product_shares p q P V HP ci x pay y pay' cy cq t1 alpha z msg t1' y' al coins2 beta t u Hx Hp Hy My Mp E1 E2 EI) as (B1 & B2 & _ & S1 & S2).
  exists beta, t. auto 8.
Qed.

(** ** The sender's side of every sum is masks from its own generator: they depend
    on how many positions there are, on nothing that is compared, sent or received,
    and on no coin of the other party.  No call touches the other party's generator. *)
Lemma send_masks P k : forall items items' tp b z o tp1 b' z' o' tp2, length items = length items' ->
  gc_send P k items tp = Ok ((b, z, o), tp1) -> gc_send P k items' tp = Ok ((b', z', o'), tp2) -> b = b' /\ tp1 = tp2.
Proof.
  induction items as [|[m v] items IH]; intros [|[m' v'] items'] tp b z o tp1 b' z' o' tp2 L H H'; try discriminate; cbn [gc_send] in H, H'.
  - apply ret_Ok in H as (H & ->), H' as (H' & ->). injection H as -> _ _. injection H' as -> _ _. auto.
  - apply bind_Ok in H as (beta & t1 & H1 & H), H' as (beta' & t1' & H1' & H'). rewrite H1 in H1'. injection H1' as <- <-.
    apply bind_Ok in H as (e & t2 & H2 & H), H' as (e' & t2' & H2' & H'). rewrite H2 in H2'. injection H2' as <- <-.
    apply bind_Ok in H as (x & t3 & H3 & H), H' as (x' & t3' & H3' & H'). apply lift_Ok in H3 as (_ & ->), H3' as (_ & ->).
    apply bind_Ok in H as (y & t4 & H4 & H), H' as (y' & t4' & H4' & H'). apply lift_Ok in H4 as (_ & ->), H4' as (_ & ->).
    apply bind_Ok in H as ([[bs zs] os] & t5 & H5 & H), H' as ([[bs' zs'] os'] & t5' & H5' & H').
    apply ret_Ok in H as (H & ->), H' as (H' & ->). injection H as -> _ _. injection H' as -> _ _.
    destruct (IH items' _ _ _ _ _ _ _ _ _ ltac:(cbn in L; lia) H5 H5') as (-> & ->). auto.
Qed.
Theorem C73_own_masks : forall circuit_input P V V' sender_is_alice xs zs ys xs' zs' ys' coins betas ts out coins' betas' ts' out',
  length xs = length xs' ->
  (if sender_is_alice : bool then c_one coins = c_one coins' else c_zero coins = c_zero coins') ->
  gc_flat circuit_input P V sender_is_alice xs zs ys coins = Ok ((betas, ts), out) ->
  gc_flat circuit_input P V' sender_is_alice xs' zs' ys' coins' = Ok ((betas', ts'), out') ->
  betas = betas' /\ (if sender_is_alice then c_one out = c_one out' /\ c_zero out = c_zero coins else c_zero out = c_zero out' /\ c_one out = c_one coins).
Proof.
  intros ci P V V' al xs zs ys xs' zs' ys' co b t out co' b' t' out' L C H H'. unfold gc_flat in H, H'.
  destruct (negb _) eqn:N in H; [apply dlift_Ok in H as (H & _); discriminate|]. destruct (negb _) eqn:N' in H'; [apply dlift_Ok in H' as (H' & _); discriminate|].
  apply negb_false_iff, andb_prop in N as (N1 & N2), N' as (N1' & N2'). apply Nat.eqb_eq in N1, N2, N1', N2'.
  apply dbind_Ok in H as (s & c1 & H1 & H), H' as (s' & c1' & H1' & H'). apply dlift_Ok in H1 as (S1 & ->), H1' as (S1' & ->). apply omap_length in S1, S1'.
  apply dbind_Ok in H as (r & c1 & H1 & H), H' as (r' & c1' & H1' & H'). apply dlift_Ok in H1 as (R1 & ->), H1' as (R1' & ->). apply omap_length in R1, R1'.
  apply dbind_Ok in H as (a & c1 & A & H), H' as (a' & c1' & A' & H'). unfold with_rand in A, A'.
  destruct (mapM _ _ (c_rand co)) as [[a1 tp1]| | |] eqn:E; try discriminate. destruct (mapM _ _ (c_rand co')) as [[a2 tp2]| | |] eqn:E'; try discriminate.
  injection A as -> <-. injection A' as -> <-. apply mapM_length in E, E'.
  apply dbind_Ok in H as ([[bs z] o] & c1 & H1 & H), H' as ([[bs' z'] o'] & c1' & H1' & H'). cbn [c_zero c_one c_rand] in *.
  apply dbind_Ok in H as (u & c2 & H2 & H), H' as (u' & c2' & H2' & H'). apply dlift_Ok in H2 as (_ & ->), H2' as (_ & ->).
  apply dret_Ok in H as (H & ->), H' as (H' & ->). injection H as -> ->. injection H' as -> ->.
  assert (G : forall q w, length (circuit s r q) = Nat.min (Nat.min (length s) (length r)) (length q) /\ length (circuit r s w) = Nat.min (Nat.min (length r) (length s)) (length w)) by (intros; unfold circuit; rewrite !map_length, !combine_length; auto).
  assert (G' : forall q w, length (circuit s' r' q) = Nat.min (Nat.min (length s') (length r')) (length q) /\ length (circuit r' s' w) = Nat.min (Nat.min (length r') (length s')) (length w)) by (intros; unfold circuit; rewrite !map_length, !combine_length; auto).
  destruct al; cbn [negb] in *; unfold at_one, at_zero in H1, H1'; cbn [c_zero c_one c_rand] in H1, H1'.
  - rewrite C in H1. destruct (gc_send P _ _ (c_one co')) as [[x tx]| | |] eqn:X in H1; try discriminate. destruct (gc_send P _ _ (c_one co')) as [[x' tx']| | |] eqn:X' in H1'; try discriminate.
    injection H1 as -> <-. injection H1' as -> <-. cbn [c_one c_zero]. refine (let '(conj p q) := send_masks _ _ _ _ _ _ _ _ _ _ _ _ _ _ X X' in _); [|auto].
    rewrite !combine_length. lia.
  - rewrite C in H1. destruct (gc_send P _ _ (c_zero co')) as [[x tx]| | |] eqn:X in H1; try discriminate. destruct (gc_send P _ _ (c_zero co')) as [[x' tx']| | |] eqn:X' in H1'; try discriminate.
    injection H1 as -> <-. injection H1' as -> <-. cbn [c_one c_zero]. refine (let '(conj p q) := send_masks _ _ _ _ _ _ _ _ _ _ _ _ _ _ X X' in _); [|auto].
    rewrite !combine_length, (proj2 (G _ _)), (proj2 (G' _ _)) || rewrite !combine_length. rewrite ?(fun q => proj2 (G [] q)), ?(fun q => proj2 (G' [] q)), ?map_length. lia.
Qed.

(** ** Whole runs *)
Section C73.
Context {Gr : group}.
Variable hash : Z -> list bool.
Variable circuit_input : Z -> outcome (list bool).
Variables (p0 q0 p1 q1 : Z) (P0 P1 : pub) (V0 V1 : priv).
Notation del_own := (del_day_own (Gr := Gr) hash circuit_input P0 P1 V0 V1).
Notation psi_own := (psi_day_own (Gr := Gr) hash circuit_input P0 P1 V0 V1).

(** Whatever the two programs do with their own coins, the model of C20 (C22)
    does with some coins: same results, same states, same shares. *)
Theorem C73_deletion : forall k start coins trace coins',
  run_own del_own k start coins = Ok (trace, coins') ->
  exists one one', run_trace (del_day (Gr := Gr) hash circuit_input P0 P1 V0 V1) k start one = Ok (trace, one').
Proof. intros k st c tr c' E. eapply sim_coins; [|exact E]. apply sim_run. intros. apply sim_del_day. Qed.
Theorem C73_psi : forall k start coins trace coins',
  run_own psi_own k start coins = Ok (trace, coins') ->
  exists one one', run_trace (psi_day2 (Gr := Gr) hash circuit_input P0 P1 V0 V1) k start one = Ok (trace, one').
Proof. intros k st c tr c' E. eapply sim_coins; [|exact E]. apply sim_run. intros. apply sim_psi_day. Qed.

(** So C20 and C22 hold of the two programs. *)
Theorem C73_inner_product : forall stash node d0 d1 k coins trace coins',
  keys hash p0 q0 p1 q1 P0 P1 V0 V1 -> length d1 = length d0 -> proper_signed (p1 * q1) d0 -> proper_signed (p0 * q0) d1 -> (k <= length d0)%nat ->
  run_own del_own k (del_start stash node d0 d1) coins = Ok (trace, coins') ->
  length trace = k /\
  forall j c s rounds, nth_error trace j = Some (c, s, rounds) ->
    dc_day c = S j /\ ds_day s = S j /\
    ((forall i st, (i <= j)%nat -> nth_error trace i = Some st -> lucky_day circuit_input p0 q0 p1 q1 d0 d1 i st) ->
     dc_result c = inner (upto (S j) d0) (upto (S j) d1) mod 2 ^ 64).
Proof. intros. apply C73_deletion in H4 as (one & one' & E). eapply C20_inner_product; eauto. Qed.
Theorem C73_intersection : forall h0 h1 d0 d1 stash node k coins trace coins',
  psi_setting hash p0 q0 p1 q1 P0 P1 V0 V1 h0 h1 d0 d1 -> (k <= length h0)%nat -> (forall j, (j < k)%nat -> no_return j h0 h1) ->
  run_own psi_own k (psi_start stash node d0 d1) coins = Ok (trace, coins') ->
  length trace = k /\
  forall j c s di, nth_error trace j = Some (c, s, di) -> pc_day c = S j /\ ps_day s = S j /\
  ((forall i st, (i <= j)%nat -> nth_error trace i = Some st -> lucky_psi_day circuit_input p0 q0 p1 q1 d0 d1 i st) ->
   same_set (pc_set c) (both (current (S j) h0) (current (S j) h1))).
Proof. intros h0 h1 d0 d1 stash node k c tr c' S LE NR E. apply C73_psi in E as (one & one' & E). eapply C22_intersection; eauto. Qed.
Theorem C73_cardinality : forall h0 h1 d0 d1 stash node k coins trace coins',
  psi_setting hash p0 q0 p1 q1 P0 P1 V0 V1 h0 h1 d0 d1 -> (k <= length h0)%nat ->
  run_own psi_own k (psi_start stash node d0 d1) coins = Ok (trace, coins') ->
  forall j c s di, nth_error trace j = Some (c, s, di) ->
  (forall i st, (i <= j)%nat -> nth_error trace i = Some st -> lucky_psi_day circuit_input p0 q0 p1 q1 d0 d1 i st) ->
  pc_result c = Z.of_nat (length (both (current (S j) h0) (current (S j) h1))) mod 2 ^ 64 /\
  NoDup (both (current (S j) h0) (current (S j) h1)).
Proof. intros h0 h1 d0 d1 stash node k c tr c' S LE E. apply C73_psi in E as (one & one' & E). eapply C22_cardinality; eauto. Qed.
(** The two parties never disagree about how many comparisons there are. *)
Theorem C73_in_step : forall c s coins c' s' mids coins',
  psi_run_own (Gr := Gr) hash P0 P1 V0 V1 (c, ps_reset s) coins = Ok ((c', s', mids), coins') ->
  map (@length Z) (pg_x (pc_party c')) = map (@length Z) (pg_y (ps_party s')) /\
  map (@length Z) (pg_x (ps_party s')) = map (@length Z) (pg_y (pc_party c')).
Proof.
  intros c s co c' s' mids co' E. destruct (sim_coins _ _ _ _ _ (sim_psi_run hash P0 P1 V0 V1 (c, ps_reset s)) E) as (t & t' & E').
  apply psi_run_in_step in E'. exact E'.
Qed.

(** What rand() gives (srand(time(NULL)) with a resolution of one second) has no
    influence on any result: not on the states, not on the shares, not on errors. *)
Theorem C73_rand_irrelevant : forall k coins coins', c_zero coins = c_zero coins' -> c_one coins = c_one coins' ->
  (forall start, same_but_rand (run_own del_own k start coins) (run_own del_own k start coins')) /\
  (forall start, same_but_rand (run_own psi_own k start coins) (run_own psi_own k start coins')).
Proof.
  intros k c c' Z O. split; intros st.
  - apply norand_run; [intros; apply norand_del_day|split; auto].
  - apply norand_run; [intros; apply norand_psi_day|split; auto].
Qed.
(** No crash: as C20_no_crash and C22_no_crash, for the two programs. *)
Theorem C73_deletion_no_crash : forall stash node d0 d1 k coins,
  keys hash p0 q0 p1 q1 P0 P1 V0 V1 -> length d1 = length d0 -> proper_signed (p1 * q1) d0 -> proper_signed (p0 * q0) d1 -> (k <= length d0)%nat ->
  (forall x, returns (circuit_input x)) ->
  returns (run_own del_own k (del_start stash node d0 d1) coins).
Proof.
  intros stash node d0 d1 k co (HH & K0 & K1) L PR0 PR1 LE CI.
  change (del_start stash node d0 d1) with (fst (fst (del_start stash node d0 d1)), snd (fst (del_start stash node d0 d1)), ((0, 0), (0, 0))).
  eapply (del_run_returns (Gr := Gr) hash circuit_input HH p0 q0 p1 q1 P0 P1 V0 V1 K0 K1 CI d0 d1 L PR0 PR1 O k O); [lia|].
  apply (dinv_start hash p0 q0 p1 q1 d0 d1 O stash node eq_refl).
Qed.
Theorem C73_psi_no_crash : forall h0 h1 d0 d1 stash node k coins,
  psi_setting hash p0 q0 p1 q1 P0 P1 V0 V1 h0 h1 d0 d1 -> (k <= length h0)%nat -> (forall x, returns (circuit_input x)) ->
  let start := psi_start stash node d0 d1 in
  match run_own psi_own k start coins with
  | Ok _ | Err _ => True
  | Abort => False
  | UB => exists one, stopped_by_2_63 (Gr := Gr) hash circuit_input P0 P1 V0 V1 (lucky_psi_day circuit_input p0 q0 p1 q1 d0 d1) k start one
  end.
Proof.
  intros h0 h1 d0 d1 stash node k co SET LE CI start. pose proof SET as ((HH & K0 & K1) & N0 & N1 & PH0 & PH1 & LH & D0 & D1).
  assert (L0 : length d0 = length h0) by (destruct D0 as (F & _); clear - F; induction F; cbn; lia).
  assert (L1 : length d1 = length h1) by (destruct D1 as (F & _); clear - F; induction F; cbn; lia).
  assert (PR0 : proper_signed (p1 * q1) (halves d0)) by (apply (proper_halves (fun x => x) (p1 * q1) d0 h0); auto).
  assert (PR1 : proper_signed (p0 * q0) (halves d1)) by (apply (proper_halves (fun _ => 1) (p0 * q0) d1 h1); auto; intros; lia).
  pose proof (fails_psi_trace (Gr := Gr) hash circuit_input HH p0 q0 p1 q1 P0 P1 V0 V1 K0 K1 d0 d1 PR0 PR1 ltac:(lia) N0 CI O k O
    (fst (fst start)) (snd (fst start)) (snd start) ltac:(lia) (pinv_start hash p0 q0 p1 q1 (halves d0) (halves d1) d0 d1 O stash node eq_refl) co) as (FA & FU).
  change (fst (fst start), snd (fst start), snd start) with start in FA, FU.
  pose proof (fun one => C22_no_crash (Gr := Gr) hash circuit_input p0 q0 p1 q1 P0 P1 V0 V1 h0 h1 d0 d1 stash node k one SET LE CI) as X. cbv zeta in X. fold start in X.
  destruct (run_own psi_own k start co) as [a|e| |]; auto.
  - destruct (FA eq_refl) as (t & E). specialize (X t). rewrite E in X. exact X.
  - destruct (FU eq_refl) as (t & E). specialize (X t). rewrite E in X. exists t. exact X.
Qed.
End C73.

(** ** Examples: three different tapes; the two days of C20, one day of C22 *)
Definition ex_coins3 : coins3 := mkC3 (fun i => Z.of_nat (i * i / 3)) ex_coins (fun i => 9 + Z.of_nat i mod 40).
Definition ex_own := run_own (del_day_own (Gr := zmod_group 11 prime_11') ex_hash ex_circuit exk0P exk1P exk0V exk1V) 2 (del_start 1 1 exd0 exd1) ex_coins3.
Example ex_C73 : match ex_own with
  | Ok ([a; b], _) =>
      let l := lucky_day_b ex_circuit (100011167 * 100014059) (100015079 * 100024187) exd0 exd1 in
      l 0%nat a && l 1%nat b && (dc_result (fst (fst a)) =? 3) && (dc_result (fst (fst b)) =? 0)
  | _ => false end = true.
Proof. vm_cast_no_check (eq_refl true). Qed.
Definition ex_psi_own := run_own (psi_day_own (Gr := zmod_group 11 prime_11') ex_hash ex_circuit exl0P exl1P exl0V exl1V) 2 (psi_start 1 1 exq0 exq1) (mkC3 (fun i => Z.of_nat (i * i / 3)) ex_psi_coins (fun i => 9 + Z.of_nat i mod 40)).
Example ex_C73_psi : match ex_psi_own with
  | Ok ([a; b], _) =>
      let l := lucky_psi_b ex_circuit (8589942443 * 8589951347) (8589952139 * 8589957359) exq0 exq1 in
      l 0%nat a && l 1%nat b && sets_are [a; b] [1; 1; 5; 1; 1; 6]
  | _ => false end = true.
Proof. vm_cast_no_check (eq_refl true). Qed.

Print Assumptions C73_bits.
Print Assumptions C73_nothing_learned.
Print Assumptions C73_shares.
Print Assumptions C73_own_masks.
Print Assumptions C73_deletion.
Print Assumptions C73_psi.
Print Assumptions C73_inner_product.
Print Assumptions C73_intersection.
Print Assumptions C73_cardinality.
Print Assumptions C73_in_step.
Print Assumptions C73_rand_irrelevant.
Print Assumptions C73_deletion_no_crash.
Print Assumptions C73_psi_no_crash.
