(** * C22: the deletion-psi run does not crash, with one exception: a value of
    exactly 2^63 among those party zero opens (party_zero.cc:99-103 computes -num
    for the smallest long long).  Model: PsiModel.v. *)
Require Import List Arith Lia ZArith Permutation Bool Znumtheory.
Import ListNotations.
From Verif Require Import Prelude TreeModel TreeSpec TreeHistory TreeDelModel TreeDelSpec TreeDelProofs Coins Group ElGamalModel BytesModel BytesProofs PropsBytes ContextModel CipherModel NumTheory PaillierModel PaillierProofs PropsPaillier WireModel WireProofs PropsWire SyncModel SyncSpec SyncProofs KindProofs AddModel AddSpec AddProofs AddRun DelModel DelSpec DelProofs DelRun PropsDel PsiModel PsiSpec PsiSets PsiRun PropsPsi.
Local Open Scope Z_scope.

(** ** Specification *)
Section Spec.
Context {Gr : group}.
Variables (hash : Z -> list bool) (circuit_input : Z -> outcome (list bool)) (P0 P1 : pub) (V0 V1 : priv).
(** on the day that starts in this state, with these coins, everything succeeds
    until party zero opens a value of 2^63; [day]: the parties, trees and sums then *)
Definition opens_2_63 (st : pclient * pserver * day_info) (coins : tape) (day : pclient * pserver * day_info) : Prop :=
  exists c s mid0 mid1 answers0 answers1 rounds0 rounds1 opened t1 t2 t3,
    psi_run (Gr := Gr) hash P0 P1 V0 V1 (fst (fst st), ps_reset (snd (fst st))) coins = Ok ((c, s, (mid0, mid1)), t1) /\
    psi_circuits circuit_input P0 P1 V0 V1 (pc_party c) (ps_party s) t1 = Ok ((answers0, answers1, (rounds0, rounds1)), t2) /\
    second_phase P0 V0 answers0 answers1 t2 = Ok (opened, t3) /\
    In (2 ^ 63) opened /\ day = (c, s, mkDay mid0 mid1 rounds0 rounds1).
(** some day within the first [k] of a run ends like this, and that day or an
    earlier one was not lucky *)
Definition stopped_by_2_63 (lucky : nat -> pclient * pserver * day_info -> Prop) (k : nat) (start : pclient * pserver * day_info) (coins : tape) : Prop :=
  exists j trace coins' day, (j < k)%nat /\
    run_trace (psi_day2 (Gr := Gr) hash circuit_input P0 P1 V0 V1) j start coins = Ok (trace, coins') /\
    opens_2_63 (last trace start) coins' day /\
    ((forall i st, nth_error trace i = Some st -> lucky i st) -> ~ lucky j day).
End Spec.

(** ** Proofs *)
Lemma apply_updates_crash us : Forall (fun u => 0 < u < 2 ^ 64) us -> forall st,
  match apply_updates us st with Ok _ => True | UB => In (2 ^ 63) us | _ => False end.
Proof.
  induction 1 as [|u us B F IH]; intros st; cbn [apply_updates]; [exact I|]. unfold apply_update at 1. destruct (Z.eqb_spec (to_signed u) (- 2 ^ 63)) as [E|N]; cbn [obind].
  - left. unfold to_signed in E. destruct (Z.ltb_spec u (2 ^ 63)); lia.
  - match goal with |- context [apply_updates us ?x] => specialize (IH x); destruct (apply_updates us x) end; auto. right. exact IH.
Qed.
Section Crash.
Context {Gr : group}.
Variables (hash : Z -> list bool) (ci : Z -> outcome (list bool)).
Hypothesis hash_len : forall x, length (hash x) = 256%nat.
Variables (p0 q0 p1 q1 : Z) (P0 P1 : pub) (V0 V1 : priv).
Hypothesis KP0 : paillier_pair p0 q0 P0 V0.
Hypothesis KP1 : paillier_pair p1 q1 P1 V1.
Notation n0 := (p0 * q0). Notation n1 := (p1 * q1).
Variables (d0 d1 : list (list entry)).
Hypothesis PR0 : proper_signed n1 (halves d0).
Hypothesis PR1 : proper_signed n0 (halves d1).
Hypothesis LEN : length d1 = length d0.
Hypothesis BIG0 : 2 ^ 65 <= n0.
Hypothesis CI : forall x, returns (ci x).
Variable o : nat.
Notation pinv := (pinv hash p0 q0 p1 q1 (halves d0) (halves d1) d0 d1 o).
Lemma day_crash k c s info tp : (k < length d0)%nat -> pinv k c s ->
  match psi_day2 (Gr := Gr) hash ci P0 P1 V0 V1 (c, s, info) tp with
  | Ok _ | Err _ => True | Abort => False
  | UB => exists day, opens_2_63 (Gr := Gr) hash ci P0 P1 V0 V1 (c, s, info) tp day /\
      (holds (pg_my (ps_party s)) (upto (2 * k) (halves d1)) -> good ci p0 q0 p1 q1 (halves d0) (halves d1) k day ->
       In (2 ^ 63) (map (fun v => v mod 2 ^ 64) (values0 k (halves d0) (halves d1) ++ values1 k (halves d0) (halves d1))))
  end.
Proof.
  intros LK IN. unfold psi_day2, opens_2_63. cbn [fst snd]. unfold bind at 1.
  pose proof (psi_run_step (Gr := Gr) hash hash_len p0 q0 p1 q1 P0 P1 V0 V1 KP0 KP1 _ _ PR0 PR1 d0 d1 eq_refl eq_refl LEN o k c s tp LK IN) as X.
  destruct (psi_run hash P0 P1 V0 V1 (c, ps_reset s) tp) as [[[[c1 s1] [mid0 mid1]] tp1]| | |] eqn:PRUN; try tauto.
  destruct X as (I' & RS & SS & RM0 & RM1 & I0 & PS0 & I1 & PS1 & X1 & X2 & X3 & X4 & X5 & X6 & F0 & Q0 & F1 & Q1).
  pose proof (pair_keyed _ _ _ _ KP0) as KN0. pose proof (pair_keyed _ _ _ _ KP1) as KN1.
  assert (PC : match psi_circuits ci P0 P1 V0 V1 (pc_party c1) (ps_party s1) tp1 with
    | Ok ((a0, a1, (r0, r1)), _) => length a0 = length a1 /\ Forall (fun a => 0 <= a < 2 ^ 64) a0 /\ Forall (fun a => 0 <= a < 2 ^ 64) a1 /\
        map (fun ab => (fst ab + snd ab) mod 2 ^ 64) (combine a0 a1) = opened n1 r0 ++ opened n0 r1 /\
        Forall (fun r => 0 <= fst r < n1 /\ 0 <= snd r < n1) r0 /\ Forall (fun r => 0 <= fst r < n0 /\ 0 <= snd r < n0) r1 /\
        (told_apart_groups ci (pg_x (pc_party c1)) (pg_y (ps_party s1)) -> Forall2 (fun r v => eqm n1 (fst r + snd r) v) r0 (gsum I0 PS0)) /\
        (told_apart_groups ci (pg_x (ps_party s1)) (pg_y (pc_party c1)) -> Forall2 (fun r v => eqm n0 (fst r + snd r) v) r1 (gsum I1 PS1))
    | Err _ => True | _ => False end).
  { unfold psi_circuits. rewrite X1, X2, X3, X4, X5, X6.
    unfold bind at 1. pose proof (gc_groups_spec hash ci n1 P1 V1 KN1 false I0 PS0 F0 tp1) as G0.
    destruct (gc_groups ci P1 V1 false _ _ _ tp1) as [[r0 tp2]| | |]; auto. destruct G0 as (L0 & B0 & G0).
    unfold bind at 1. pose proof (gc_groups_spec hash ci n0 P0 V0 KN0 true I1 PS1 F1 tp2) as G1.
    destruct (gc_groups ci P0 V0 true _ _ _ tp2) as [[r1 tp3]| | |]; auto. destruct G1 as (L1 & B1 & G1).
    assert (EN0 : pp_n P0 = n0) by apply KN0. assert (EN1 : pp_n P1 = n1) by apply KN1. rewrite EN0, EN1.
    assert (S0 := shares_spec n1 r0 fst (Forall_impl _ (fun r H => proj1 H) B0)). assert (S1 := shares_spec n1 r0 snd (Forall_impl _ (fun r H => proj2 H) B0)).
    assert (S2 := shares_spec n0 r1 fst (Forall_impl _ (fun r H => proj1 H) B1)). assert (S3 := shares_spec n0 r1 snd (Forall_impl _ (fun r H => proj2 H) B1)).
    unfold round in *. rewrite S0, S1, S2, S3. unfold bind, lift, ret.
    assert (RA : forall (n : Z) (f : round -> Z) rs, Forall (fun a => 0 <= a < 2 ^ 64) (map (fun r => centered n (f r) mod 2 ^ 64) rs)).
    { intros n f rs. apply Forall_forall. intros a Ha. apply in_map_iff in Ha as (r & <- & _). apply Z.mod_pos_bound. lia. }
    split; [rewrite !app_length, !map_length; reflexivity|]. split; [apply Forall_app; split; apply RA|]. split; [apply Forall_app; split; apply RA|]. split.
    { rewrite combine_app by (rewrite !map_length; auto). rewrite !combine_map, map_app, !map_map. unfold opened. cbn [fst snd].
      f_equal; apply map_ext; intros r; rewrite <- Zplus_mod; f_equal; ring. }
    auto. }
  unfold bind at 1. destruct (psi_circuits ci P0 P1 V0 V1 (pc_party c1) (ps_party s1) tp1) as [[[[a0 a1] [r0 r1]] tp2]| | |] eqn:PCI; try tauto. destruct PC as (LA & FA0 & FA1 & EV & B0 & B1 & G0 & G1).
  unfold bind at 1. pose proof (second_phase_spec p0 q0 p1 q1 P0 V0 KP0 d0 d1 LEN BIG0 a0 a1 tp2 LA FA0 FA1) as SP.
  destruct (second_phase P0 V0 a0 a1 tp2) as [[us tp3]| | |] eqn:SPE; try tauto.
  unfold bind, lift, ret. pose proof (apply_updates_crash us (second_phase_range _ _ _ _ _ _ _ SPE) (pc_result c1, pc_set c1)) as AU.
  destruct (apply_updates us (pc_result c1, pc_set c1)) as [[r' S']| | |]; try tauto.
  exists (c1, s1, mkDay mid0 mid1 r0 r1). split; [exists c1, s1, mid0, mid1, a0, a1, r0, r1, us, tp1, tp2, tp3; auto|].
  intros HS (M0 & M1 & H0 & H1 & T0 & T1 & U0 & U1). cbn [di_mid0 di_mid1 di_rounds0 di_rounds1] in *.
  specialize (G0 T0). specialize (G1 T1). rewrite Q0 in G0. rewrite Q1 in G1.
  pose proof KN0 as (K0 & _). pose proof KN1 as (K1 & _). pose proof (pi_x _ _ _ _ _ _ _ _ _ _ _ _ _ IN) as XI. pose proof (pi_x _ _ _ _ _ _ _ _ _ _ _ _ _ I') as XI'.
  pose proof (xi_reach0 _ _ _ _ _ _ _ _ _ _ XI') as R0'. replace (2 * S k)%nat with (2 * k + 2)%nat in R0' by lia.
  rewrite (own_products hash hash_len _ _ _ _ (xi_reach1 _ _ _ _ _ _ _ _ _ _ XI) (upto_range _ _ (proj2 PR1)) HS), (own_products hash hash_len _ _ _ _ RM1 (upto_range _ _ (proj2 PR1)) M1) in G0.
  rewrite (own_products hash hash_len _ _ _ _ RM0 (upto_range _ _ (proj2 PR0)) M0), (own_products hash hash_len _ _ _ _ R0' (upto_range _ _ (proj2 PR0)) H0) in G1.
  fold (values0 k (halves d0) (halves d1)) in G0. fold (values1 k (halves d0) (halves d1)) in G1.
  assert (Z0 : 0 < n0) by lia. assert (Z1 : 0 < n1) by lia.
  rewrite map_app, <- (opened_values ci p1 n1 _ _ Z1 B0 G0 U0), <- (opened_values ci p1 n0 _ _ Z0 B1 G1 U1).
  rewrite <- EV. apply (Permutation_in _ SP) in AU. apply filter_In in AU as (AU & _). exact AU.
Qed.
Lemma trace_crash (bad : forall k, (k < length d0)%nat -> ~ In (2 ^ 63) (map (fun v => v mod 2 ^ 64) (values0 k (halves d0) (halves d1) ++ values1 k (halves d0) (halves d1)))) :
  forall k j c s info tp, (j + k <= length d0)%nat -> pinv j c s ->
  match run_trace (psi_day2 (Gr := Gr) hash ci P0 P1 V0 V1) k (c, s, info) tp with
  | Ok _ | Err _ => True | Abort => False
  | UB => exists m trace tp' day, (m < k)%nat /\ run_trace (psi_day2 (Gr := Gr) hash ci P0 P1 V0 V1) m (c, s, info) tp = Ok (trace, tp') /\
      opens_2_63 (Gr := Gr) hash ci P0 P1 V0 V1 (last trace (c, s, info)) tp' day /\
      (holds (pg_my (ps_party s)) (upto (2 * j) (halves d1)) -> (forall i st, nth_error trace i = Some st -> good ci p0 q0 p1 q1 (halves d0) (halves d1) (j + i) st) ->
       ~ good ci p0 q0 p1 q1 (halves d0) (halves d1) (j + m) day)
  end.
Proof.
  induction k as [|k IH]; intros j c s info tp LE IN; cbn [run_trace]; [exact I|]. unfold bind at 1.
  pose proof (day_crash j c s info tp ltac:(lia) IN) as X.
  destruct (psi_day2 hash ci P0 P1 V0 V1 (c, s, info) tp) as [[[[c1 s1] di1] tp1]| | |] eqn:E; auto.
  - pose proof (day_step (Gr := Gr) hash ci hash_len p0 q0 p1 q1 P0 P1 V0 V1 KP0 KP1 _ _ PR0 PR1 d0 d1 eq_refl eq_refl LEN o BIG0 j c s info tp ltac:(lia) IN) as Y. rewrite E in Y. destruct Y as (I' & _).
    specialize (IH (S j) c1 s1 di1 tp1 ltac:(lia) I'). unfold bind. destruct (run_trace _ k (c1, s1, di1) tp1) as [[tr tp2]| | |]; auto.
    destruct IH as (m & trace & tp' & day & LM & ET & OP & N). exists (S m), ((c1, s1, di1) :: trace), tp', day. split; [lia|]. split.
    { cbn [run_trace]. unfold bind. rewrite E, ET. reflexivity. }
    split. { assert (LL : forall x (l : list (pclient * pserver * day_info)) y, last (x :: l) y = last l x).
      { clear. intros x l. revert x. induction l as [|z l IH]; intros x y; [reflexivity|]. change (last (x :: z :: l) y) with (last (z :: l) y). rewrite (IH z y), (IH z x). reflexivity. }
      rewrite LL. exact OP. }
    intros HS GD. replace (j + S m)%nat with (S j + m)%nat by lia. apply N.
    + assert (G1 : good ci p0 q0 p1 q1 (halves d0) (halves d1) j (c1, s1, di1)) by (specialize (GD O _ eq_refl); rewrite Nat.add_0_r in GD; exact GD).
      destruct G1 as (_ & _ & _ & G1 & _). replace (2 * S j)%nat with (2 * j + 2)%nat by lia. exact G1.
    + intros i st Est. replace (S j + i)%nat with (j + S i)%nat by lia. apply GD. exact Est.
  - destruct X as (day & OP & N). exists O, [], tp, day. split; [lia|]. split; [reflexivity|]. split; [exact OP|]. intros HS _ G. rewrite Nat.add_0_r in G. apply (bad j); [lia|]. auto.
Qed.
End Crash.

Lemma never_2_63 h0 h1 d0 d1 : proper_history h0 -> proper_history h1 -> Forall2 (rows_of (fun x => x)) d0 h0 -> Forall2 (rows_of (fun _ => 1)) d1 h1 -> length h1 = length h0 ->
  forall k, (k < length d0)%nat -> ~ In (2 ^ 63) (map (fun v => v mod 2 ^ 64) (values0 k (halves d0) (halves d1) ++ values1 k (halves d0) (halves d1))).
Proof.
  intros PH0 PH1 F0 F1 LH i Li IN. apply in_map_iff in IN as (v & Ev & IN). assert (L0 : length d0 = length h0) by (clear - F0; induction F0; cbn; lia).
    destruct (day_values h0 h1 d0 d1 PH0 PH1 F0 F1 LH i ltac:(lia)) as (R & A & PV & _ & _ & IR & IA).
    assert (NZ : v <> 0) by (intros ->; rewrite Z.mod_0_l in Ev by lia; lia).
    assert (INZ : In v (map Z.opp R ++ A)). { apply (Permutation_in _ PV). apply filter_In. split; auto. destruct (Z.eqb_spec v 0); auto. }
    assert (RG : - 2 ^ 63 < v < 2 ^ 63).
    { apply in_app_or in INZ as [INZ|INZ].
      - apply in_map_iff in INZ as (x & <- & IX). apply IR in IX as (IX & _). apply both_In in IX as (IX & _). pose proof (current_range h0 PH0 i ltac:(lia)) as CR. rewrite Forall_forall in CR. specialize (CR x IX). lia.
      - apply IA in INZ as (IX & _). apply both_In in IX as (IX & _). pose proof (current_range h0 PH0 (S i) ltac:(lia)) as CR. rewrite Forall_forall in CR. specialize (CR v IX). lia. }
    pose proof (to_signed_mod v ltac:(lia)) as TS. rewrite Ev in TS. vm_compute in TS. lia.
Qed.

(** C22.  A run of deletion-psi under the conditions of C22 (and with a circuit
    input that does not crash, C39) ends well or with an error, or crashes on a day
    on which party zero opens 2^63; that day, or an earlier one, was not lucky in
    the sense of C22. *)
Section Theorem_.
Context {Gr : group}.
Variables (hash : Z -> list bool) (circuit_input : Z -> outcome (list bool)) (p0 q0 p1 q1 : Z) (P0 P1 : pub) (V0 V1 : priv).
Theorem C22_no_crash : forall h0 h1 d0 d1 stash node k coins,
  psi_setting hash p0 q0 p1 q1 P0 P1 V0 V1 h0 h1 d0 d1 -> (k <= length h0)%nat -> (forall x, returns (circuit_input x)) ->
  let start := psi_start stash node d0 d1 in
    let lucky := lucky_psi_day circuit_input p0 q0 p1 q1 d0 d1 in
  match run_trace (psi_day2 (Gr := Gr) hash circuit_input P0 P1 V0 V1) k start coins with
  | Ok _ | Err _ => True
  | Abort => False
  | UB => stopped_by_2_63 (Gr := Gr) hash circuit_input P0 P1 V0 V1 lucky k start coins
  end.
Proof.
  intros h0 h1 d0 d1 stash node k coins ((HH & K0 & K1) & N0 & N1 & PH0 & PH1 & LH & D0 & D1) LE CI start lucky.
  assert (L0 : length d0 = length h0) by (destruct D0 as (F & _); clear - F; induction F; cbn; lia).
  assert (L1 : length d1 = length h1) by (destruct D1 as (F & _); clear - F; induction F; cbn; lia).
  assert (PR0 : proper_signed (p1 * q1) (halves d0)) by (apply (proper_halves (fun x => x) (p1 * q1) d0 h0); auto).
  assert (PR1 : proper_signed (p0 * q0) (halves d1)) by (apply (proper_halves (fun _ => 1) (p0 * q0) d1 h1); auto; intros; lia).
  pose proof (never_2_63 h0 h1 d0 d1 PH0 PH1 (proj1 D0) (proj1 D1) LH) as BAD.
  pose proof (trace_crash (Gr := Gr) hash circuit_input HH p0 q0 p1 q1 P0 P1 V0 V1 K0 K1 d0 d1 PR0 PR1 ltac:(lia) N0 CI O BAD k O
    (fst (fst start)) (snd (fst start)) (snd start) coins ltac:(lia) (pinv_start hash p0 q0 p1 q1 (halves d0) (halves d1) d0 d1 O stash node eq_refl)) as X.
  change (fst (fst start), snd (fst start), snd start) with start in X.
  destruct (run_trace _ k start coins) as [[tr tp']| | |]; auto. destruct X as (m & trace & tp' & day & LM & E & OP & N). exists m, trace, tp', day. split; [exact LM|]. split; [exact E|]. split; [exact OP|].
  intros LU. apply N; [apply holds_new|]. exact LU.
Qed.
End Theorem_.

(** ** The exception exists: the update that crashes *)
Example ex_C22_crash : apply_updates [3; 2 ^ 63; 4] (0, []) = UB /\ apply_updates [3; 2 ^ 63 + 1; 4] (0, []) <> UB.
Proof. split; [reflexivity|]. vm_compute. discriminate. Qed.

Print Assumptions C22_no_crash.
