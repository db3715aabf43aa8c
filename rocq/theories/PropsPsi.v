(** * C22: deletion-psi keeps the intersection of the current sets. *)
Require Import List Arith Lia ZArith Permutation Bool Znumtheory.
Import ListNotations.
From Verif Require Import Prelude TreeModel TreeSpec TreeHistory TreeDelModel TreeDelSpec TreeDelProofs Coins Group ElGamalModel BytesModel BytesProofs PropsBytes ContextModel CipherModel NumTheory PaillierModel PaillierProofs PropsPaillier WireModel WireProofs PropsWire SyncModel SyncSpec SyncProofs KindProofs PropsSync AddModel AddSpec AddProofs AddRun DelModel DelSpec DelProofs DelRun BigPrime PropsDel PsiModel PsiSpec PsiSets PsiRun.
Local Open Scope Z_scope.

(** ** what the data files are, seen as batches *)
Lemma concat_halves d : length (concat (halves d)) = length (concat d).
Proof.
  unfold halves. induction d as [|r d IH]; [reflexivity|]. cbn [flat_map concat app]. rewrite !app_length, IH. rewrite Nat.add_assoc. f_equal.
  induction r as [|e r IHr]; [reflexivity|]. cbn [filter length]. destruct (Z.ltb_spec (snd e) 0), (Z.leb_spec 0 (snd e)); cbn [length]; lia.
Qed.
Lemma proper_halves payload n d h : proper_history h -> data_of payload d h -> 2 ^ 65 <= n ->
  (forall x, 0 < x < 2 ^ 63 -> 0 < payload x < 2 ^ 63) -> proper_signed n (halves d).
Proof.
  intros PH (F & IR) Hn HP. split; [|unfold int_range in *; rewrite concat_halves; auto].
  assert (LD : length d = length h) by (clear - F; induction F; cbn; lia).
  apply Forall_forall. intros e He. unfold halves in He. apply in_concat in He as (b & Hb & He). apply in_flat_map in Hb as (r & Hr & Hb).
  apply (In_nth _ _ []) in Hr as (k & Hk & <-).
  assert (LK : (k < length h)%nat) by (rewrite <- LD; exact Hk). destruct (rows_at h payload d F k LK) as (R1 & R2).
  assert (G : exists x, 0 < x < 2 ^ 63 /\ (e = (x, - payload x) \/ e = (x, payload x))).
  { unfold entry in *. destruct (day_facts h PH k LK) as (_ & _ & _ & _ & RA). pose proof (dels_range h PH k LK) as RD. rewrite Forall_forall in RA, RD.
    destruct Hb as [<- | [<- | []]]; [rewrite R1 in He|rewrite R2 in He]; apply in_map_iff in He as (x & <- & Hx); exists x; split; auto. }
  destruct G as (x & Hx & [-> | ->]); cbn [fst snd]; specialize (HP x Hx); lia.
Qed.

(** ** the update of the set and the counter on one day *)
Lemma day_updates vs us R A : Permutation (nonzero vs) (map Z.opp R ++ A) ->
  Forall (fun x => 0 < x < 2 ^ 63) R -> Forall (fun x => 0 < x < 2 ^ 63) A ->
  Permutation us (filter (fun u => 0 <? u) (map (fun v => v mod 2 ^ 64) vs)) ->
  Permutation (map to_signed us) (map Z.opp R ++ A) /\ Forall (fun u => to_signed u <> - 2 ^ 63) us.
Proof.
  intros PV FR FA PU.
  assert (RV : Forall (fun v => v = 0 \/ - 2 ^ 63 < v < 2 ^ 63) vs).
  { apply Forall_forall. intros v Hv. destruct (Z.eq_dec v 0); auto. right.
    assert (IN : In v (map Z.opp R ++ A)). { eapply Permutation_in; [exact PV|]. apply filter_In. split; auto. destruct (Z.eqb_spec v 0); auto. }
    apply in_app_iff in IN as [IN|IN]; [apply in_map_iff in IN as (x & <- & IN)|]; rewrite Forall_forall in FR, FA; [specialize (FR x IN)|specialize (FA v IN)]; lia. }
  assert (EV : filter (fun u => 0 <? u) (map (fun v => v mod 2 ^ 64) vs) = map (fun v => v mod 2 ^ 64) (nonzero vs)).
  { clear - RV. induction RV as [|v vs B F IH]; [reflexivity|]. unfold nonzero in *. cbn [map filter]. rewrite IH.
    destruct (Z.eqb_spec v 0) as [->|N]; cbn [negb]; [reflexivity|]. cbn [map].
    destruct (Z.ltb_spec 0 (v mod 2 ^ 64)); auto. exfalso. pose proof (Z.mod_pos_bound v (2 ^ 64) ltac:(lia)).
    assert (M : v mod 2 ^ 64 = 0) by lia. apply Z.mod_divide in M; [|lia]. destruct M as (k & ->). lia. }
  rewrite EV in PU.
  assert (RN : Forall (fun v => - 2 ^ 63 < v < 2 ^ 63) (nonzero vs)).
  { apply Forall_forall. intros v Hv. apply filter_In in Hv as (Hv & Z0). rewrite Forall_forall in RV. destruct (RV v Hv); auto. subst v. discriminate. }
  assert (ET : map to_signed (map (fun v => v mod 2 ^ 64) (nonzero vs)) = nonzero vs).
  { rewrite map_map. rewrite <- (map_id (nonzero vs)) at 2. apply map_ext_in. intros v Hv. rewrite Forall_forall in RN. specialize (RN v Hv). apply to_signed_mod. lia. }
  split.
  - eapply Permutation_trans; [apply Permutation_map, PU|]. rewrite ET. auto.
  - apply Forall_forall. intros u Hu. apply (Permutation_in u PU) in Hu. apply in_map_iff in Hu as (v & <- & Hv). rewrite Forall_forall in RN. specialize (RN v Hv).
    rewrite to_signed_mod by lia. lia.
Qed.
Lemma sign_count_app a b : sign_count (a ++ b) = sign_count a + sign_count b.
Proof. unfold sign_count. rewrite map_app, total_app. auto. Qed.
Lemma sign_count_pos l : Forall (fun x => 0 < x < 2 ^ 63) l -> sign_count l = Z.of_nat (length l) /\ sign_count (map Z.opp l) = - Z.of_nat (length l).
Proof.
  induction 1 as [|x l B F (I1 & I2)]; [split; reflexivity|]. unfold sign_count in *. cbn [map length]. rewrite !total_cons, I1, I2.
  destruct (Z.ltb_spec x 0), (Z.ltb_spec (- x) 0); lia.
Qed.
Lemma sign_count_perm a b : Permutation a b -> sign_count a = sign_count b.
Proof. intros P. unfold sign_count. apply (total_perm 0 0 0%nat). apply Permutation_map. auto. Qed.

Section Step.
Variables (h0 h1 : history) (d0 d1 : list (list entry)).
Hypothesis PH0 : proper_history h0.
Hypothesis PH1 : proper_history h1.
Hypothesis DO0 : Forall2 (rows_of (fun x => x)) d0 h0.
Hypothesis DO1 : Forall2 (rows_of (fun _ => 1)) d1 h1.
Hypothesis LEN : length h1 = length h0.
Notation meet k := (both (current k h0) (current k h1)).
Notation left k := (both (kept k h0) (kept k h1)).
Lemma both_NoDup a b : NoDup a -> NoDup (both a b).
Proof. intros H. apply NoDup_filter. auto. Qed.
Lemma kept_incl h k : incl (kept k h) (current k h) /\ incl (kept k h) (current (S k) h).
Proof. split; intros x Hx; [apply without_In in Hx; tauto|rewrite current_S; apply in_app_iff; auto]. Qed.
Lemma left_incl x k : In x (left k) -> In x (meet k) /\ In x (meet (S k)).
Proof. rewrite !both_In. intros (A & B). destruct (kept_incl h0 k) as (X1 & X2), (kept_incl h1 k) as (Y1 & Y2). split; split; auto. Qed.
Lemma meet_NoDup k : (k <= length h0)%nat -> NoDup (meet k).
Proof. intros L. apply both_NoDup. apply current_NoDup; auto. Qed.
Lemma meet_range k : (k <= length h0)%nat -> Forall (fun x => 0 < x < 2 ^ 63) (meet k).
Proof. intros L. apply Forall_forall. intros x Hx. apply both_In in Hx as (Hx & _). pose proof (current_range h0 PH0 k L) as F. rewrite Forall_forall in F. auto. Qed.
Lemma left_NoDup k : (k < length h0)%nat -> NoDup (left k).
Proof. intros L. apply both_NoDup. apply kept_NoDup; auto. Qed.
Lemma day_sets k us : (k < length h0)%nat ->
  Permutation us (filter (fun u => 0 <? u) (map (fun v => v mod 2 ^ 64) (values0 k (halves d0) (halves d1) ++ values1 k (halves d0) (halves d1)))) ->
  exists R A, Permutation (map to_signed us) (map Z.opp R ++ A) /\ Forall (fun u => to_signed u <> - 2 ^ 63) us /\ NoDup R /\ NoDup A /\
    Forall (fun x => 0 < x < 2 ^ 63) R /\ Forall (fun x => 0 < x < 2 ^ 63) A /\
    (forall x, In x R <-> In x (meet k) /\ ~ In x (left k)) /\ (forall x, In x A <-> In x (meet (S k)) /\ ~ In x (left k)).
Proof.
  intros L PU. destruct (day_values h0 h1 d0 d1 PH0 PH1 DO0 DO1 LEN k L) as (R & A & PV & NR & NA & HR & HA).
  assert (FR : Forall (fun x => 0 < x < 2 ^ 63) R). { apply Forall_forall. intros x Hx. apply HR in Hx as (Hx & _). pose proof (meet_range k ltac:(lia)) as F. rewrite Forall_forall in F. auto. }
  assert (FA : Forall (fun x => 0 < x < 2 ^ 63) A). { apply Forall_forall. intros x Hx. apply HA in Hx as (Hx & _). pose proof (meet_range (S k) ltac:(lia)) as F. rewrite Forall_forall in F. auto. }
  destruct (day_updates _ us R A PV FR FA PU) as (P1 & P2). exists R, A. auto 10.
Qed.
Lemma count_step base k us r S0 r' S' : (k < length h0)%nat ->
  Permutation us (filter (fun u => 0 <? u) (map (fun v => v mod 2 ^ 64) (values0 k (halves d0) (halves d1) ++ values1 k (halves d0) (halves d1)))) ->
  r = (Z.of_nat (length (meet k)) - base) mod 2 ^ 64 -> apply_updates us (r, S0) = Ok (r', S') -> r' = (Z.of_nat (length (meet (S k))) - base) mod 2 ^ 64.
Proof.
  intros L PU -> E. destruct (day_sets k us L PU) as (R & A & PM & NM & NR & NA & FR & FA & HR & HA).
  destruct (apply_updates_count us NM (Z.of_nat (length (meet k)) - base) S0) as (S'' & E'). rewrite E' in E. inversion E; subst. f_equal.
  rewrite (sign_count_perm _ _ PM), sign_count_app. destruct (sign_count_pos R FR) as (_ & ->). destruct (sign_count_pos A FA) as (-> & _).
  assert (P1 : Permutation (meet k) (R ++ left k)).
  { apply NoDup_Permutation; [apply meet_NoDup; lia| |].
    - apply NoDup_app_disj; [auto|apply left_NoDup; auto|]. intros x H Hx. apply HR in H. tauto.
    - intros x. rewrite in_app_iff, HR. destruct (in_dec Z.eq_dec x (left k)) as [H|H]; [|tauto]. pose proof (left_incl x k H). tauto. }
  assert (P2 : Permutation (meet (S k)) (A ++ left k)).
  { apply NoDup_Permutation; [apply meet_NoDup; lia| |].
    - apply NoDup_app_disj; [auto|apply left_NoDup; auto|]. intros x H Hx. apply HA in H. tauto.
    - intros x. rewrite in_app_iff, HA. destruct (in_dec Z.eq_dec x (left k)) as [H|H]; [|tauto]. pose proof (left_incl x k H). tauto. }
  apply Permutation_length in P1. apply Permutation_length in P2. rewrite app_length in P1, P2. rewrite P1, P2. lia.
Qed.
(** [signed_change s now before]: [s] holds x for an element x gained and -x for
    an element lost *)
Lemma signed_step k us base r S0 r' S' : (k < length h0)%nat -> no_return k h0 h1 -> Forall (fun x => 0 < x < 2 ^ 63) base ->
  Permutation us (filter (fun u => 0 <? u) (map (fun v => v mod 2 ^ 64) (values0 k (halves d0) (halves d1) ++ values1 k (halves d0) (halves d1)))) ->
  signed_change S0 (meet k) base -> apply_updates us (r, S0) = Ok (r', S') -> signed_change S' (meet (S k)) base.
Proof.
  intros L NO FB PU SC E. destruct (day_sets k us L PU) as (R & A & PM & NM & NR & NA & FR & FA & HR & HA).
  destruct (apply_updates_signed base us FB R A (meet k) S0 r PM NR NA) as (r2 & S2 & E2 & Q); auto.
  - intros x H1 H2. apply HR in H1. apply HA in H2. destruct H1 as (H1 & N). apply N. apply NO; tauto.
  - intros x Hx. apply HR. auto.
  - intros x H1 H2. apply HA in H1. destruct H1 as (H1 & N). apply N. apply NO; tauto.
  - apply meet_range. lia.
  - rewrite E2 in E. inversion E; subst. apply Q. intros x. rewrite HR, HA.
    destruct (in_dec Z.eq_dec x (left k)) as [H|H]; [pose proof (left_incl x k H); tauto|]. split; [tauto|]. intros [(X & Y)|(X & _)]; auto. tauto.
Qed.
Lemma set_step k us r S0 r' S' : (k < length h0)%nat -> no_return k h0 h1 ->
  Permutation us (filter (fun u => 0 <? u) (map (fun v => v mod 2 ^ 64) (values0 k (halves d0) (halves d1) ++ values1 k (halves d0) (halves d1)))) ->
  same_set S0 (meet k) -> apply_updates us (r, S0) = Ok (r', S') -> same_set S' (meet (S k)).
Proof.
  intros L NO PU (ND & IN) E. destruct (day_sets k us L PU) as (R & A & PM & NM & NR & NA & FR & FA & HR & HA).
  destruct (apply_updates_set us R A S0 r PM NR NA ND) as (r2 & S2 & E2 & N2 & I2); auto.
  - intros x H1 H2. apply HR in H1. apply HA in H2. destruct H1 as (H1 & N). apply N. apply NO; tauto.
  - intros x Hx. apply IN. apply HR. auto.
  - intros x H1 H2. apply IN in H2. apply HA in H1. destruct H1 as (H1 & N). apply N. apply NO; tauto.
  - apply Forall_forall. intros x Hx. apply IN in Hx. pose proof (meet_range k ltac:(lia)) as F. rewrite Forall_forall in F. auto.
  - rewrite E2 in E. inversion E; subst. split; auto. intros x. rewrite I2, IN, HR, HA.
    destruct (in_dec Z.eq_dec x (left k)) as [H|H]; [pose proof (left_incl x k H); tauto|]. split; [|tauto]. intros [(X & Y)|(X & _)]; auto. tauto.
Qed.
End Step.

(** ** C22 *)
Section C22.
Context {Gr : group}.
Variable hash : Z -> list bool.
Variable circuit_input : Z -> outcome (list bool).
Variables (p0 q0 p1 q1 : Z) (P0 P1 : pub) (V0 V1 : priv).
Notation n0 := (p0 * q0). Notation n1 := (p1 * q1).

(** nothing went wrong on day [j] (counted from 0): no entry was lost by a full
    stash, in the middle or at the end of the day; the circuit told different
    values apart; the sender's random share of every round left room for the
    value of that round *)
Definition lucky_psi_day (d0 d1 : list (list entry)) (j : nat) (st : pclient * pserver * day_info) : Prop :=
  let '(c, s, di) := st in
  holds (di_mid0 di) (upto (2 * j + 1) (halves d0)) /\ holds (di_mid1 di) (upto (2 * j + 1) (halves d1)) /\
  holds (pg_my (pc_party c)) (upto (2 * j + 2) (halves d0)) /\ holds (pg_my (ps_party s)) (upto (2 * j + 2) (halves d1)) /\
  Forall2 (told_apart circuit_input) (pg_x (pc_party c)) (pg_y (ps_party s)) /\
  Forall2 (told_apart circuit_input) (pg_x (ps_party s)) (pg_y (pc_party c)) /\
  Forall2 (fun r v => undisturbed n1 (fst r) v) (di_rounds0 di) (values0 j (halves d0) (halves d1)) /\
  Forall2 (fun r v => undisturbed n0 (fst r) v) (di_rounds1 di) (values1 j (halves d0) (halves d1)).
(** the two histories are given to the parties as data files *)
Definition psi_setting (h0 h1 : history) (d0 d1 : list (list entry)) : Prop :=
  keys hash p0 q0 p1 q1 P0 P1 V0 V1 /\ 2 ^ 65 <= n0 /\ 2 ^ 65 <= n1 /\
  proper_history h0 /\ proper_history h1 /\ length h1 = length h0 /\
  data_of (fun x => x) d0 h0 /\ data_of (fun _ => 1) d1 h1.

Lemma setting_trace (Inv : nat -> Z * list Z -> Prop) h0 h1 d0 d1 stash node k coins trace coins' :
  psi_setting h0 h1 d0 d1 -> (k <= length h0)%nat ->
  (forall k us st st', (k < length h0)%nat -> Inv k st ->
     Permutation us (filter (fun u => 0 <? u) (map (fun v => v mod 2 ^ 64) (values0 k (halves d0) (halves d1) ++ values1 k (halves d0) (halves d1)))) ->
     apply_updates us st = Ok st' -> Inv (S k) st') ->
  Inv O (0, []) ->
  run_trace (psi_day2 (Gr := Gr) hash circuit_input P0 P1 V0 V1) k (psi_start stash node d0 d1) coins = Ok (trace, coins') ->
  length trace = k /\
  forall j c s di, nth_error trace j = Some (c, s, di) -> pc_day c = S j /\ ps_day s = S j /\
  ((forall i st, (i <= j)%nat -> nth_error trace i = Some st -> lucky_psi_day d0 d1 i st) -> Inv (S j) (pc_result c, pc_set c)).
Proof.
  intros ((HH & K0 & K1) & N0 & N1 & PH0 & PH1 & LH & D0 & D1) LE STEP I0 E.
  assert (L0 : length d0 = length h0) by (destruct D0 as (F & _); clear - F; induction F; cbn; lia).
  assert (L1 : length d1 = length h1) by (destruct D1 as (F & _); clear - F; induction F; cbn; lia).
  assert (PR0 : proper_signed n1 (halves d0)) by (apply (proper_halves (fun x => x) n1 d0 h0); auto).
  assert (PR1 : proper_signed n0 (halves d1)) by (apply (proper_halves (fun _ => 1) n0 d1 h1); auto; intros; lia).
  pose proof (ptrace_spec (Gr := Gr) hash circuit_input HH p0 q0 p1 q1 P0 P1 V0 V1 K0 K1 (halves d0) (halves d1) PR0 PR1 d0 d1 eq_refl eq_refl ltac:(lia) O N0 Inv) as X.
  rewrite L0 in X. specialize (X STEP k O (fst (fst (psi_start stash node d0 d1))) (snd (fst (psi_start stash node d0 d1))) (snd (psi_start stash node d0 d1)) coins trace coins' LE).
  specialize (X (pinv_start hash p0 q0 p1 q1 (halves d0) (halves d1) d0 d1 O stash node eq_refl) E).
  destruct X as (X1 & X2 & X3). split; auto. intros j c s di EJ. specialize (X2 j c s di EJ). split; [apply X2|]. split; [apply X2|].
  intros GD. apply (X3 (holds_new _ _) I0 j c s di EJ). exact GD.
Qed.

(** [trace] lists the states at the end of each day; the set kept by party zero
    is the intersection of the two current sets. *)
Theorem C22_intersection : forall h0 h1 d0 d1 stash node k coins trace coins',
  psi_setting h0 h1 d0 d1 -> (k <= length h0)%nat -> (forall j, (j < k)%nat -> no_return j h0 h1) ->
  run_trace (psi_day2 (Gr := Gr) hash circuit_input P0 P1 V0 V1) k (psi_start stash node d0 d1) coins = Ok (trace, coins') ->
  length trace = k /\
  forall j c s di, nth_error trace j = Some (c, s, di) -> pc_day c = S j /\ ps_day s = S j /\
  ((forall i st, (i <= j)%nat -> nth_error trace i = Some st -> lucky_psi_day d0 d1 i st) ->
   same_set (pc_set c) (both (current (S j) h0) (current (S j) h1))).
Proof.
  intros h0 h1 d0 d1 stash node k coins trace coins' SET LE NR E.
  pose proof SET as (_ & _ & _ & PH0 & PH1 & LH & (D0 & _) & (D1 & _)).
  pose proof (setting_trace (fun j st => (j <= k)%nat -> same_set (snd st) (both (current j h0) (current j h1))) h0 h1 d0 d1 stash node k coins trace coins' SET LE) as X.
  destruct X as (X1 & X2); auto.
  - intros j us [r S0] [r' S'] Hj IV PU AU LJ. cbn [snd] in *. eapply (set_step h0 h1 d0 d1); eauto. apply IV. lia.
  - intros _. split; [constructor|]. cbn. tauto.
  - split; auto. intros j c s di EJ. destruct (X2 j c s di EJ) as (Y1 & Y2 & Y3). split; auto. split; auto. intros GD. apply (Y3 GD).
    assert (j < length trace)%nat by (apply nth_error_Some; congruence). lia.
Qed.
(** The counter is the size of the intersection, also with returning elements. *)
Theorem C22_cardinality : forall h0 h1 d0 d1 stash node k coins trace coins',
  psi_setting h0 h1 d0 d1 -> (k <= length h0)%nat ->
  run_trace (psi_day2 (Gr := Gr) hash circuit_input P0 P1 V0 V1) k (psi_start stash node d0 d1) coins = Ok (trace, coins') ->
  forall j c s di, nth_error trace j = Some (c, s, di) ->
  (forall i st, (i <= j)%nat -> nth_error trace i = Some st -> lucky_psi_day d0 d1 i st) ->
  pc_result c = Z.of_nat (length (both (current (S j) h0) (current (S j) h1))) mod 2 ^ 64 /\
  NoDup (both (current (S j) h0) (current (S j) h1)).
Proof.
  intros h0 h1 d0 d1 stash node k coins trace coins' SET LE E.
  pose proof SET as (_ & _ & _ & PH0 & PH1 & LH & (D0 & _) & (D1 & _)).
  pose proof (setting_trace (fun j st => fst st = Z.of_nat (length (both (current j h0) (current j h1))) mod 2 ^ 64) h0 h1 d0 d1 stash node k coins trace coins' SET LE) as X.
  destruct X as (X1 & X2); auto.
  - intros j us [r S0] [r' S'] Hj IV PU AU. cbn [fst] in *. rewrite <- (Z.sub_0_r (Z.of_nat _)) in IV. rewrite <- (Z.sub_0_r (Z.of_nat _)). eapply (count_step h0 h1 d0 d1); eauto.
  - intros j c s di EJ GD. destruct (X2 j c s di EJ) as (_ & _ & Y3). split; [apply (Y3 GD)|].
    assert (j < length trace)%nat by (apply nth_error_Some; congruence). apply meet_NoDup; auto. lia.
Qed.
(** Whatever the data and the coins: 0 is never put into the set. *)
Theorem C22_zero_never : forall d0 d1 stash node k coins trace coins',
  run_trace (psi_day2 (Gr := Gr) hash circuit_input P0 P1 V0 V1) k (psi_start stash node d0 d1) coins = Ok (trace, coins') ->
  forall j c s di, nth_error trace j = Some (c, s, di) -> ~ In 0 (pc_set c).
Proof.
  intros d0 d1 stash node k.
  assert (G : forall k c s di coins trace coins', ~ In 0 (pc_set c) ->
    run_trace (psi_day2 (Gr := Gr) hash circuit_input P0 P1 V0 V1) k (c, s, di) coins = Ok (trace, coins') ->
    forall j c s di, nth_error trace j = Some (c, s, di) -> ~ In 0 (pc_set c)).
  { clear. induction k as [|k IH]; intros c s di coins trace coins' NI E; cbn [run_trace] in E.
    - apply ret_Ok in E as (-> & _). intros [|j]; discriminate.
    - apply bind_Ok in E as ([[c1 s1] di1] & tp1 & E1 & E). apply bind_Ok in E as (tr & tp2 & E2 & E). apply ret_Ok in E as (-> & _).
      assert (N1 : ~ In 0 (pc_set c1)).
      { unfold psi_day2 in E1. apply bind_Ok in E1 as ([[c2 s2] [m0 m1]] & t1 & ER & E1).
        apply bind_Ok in E1 as ([[rs0 rs1] [r0 r1]] & t2 & _ & E1). apply bind_Ok in E1 as (us & t3 & ES & E1).
        apply bind_Ok in E1 as ([r S'] & t4 & EA & E1). apply ret_Ok in E1 as (E1 & _). inversion E1; subst. cbn [pc_set snd].
        apply lift_Ok in EA as (EA & _). apply second_phase_range in ES. eapply apply_updates_no_zero; [exact ES| |exact EA].
        (* the set is untouched by the exchanges *)
        assert (XS : forall es a b t a' b' t', exchange (Gr := Gr) hash P0 P1 V0 V1 es (a, b) t = Ok ((a', b'), t') -> pc_set a' = pc_set a).
        { clear. intros es a b t a' b' t' E. unfold exchange in E. apply bind_Ok in E as ([p m] & t1 & _ & E). apply bind_Ok in E as ([s r] & t2 & _ & E).
          apply bind_Ok in E as (c' & t3 & E1 & E). apply ret_Ok in E as (E & _). inversion E; subst. apply lift_Ok in E1 as (E1 & _).
          unfold pc_handle in E1. destruct (_ <=? _)%nat; [discriminate|]. destruct r as [[rr|rr|]| |]; try discriminate.
          destruct (psi_receive _ _ _) as [p' [ | | | ]]; try discriminate. inversion E1; subst. reflexivity. }
        unfold psi_run in ER. destruct (nth_error _ _) as [[dels adds]|]; [|discriminate].
        apply bind_Ok in ER as ([c3 s3] & t5 & EX1 & ER). apply bind_Ok in ER as ([c4 s4] & t6 & EX2 & ER). apply ret_Ok in ER as (ER & _).
        inversion ER; subst. cbn [pc_set]. rewrite (XS _ _ _ _ _ _ _ EX2), (XS _ _ _ _ _ _ _ EX1). auto. }
      intros [|j] c' s' di' EJ; cbn [nth_error] in EJ; [inversion EJ; subst; auto|]. eapply IH; eauto. }
  intros coins trace coins' E. eapply (G k _ _ _ coins trace coins'); [|exact E]. cbn. tauto.
Qed.
End C22.

(** C22.  An element removed and back on the same day: the shuffle decides
    whether it stays in the set; the counter is right in both cases. *)
Theorem C22_return_is_decided_by_the_shuffle : forall x r S, 0 < x < 2 ^ 63 -> In x S -> 0 <= r < 2 ^ 64 -> NoDup S -> (forall y, In y S -> 0 < y) ->
  (exists S1, apply_updates [(- x) mod 2 ^ 64; x] (r, S) = Ok (r, S1) /\ same_set S1 S) /\
  (exists S2, apply_updates [x; (- x) mod 2 ^ 64] (r, S) = Ok (r, S2) /\ same_set S2 (filter (fun y => negb (y =? x)) S)).
Proof.
  intros x r S Hx IN Hr ND PS.
  assert (E1 : to_signed ((- x) mod 2 ^ 64) = - x) by (apply to_signed_mod; lia).
  assert (E2 : to_signed x = x). { unfold to_signed. destruct (Z.ltb_spec x (2 ^ 63)); lia. }
  assert (M : set_mem x S = true) by (apply set_mem_In; auto).
  assert (C1 : forall a, 0 <= a < 2 ^ 64 -> ((a - 1) mod 2 ^ 64 + 1) mod 2 ^ 64 = a /\ ((a + 1) mod 2 ^ 64 - 1) mod 2 ^ 64 = a).
  { intros a Ha. rewrite Zplus_mod_idemp_l, Zminus_mod_idemp_l. split; [replace (a - 1 + 1) with a by ring|replace (a + 1 - 1) with a by ring]; apply Z.mod_small; auto. }
  destruct (C1 r Hr) as (R1 & R2).
  cbn [apply_updates]. unfold apply_update. rewrite E1, E2.
  assert (N1 : (- x =? - 2 ^ 63) = false) by (apply Z.eqb_neq; lia). assert (N2 : (x =? - 2 ^ 63) = false) by (apply Z.eqb_neq; lia).
  assert (N3 : (- x <? 0) = true) by (apply Z.ltb_lt; lia). assert (N4 : (x <? 0) = false) by (apply Z.ltb_ge; lia).
  rewrite N1, N2, N3, N4. cbn [obind fst snd]. rewrite Z.opp_involutive, M. cbn [obind fst snd].
  rewrite R1, R2. split.
  - assert (MM : set_mem (- x) (set_erase x S) = false).
    { apply not_true_is_false. rewrite set_mem_In, set_erase_In. intros (H & _). specialize (PS _ H). lia. }
    rewrite MM. eexists. split; [reflexivity|]. split.
    + apply set_insert_NoDup. apply NoDup_filter. auto.
    + intros y. rewrite set_insert_In, set_erase_In. destruct (Z.eq_dec y x) as [->|N]; tauto.
  - assert (MM : set_mem (- x) S = false). { apply not_true_is_false. rewrite set_mem_In. intros H. specialize (PS _ H). lia. }
    rewrite MM. unfold set_insert. rewrite M. rewrite M. eexists. split; [reflexivity|]. split; [apply NoDup_filter; auto|]. intros y. unfold set_erase. tauto.
Qed.

(** ** Examples: safe primes just above 2^33 (keys in BigPrime). *)
Definition ex_psi_run (d0 d1 : list (list entry)) (tp : tape) :=
  run_trace (psi_day2 (Gr := zmod_group 11 prime_11') ex_hash ex_circuit exl0P exl1P exl0V exl1V) 2 (psi_start 1 1 d0 d1) tp.
(** counters and sets, written in a row *)
Definition sets_of (l : list (pclient * pserver * day_info)) : list Z :=
  flat_map (fun st => let c := fst (fst st) in pc_result c :: Z.of_nat (length (pc_set c)) :: pc_set c) l.
Definition sets_are (tr : list (pclient * pserver * day_info)) (l : list Z) : bool := if list_eq_dec Z.eq_dec (sets_of tr) l then true else false.
(** party zero: {5}, then 5 deleted and 6 added; party one: {5}, then 6 added *)
Definition exh0 : history := [([], [5]); ([5], [6])].
Definition exh1 : history := [([], [5]); ([], [6])].
Definition exq0 : list (list entry) := [[(5, 5)]; [(6, 6); (5, -5)]].
Definition exq1 : list (list entry) := [[(5, 1)]; [(6, 1)]].
(** party zero deletes 5 and adds it again on day 2 *)
Definition exr0 : list (list entry) := [[(5, 5)]; [(5, -5); (5, 5)]].
Definition exr1 : list (list entry) := [[(5, 1)]; []].
Definition ex_psi_coins : tape := fun i => 8 + Z.of_nat i mod 50.
Fixpoint all2 {A B} (f : A -> B -> bool) (l : list A) (m : list B) : bool :=
  match l, m with [], [] => true | a :: l', b :: m' => f a b && all2 f l' m' | _, _ => false end.
Lemma all2_ok {A B} (f : A -> B -> bool) (R : A -> B -> Prop) l : (forall a b, f a b = true -> R a b) -> forall m, all2 f l m = true -> Forall2 R l m.
Proof. intros H. induction l as [|a l IH]; intros [|b m]; cbn [all2]; intros E; try discriminate; constructor; apply andb_true_iff in E as (E1 & E2); auto. Qed.
Definition lucky_psi_b (ci : Z -> outcome (list bool)) (n0 n1 : Z) (d0 d1 : list (list entry)) (j : nat) (st : pclient * pserver * day_info) : bool :=
  let '(c, s, di) := st in
  holds_b (di_mid0 di) (upto (2 * j + 1) (halves d0)) && holds_b (di_mid1 di) (upto (2 * j + 1) (halves d1)) &&
  holds_b (pg_my (pc_party c)) (upto (2 * j + 2) (halves d0)) && holds_b (pg_my (ps_party s)) (upto (2 * j + 2) (halves d1)) &&
  all2 (told_apart_b ci) (pg_x (pc_party c)) (pg_y (ps_party s)) && all2 (told_apart_b ci) (pg_x (ps_party s)) (pg_y (pc_party c)) &&
  all2 (fun r v => undisturbed_b n1 (fst r) v) (di_rounds0 di) (values0 j (halves d0) (halves d1)) &&
  all2 (fun r v => undisturbed_b n0 (fst r) v) (di_rounds1 di) (values1 j (halves d0) (halves d1)).
Lemma lucky_psi_b_ok ci p0 q0 p1 q1 d0 d1 j st : lucky_psi_b ci (p0 * q0) (p1 * q1) d0 d1 j st = true -> lucky_psi_day ci p0 q0 p1 q1 d0 d1 j st.
Proof.
  unfold lucky_psi_b, lucky_psi_day. destruct st as [[c s] di]. rewrite !andb_true_iff. intros (((((((H1 & H2) & H3) & H4) & H5) & H6) & H7) & H8).
  do 4 (split; [auto using holds_b_ok|]). do 2 (split; [eapply all2_ok; [|eassumption]; apply told_apart_b_ok|]).
  split; (eapply all2_ok; [|eassumption]); intros a b; apply undisturbed_b_ok.
Qed.
Definition ex_psi_lucky (o : outcome (list (pclient * pserver * day_info) * tape)) : bool :=
  match o with
  | Ok ([a; b], _) =>
      let l := lucky_psi_b ex_circuit (8589942443 * 8589951347) (8589952139 * 8589957359) exq0 exq1 in
      l 0%nat a && l 1%nat b && sets_are [a; b] [1; 1; 5; 1; 1; 6]
  | _ => false end.
(** two lucky days: the sets are {5} and {6} *)
Example ex_C22 : ex_psi_lucky (ex_psi_run exq0 exq1 ex_psi_coins) = true.
Proof. vm_cast_no_check (eq_refl true). Qed.
Example ex_C22_setting :
  psi_setting ex_hash 8589942443 8589951347 8589952139 8589957359 exl0P exl1P exl0V exl1V exh0 exh1 exq0 exq1 /\ forall j, (j < 2)%nat -> no_return j exh0 exh1.
Proof.
  split.
  - split; [split; [intros x; unfold ex_hash; rewrite map_length; apply seq_length|]; split; [apply exl0_pair|apply exl1_pair]|].
    split; [lia|]. split; [lia|].
    assert (ND : forall l : list Z, (if list_eq_dec Z.eq_dec (nodup Z.eq_dec l) l then true else false) = true -> NoDup l).
    { intros l. destruct (list_eq_dec Z.eq_dec (nodup Z.eq_dec l) l) as [<-|]; [intros _; apply NoDup_nodup|discriminate]. }
    split; [|split; [|split; [reflexivity|split; (split; [repeat constructor|vm_compute; reflexivity])]]];
      intros [|[|k]] L; cbn [length exh0 exh1] in L; try lia; (split; [apply ND; reflexivity|]; split; [apply ND; reflexivity|]);
      (split; [intros x Hx; cbn in Hx |- *; tauto|split; [intros x Hx Hy; cbn in Hx, Hy; intuition (subst; discriminate)|repeat constructor; lia]]).
  - intros [|[|j]] L; try lia; intros x Hx Hy; cbn in Hx, Hy |- *; intuition (subst; discriminate).
Qed.
(** 5 is deleted and added again on day 2: the size is right, but with these
    coins 5 is lost from the set *)
Example ex_C22_return : match ex_psi_run exr0 exr1 ex_psi_coins with Ok (tr, _) => sets_are tr [1; 1; 5; 1; 0] | _ => false end = true.
Proof. vm_cast_no_check (eq_refl true). Qed.

Print Assumptions C22_intersection.
Print Assumptions C22_cardinality.
Print Assumptions C22_zero_never.
Print Assumptions C22_return_is_decided_by_the_shuffle.
