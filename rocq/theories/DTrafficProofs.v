(** * C62: proofs about the counters *)
Require Import List Arith ZArith Bool Lia.
Import ListNotations.
From Verif Require Import Prelude TreeModel TreeDelModel Coins Group ElGamalModel BytesModel PaillierModel WireModel SyncModel AddModel ServerSpec DelModel DTrafficModel DTrafficSpec.
From Verif Require PsiModel.
Local Open Scope Z_scope.

(** ** printing *)
Lemma lines_readings setup sent : forall comm, length comm = length sent ->
  meter_lines (uint64 setup) comm (map uint64 (readings setup sent)) = combine comm (map uint64 sent).
Proof.
  revert setup. induction sent as [|b r IH]; intros setup [|c comm] L; try discriminate; cbn [readings map meter_lines combine]; auto.
  f_equal; [f_equal|apply IH; cbn in L; congruence].
  unfold uint64. rewrite Zminus_mod_idemp_l, Zminus_mod_idemp_r. f_equal. lia.
Qed.
Lemma lines_first setup sent comm : length comm = length sent ->
  meter_lines 0 comm (map uint64 (readings setup sent)) = combine comm (map uint64 (with_setup setup sent)).
Proof.
  intros L. destruct sent as [|b r], comm as [|c comm]; try discriminate; auto.
  cbn [readings map meter_lines combine with_setup]. rewrite lines_readings by (cbn in L; congruence). f_equal. f_equal. unfold uint64. rewrite Z.sub_0_r. apply Zmod_mod.
Qed.
Lemma last_readings sent : forall setup, sent <> [] -> last (readings setup sent) 0 = setup + sum sent.
Proof.
  induction sent as [|b r IH]; intros setup N; [congruence|]. cbn [readings sum fold_right]. destruct r as [|b' r'].
  - cbn [readings last fold_right]. lia.
  - change (last (readings (setup + b) (b' :: r')) 0 = setup + (b + sum (b' :: r'))). rewrite IH by discriminate. lia.
Qed.
Lemma last_map l : l <> [] -> last (map uint64 l) 0 = uint64 (last l 0).
Proof. induction l as [|a [|b l] IH]; intros N; [congruence|reflexivity|]. change (last (map uint64 (b :: l)) 0 = uint64 (last (b :: l) 0)). apply IH. discriminate. Qed.
Lemma total_mod l : forall a, fold_left (fun t c => (t + c) mod 2 ^ 64) (map uint64 l) (uint64 a) = uint64 (a + sum l).
Proof.
  induction l as [|b r IH]; intros a; cbn [map fold_left sum fold_right]; [rewrite Z.add_0_r; auto|].
  replace ((uint64 a + uint64 b) mod 2 ^ 64) with (uint64 (a + b)); [rewrite IH; f_equal; unfold sum; lia|].
  unfold uint64. rewrite Zplus_mod_idemp_l, Zplus_mod_idemp_r. auto.
Qed.
Lemma print_report bytes setup sent : length bytes = length sent -> bytes <> [] ->
  meter_print (mkMeter (map uint64 bytes) (map uint64 (readings setup sent))) = Ok (report bytes setup sent).
Proof.
  intros L N. unfold meter_print. cbn [mt_comm mt_gc]. destruct (map uint64 bytes) as [|x y] eqn:M; [destruct bytes; [congruence|discriminate]|].
  rewrite <- M. clear x y M. f_equal. unfold report. f_equal; [apply lines_first; rewrite map_length; auto|].
  assert (NS : sent <> []) by (destruct sent; [destruct bytes; [congruence|discriminate]|discriminate]).
  change 0 with (uint64 0) at 1. assert (NR : readings setup sent <> []) by (destruct sent; [congruence|discriminate]).
  rewrite total_mod, last_map, last_readings by auto.
  unfold uint64. rewrite Zplus_mod_idemp_l, Zplus_mod_idemp_r. f_equal. lia.
Qed.
Lemma sum_nonneg l : Forall (Z.le 0) l -> 0 <= sum l.
Proof. induction 1; cbn [sum fold_right]; [lia|]. unfold sum in IHForall. lia. Qed.
Lemma uint64_small l b : Forall (Z.le 0) l -> sum l + b < 2 ^ 64 -> 0 <= b -> map uint64 l = l.
Proof.
  induction 1 as [|x l X F IH]; intros B B0; cbn [map]; auto. pose proof (sum_nonneg l F). cbn [sum fold_right] in B. fold (sum l) in B.
  rewrite IH by lia. f_equal. unfold uint64. apply Z.mod_small. lia.
Qed.
Lemma report_exact bytes setup sent : fits bytes setup sent -> report bytes setup sent = exact_report bytes setup sent.
Proof.
  intros (F1 & S0 & F2 & B). unfold report, exact_report. pose proof (sum_nonneg _ F1). pose proof (sum_nonneg _ F2).
  f_equal; [f_equal|].
  - apply (uint64_small _ (setup + sum sent)); auto; lia.
  - destruct sent as [|b r]; cbn [with_setup]; auto. inversion F2; subst. cbn [sum fold_right] in *. fold (sum r) in *. pose proof (sum_nonneg _ H4).
    apply (uint64_small _ 0); [constructor; auto; lia|cbn [sum fold_right]; fold (sum r); lia|lia].
  - unfold uint64. apply Z.mod_small. lia.
Qed.

(** ** the vectors while the days go by *)
(** after [length bytes] days *)
Definition so_far (total : nat) (bytes : list Z) (counters : list Z) (m : meter) : Prop :=
  mt_comm m = map uint64 bytes ++ repeat 0 (total - length bytes) /\ mt_gc m = map uint64 counters ++ repeat 0 (total - length counters).
Lemma set_nth_app {A} (l : list A) x y r : set_nth (length l) x (l ++ y :: r) = l ++ x :: r.
Proof. induction l; cbn [length app set_nth]; congruence. Qed.
Lemma nth_middle' {A} (l : list A) y r d : nth (length l) (l ++ y :: r) d = y. Proof. apply nth_middle. Qed.
(** in the middle of a day: [today] bytes so far *)
Definition today (total : nat) (bytes counters : list Z) (b : Z) (m : meter) : Prop :=
  mt_comm m = map uint64 bytes ++ uint64 b :: repeat 0 (total - S (length bytes)) /\ mt_gc m = map uint64 counters ++ repeat 0 (total - length counters).
Lemma today_start total bytes counters m : (length bytes < total)%nat -> so_far total bytes counters m -> today total bytes counters 0 m.
Proof.
  intros L (C & G). split; auto. rewrite C. f_equal. replace (total - length bytes)%nat with (S (total - S (length bytes))) by lia. reflexivity.
Qed.
Lemma today_add total bytes counters b z m : today total bytes counters b m -> today total bytes counters (b + z) (meter_add (length bytes) z m).
Proof.
  intros (C & G). split; auto. unfold meter_add. cbn [mt_comm]. rewrite C. assert (L : length (map uint64 bytes) = length bytes) by apply map_length.
  rewrite <- L. rewrite nth_middle, set_nth_app. f_equal. f_equal. unfold uint64. apply Zplus_mod_idemp_l.
Qed.
Lemma today_end total bytes counters b z m : length counters = length bytes -> (length bytes < total)%nat -> today total bytes counters b m ->
  so_far total (bytes ++ [b]) (counters ++ [z]) (meter_store (length bytes) z m).
Proof.
  intros L B (C & G). unfold so_far, meter_store. cbn [mt_comm mt_gc]. rewrite C, G, !app_length, !map_app. cbn [length map]. rewrite <- !app_assoc. cbn [app].
  split; [repeat f_equal; lia|]. replace (total - length counters)%nat with (S (total - (length counters + 1))) by lia. cbn [repeat].
  rewrite <- L, <- (map_length uint64 counters) at 1. rewrite set_nth_app. f_equal.
Qed.
Lemma so_far_0 total : so_far total [] [] (meter_new total).
Proof. unfold so_far, meter_new. cbn [mt_comm mt_gc map app length]. rewrite Nat.sub_0_r. auto. Qed.
Lemma so_far_end total bytes setup sent m : length bytes = total -> length sent = total -> bytes <> [] -> so_far total bytes (readings setup sent) m ->
  meter_print m = Ok (report bytes setup sent).
Proof.
  intros L1 L2 N (C & G). assert (LR : forall l s, length (readings s l) = length l) by (clear; induction l; intros; cbn [readings length]; auto).
  rewrite LR, L2, Nat.sub_diag, app_nil_r in G. rewrite L1, Nat.sub_diag, app_nil_r in C. destruct m as [c g]. cbn in C, G. subst c g. apply print_report; congruence.
Qed.

(** ** party one *)
Section One.
Context {Gr : group}.
Variable body2 : msg12 Gr -> Z.
Context {S : Type}.
Variable handle : client_msg Gr -> S -> tape -> S * outcome (option (server_msg Gr)).
Variables (day : S -> nat) (finished : S -> bool) (reset : S -> S) (total : nat).
Notation ihandle := (one_handle body2 handle day).
Lemma handle_proj q st tp : let '(st', o) := ihandle q st tp in handle q (fst st) tp = (fst st', o).
Proof. unfold one_handle. destruct (handle q (fst st) tp) as [s' [[[[r| |]| |]|]| | |]]; auto. Qed.
Lemma serve_proj reqs : forall st, let '(st', outs) := serve ihandle reqs st in serve handle reqs (fst st) = (fst st', outs).
Proof.
  induction reqs as [|[q tp] r IH]; intros st; cbn [serve]; auto. pose proof (handle_proj q st tp) as X. destruct (ihandle q st tp) as [s1 o]. rewrite X.
  destruct o; auto; pose proof (IH s1) as Y; destruct (serve ihandle r s1); rewrite Y; auto.
Qed.
Hypothesis step : forall q s tp, let '(s', o) := handle q s tp in
  match o with
  | Ok (Some (S_party_one (P1_II r))) => finished s = false /\ ((day s' = Datatypes.S (day s) /\ finished s' = true) \/ (day s' = day s /\ finished s' = false))
  | Ok _ => False
  | _ => day s' = day s /\ finished s' = finished s
  end.
Hypothesis reset_day : forall s, day (reset s) = day s /\ finished (reset s) = false.
(** one day *)
Definition at_day (i : nat) (s : S) : Prop := day s = if finished s then Datatypes.S i else i.
Lemma serve_day bytes counters reqs : forall b st,
  at_day (length bytes) (fst st) -> today total bytes counters b (snd st) ->
  let '(st', outs) := serve ihandle reqs st in
  at_day (length bytes) (fst st') /\ today total bytes counters (b + sum (map body2 (replies outs))) (snd st').
Proof.
  induction reqs as [|[q tp] r IH]; intros b st A T; cbn [serve]; [split; auto; cbn; rewrite Z.add_0_r; auto|].
  assert (X : let '(st', o) := ihandle q st tp in at_day (length bytes) (fst st') /\ today total bytes counters (b + sum (map body2 (replies [o]))) (snd st')).
  { unfold one_handle. pose proof (step q (fst st) tp) as Y. destruct (handle q (fst st) tp) as [s' o]. unfold at_day in *.
    destruct o as [[[[m| |]| |]|]|c| |]; try contradiction; cbn [fst snd replies flat_map map sum fold_right app]; try (rewrite Z.add_0_r; destruct Y as (-> & ->); auto; fail).
    destruct Y as (F & Y). rewrite F in A. split; [destruct Y as [(-> & ->)|(-> & ->)]; congruence|]. rewrite A, Z.add_0_r. apply today_add. auto. }
  assert (J : forall o outs, sum (map body2 (replies (o :: outs))) = sum (map body2 (replies [o])) + sum (map body2 (replies outs))).
  { intros. unfold replies. cbn [flat_map]. rewrite app_nil_r, map_app. unfold sum. rewrite fold_right_app. generalize (fold_right Z.add 0 (map body2 (flat_map (fun o0 : outcome (option (server_msg Gr)) => match o0 with Ok (Some (S_party_one (P1_II r0))) => [r0] | _ => [] end) outs))). intros z.
    match goal with |- context [map body2 ?l] => generalize (map body2 l) end. intros l. induction l; cbn [fold_right]; lia. }
  destruct (ihandle q st tp) as [s1 o]. destruct X as (A1 & T1). destruct o as [v|c| |]; auto.
  - specialize (IH _ s1 A1 T1). destruct (serve ihandle r s1) as [s2 outs]. rewrite J, Z.add_assoc. auto.
  - specialize (IH _ s1 A1 T1). destruct (serve ihandle r s1) as [s2 outs]. rewrite J, Z.add_assoc. auto.
Qed.
Notation loop := (one_loop body2 handle day finished reset).
Notation reqs_of := (map (fun d : list (client_msg Gr * tape) * bool * Z => fst (fst d))).
Notation counters_of := (map (fun d : list (client_msg Gr * tape) * bool * Z => snd d)).
Definition day_bytes (outs : list (outcome (option (server_msg Gr)))) : Z := sum (map body2 (replies outs)).
Lemma loop_spec days : forall bytes counters st st' log,
  length counters = length bytes -> (length bytes + length days <= total)%nat ->
  day (fst st) = length bytes -> so_far total bytes counters (snd st) ->
  loop (length bytes) days st = Some (st', log) ->
  log = answers handle reset (reqs_of days) (fst st) /\ length log = length days
  /\ so_far total (bytes ++ map day_bytes log) (counters ++ counters_of days) (snd st').
Proof.
  induction days as [|[[reqs ok] z] rest IH]; intros bytes counters st st' log LC LT D SF E; cbn [one_loop] in E.
  - inversion E; subst. cbn [map answers]. rewrite !app_nil_r. auto.
  - cbn [map answers fst snd length] in *. destruct (reset_day (fst st)) as (RD & RF).
    pose proof (serve_proj reqs (reset (fst st), snd st)) as PR.
    assert (SD := serve_day bytes counters reqs 0 (reset (fst st), snd st)).
    destruct (serve ihandle reqs (reset (fst st), snd st)) as [[s m] outs]. cbn [fst snd] in *. rewrite PR.
    destruct SD as (A & T); [unfold at_day; rewrite RF, RD; auto|apply today_start; auto; lia|].
    destruct (existsb crashed outs); [discriminate|]. destruct (finished s) eqn:F; [|discriminate]. destruct ok; [|discriminate]. cbn [negb] in E.
    unfold at_day in A. rewrite F in A.
    destruct (loop (Datatypes.S (length bytes)) rest (s, meter_store (length bytes) z m)) as [[st1 log1]|] eqn:E1; [|discriminate]. inversion E; subst st1 log.
    assert (L1 : length (bytes ++ [0 + day_bytes outs]) = Datatypes.S (length bytes)) by (rewrite app_length; cbn [length]; lia).
    rewrite <- L1 in E1. apply (IH (bytes ++ [0 + day_bytes outs]) (counters ++ [z])) in E1; [|rewrite !app_length; cbn [length]; lia|lia|cbn [fst]; lia|].
    + destruct E1 as (-> & L & SF'). cbn [fst] in *. split; auto. cbn [length map]. split; [auto|]. rewrite <- !app_assoc in SF'. cbn [app] in SF'. exact SF'.
    + cbn [snd]. apply today_end; auto. lia.
Qed.
End One.

(** how many replies end the day *)
Section Count.
Context {Gr : group}.
Context {S : Type}.
Variable handle : client_msg Gr -> S -> tape -> S * outcome (option (server_msg Gr)).
Variables (finished : S -> bool) (reset : S -> S) (need : S -> nat) (n : nat).
Hypothesis need_step : forall q s tp, let '(s', o) := handle q s tp in need s = (need s' + length (replies [o]))%nat.
Hypothesis need_reset : forall s, need (reset s) = n.
Hypothesis need_finished : forall s, finished s = true -> need s = 0%nat.
Lemma serve_need reqs : forall s, let '(s', outs) := serve handle reqs s in need s = (need s' + length (replies outs))%nat.
Proof.
  induction reqs as [|[q tp] r IH]; intros s; cbn [serve]; [cbn; lia|]. pose proof (need_step q s tp) as X. destruct (handle q s tp) as [s1 o].
  assert (J : forall outs, length (replies (o :: outs)) = (length (replies [o]) + length (replies outs))%nat) by (intros; unfold replies; cbn [flat_map]; rewrite app_nil_r, app_length; auto).
  destruct o; auto; specialize (IH s1); destruct (serve handle r s1) as [s2 outs]; rewrite J; lia.
Qed.
Variables (body2 : msg12 Gr -> Z) (day : S -> nat).
Lemma loop_counts days : forall i st st' log, one_loop body2 handle day finished reset i days st = Some (st', log) -> Forall (fun outs => length (replies outs) = n) log.
Proof.
  induction days as [|[[reqs ok] z] rest IH]; intros i st st' log E; cbn [one_loop] in E; [inversion E; constructor|].
  pose proof (serve_proj body2 handle day reqs (reset (fst st), snd st)) as PR. destruct (serve (one_handle body2 handle day) reqs (reset (fst st), snd st)) as [[s m] outs]. cbn [fst] in PR.
  pose proof (serve_need reqs (reset (fst st))) as X. rewrite PR, need_reset in X.
  destruct (existsb crashed outs); [discriminate|]. destruct (finished s) eqn:F; [|discriminate]. destruct ok; [|discriminate]. cbn [negb] in E.
  destruct (one_loop _ _ _ _ _ _ rest _) as [[st1 log1]|] eqn:E1; [|discriminate]. injection E as <- <-. constructor; [rewrite (need_finished _ F) in X; lia|]. eapply IH; eauto.
Qed.
End Count.

(** ** party zero *)
Section Zero.
Context {Gr : group}.
Variable hash : Z -> list bool.
Variable body1 : msg12 Gr -> Z.
Variables (P1 : pub) (V0 : priv).
Notation size := (request_size body1).
Lemma dc_handle_day m c c' : dc_handle (Gr := Gr) V0 m c = Ok c' -> dc_day c' = S (dc_day c) /\ dc_data c' = dc_data c /\ dc_total c' = dc_total c.
Proof.
  unfold dc_handle. destruct (_ <=? _)%nat; [discriminate|]. destruct m as [[r| |]| |]; try discriminate. destruct (del_receive _ _ _) as [p [[]| | |]]; try discriminate.
  intros E. inversion E. cbn. auto.
Qed.
Lemma zero_loop_spec total days : forall bytes counters st tp st' log tp',
  length counters = length bytes -> (length bytes + length days <= total)%nat ->
  dc_day (fst st) = length bytes -> so_far total bytes counters (snd st) ->
  zero_loop hash body1 P1 V0 (length bytes) days st tp = Ok (st', log, tp') ->
  length log = length days /\ Forall (fun ms => length ms = 1%nat) log
  /\ so_far total (bytes ++ map (fun ms => sum (map size ms)) log) (counters ++ map snd days) (snd st').
Proof.
  induction days as [|[[answer shares] z] rest IH]; intros bytes counters st tp st' log tp' LC LT D SF E; cbn [zero_loop] in E.
  - apply ret_Ok in E as (E & _). inversion E; subst. cbn [map]. rewrite !app_nil_r. auto.
  - apply bind_Ok in E as ([[c mt] m] & t1 & E1 & E). apply bind_Ok in E as (v & t2 & _ & E). apply bind_Ok in E as ([st1 log1] & t3 & E2 & E). apply ret_Ok in E as (E & _). inversion E; subst st1 log.
    cbn [map length fst snd] in *. destruct st as [c0 mt0]. cbn [fst snd] in *. unfold zero_run in E1. destruct (nth_error _ _) as [es|]; [|discriminate].
    apply bind_Ok in E1 as ([p1 m1] & t4 & _ & E1). apply bind_Ok in E1 as (r & t5 & _ & E1). apply bind_Ok in E1 as (c' & t6 & HD & E1). apply ret_Ok in E1 as (E1 & _). inversion E1; subst c mt m1.
    apply lift_Ok in HD as (HD & _). apply dc_handle_day in HD as (D1 & _ & _). cbn [dc_day] in D1.
    assert (L1 : length (bytes ++ [0 + size m]) = S (length bytes)) by (rewrite app_length; cbn [length]; lia).
    rewrite <- L1 in E2. apply (IH (bytes ++ [0 + size m]) (counters ++ [z])) in E2; [|rewrite !app_length; cbn [length]; lia|lia|cbn [fst dc_day]; lia|].
    + destruct E2 as (L & F & SF'). split; [auto|]. split; [constructor; auto|]. rewrite <- !app_assoc in SF'. cbn [app] in SF'.
      replace (sum [size m]) with (0 + size m) by (unfold sum; cbn [fold_right]; lia). exact SF'.
    + cbn [snd]. rewrite D. apply today_end; auto; [lia|]. apply today_add. apply today_start; auto. lia.
Qed.
Import PsiModel.
Lemma pc_handle_day m c c' : pc_handle (Gr := Gr) V0 m c = Ok c' -> pc_day c' = pc_day c /\ pc_data c' = pc_data c /\ pc_total c' = pc_total c.
Proof.
  unfold pc_handle. destruct (_ <=? _)%nat; [discriminate|]. destruct m as [[r| |]| |]; try discriminate. destruct (psi_receive _ _ _) as [p [[]| | |]]; try discriminate.
  intros E. inversion E. cbn. auto.
Qed.
Lemma pzero_half_spec es answer c mt tp c' mt' m tp' : pzero_half hash body1 P1 V0 es answer (c, mt) tp = Ok (c', mt', m, tp') ->
  pc_day c' = pc_day c /\ mt' = meter_add (pc_day c) (size m) mt.
Proof.
  unfold pzero_half. intros E. apply bind_Ok in E as ([p1 m1] & t4 & _ & E1). apply bind_Ok in E1 as (r & t5 & _ & E1). apply bind_Ok in E1 as (c1 & t6 & HD & E1). apply ret_Ok in E1 as (E1 & _). inversion E1; subst.
  apply lift_Ok in HD as (HD & _). apply pc_handle_day in HD as (D1 & _ & _). cbn [pc_day pc_with] in D1. auto.
Qed.
Lemma pzero_loop_spec total days : forall bytes counters st tp st' log tp',
  length counters = length bytes -> (length bytes + length days <= total)%nat ->
  pc_day (fst st) = length bytes -> so_far total bytes counters (snd st) ->
  pzero_loop hash body1 P1 V0 (length bytes) days st tp = Ok (st', log, tp') ->
  length log = length days /\ Forall (fun ms => length ms = 2%nat) log
  /\ so_far total (bytes ++ map (fun ms => sum (map size ms)) log) (counters ++ map snd days) (snd st').
Proof.
  induction days as [|[[answers updates] z] rest IH]; intros bytes counters st tp st' log tp' LC LT D SF E; cbn [pzero_loop] in E.
  - apply ret_Ok in E as (E & _). inversion E; subst. cbn [map]. rewrite !app_nil_r. auto.
  - apply bind_Ok in E as ([[c mt] ms] & t1 & E1 & E). apply bind_Ok in E as (us & t2 & _ & E). apply bind_Ok in E as (rs & t2' & _ & E). apply bind_Ok in E as ([st1 log1] & t3 & E2 & E). apply ret_Ok in E as (E & _). inversion E; subst st1 log.
    cbn [map length fst snd] in *. destruct st as [c0 mt0]. cbn [fst snd] in *. unfold pzero_run in E1. destruct (nth_error _ _) as [[dels adds]|]; [|discriminate].
    apply bind_Ok in E1 as ([[c2 mt2] m1] & t4 & H1 & E1). apply bind_Ok in E1 as ([[c3 mt3] m2] & t5 & H2 & E1). apply ret_Ok in E1 as (E1 & _). inversion E1; subst c mt ms.
    apply pzero_half_spec in H1 as (D1 & ->). apply pzero_half_spec in H2 as (D2 & ->). cbn [pc_day pc_with] in D1.
    assert (L1 : length (bytes ++ [0 + size m1 + size m2]) = S (length bytes)) by (rewrite app_length; cbn [length]; lia).
    rewrite <- L1 in E2. apply (IH (bytes ++ [0 + size m1 + size m2]) (counters ++ [z])) in E2; [|rewrite !app_length; cbn [length]; lia|lia|cbn [fst pc_day]; lia|].
    + destruct E2 as (L & F & SF'). split; [auto|]. split; [constructor; auto|]. rewrite <- !app_assoc in SF'. cbn [app] in SF'.
      replace (sum (map size [m1; m2])) with (0 + size m1 + size m2) by (unfold sum; cbn [map fold_right]; lia). exact SF'.
    + cbn [snd]. cbn [pc_day pc_with]. rewrite D1, D. apply today_end; auto; [lia|]. apply today_add, today_add. apply today_start; auto. lia.
Qed.
End Zero.
