(** * C59: the sequential runs of SchedModel are the runs of DelModel and PsiModel. *)
Require Import List Arith ZArith Bool Lia.
Import ListNotations.
From Verif Require Import Prelude Coins Group PaillierModel TreeModel BytesModel CipherModel WireModel SyncModel TreeDelModel AddModel DelModel PsiModel SchedModel SchedProofs.
Local Open Scope nat_scope.

(** ** traces *)
Lemma trace_snoc {S} (day : S -> M S) n : forall st tp,
  run_trace day (Datatypes.S n) st tp = (tr <- run_trace day n st ;; x <- day (last tr st) ;; ret (tr ++ [x])) tp.
Proof.
  induction n as [|n IH]; intros st tp.
  - cbn. unfold bind, ret. destruct (day st tp) as [[x t]| | |]; auto.
  - assert (Q : forall m, run_trace day (Datatypes.S m) st tp = match day st tp with
        | Ok (x, t) => match run_trace day m x t with Ok (l, t') => Ok (x :: l, t') | Err c => Err c | Abort => Abort | UB => UB end
        | Err c => Err c | Abort => Abort | UB => UB end).
    { intros m. cbn [run_trace]. unfold bind, ret. destruct (day st tp) as [[x t]| | |]; auto. }
    rewrite Q. unfold bind at 1. rewrite (Q n). clear Q. destruct (day st tp) as [[x t]| | |] eqn:E; auto.
    rewrite IH. unfold bind. destruct (run_trace day n x t) as [[tr t']| | |]; auto.
    assert (L : forall d, last (x :: tr) d = last tr x). { clear. intros d. revert x d. induction tr as [|y tr IH]; intros x d; [reflexivity|]. change (last (x :: y :: tr) d) with (last (y :: tr) d). rewrite (IH y d). rewrite (IH y x). reflexivity. }
    unfold ret. rewrite L. destruct (day (last tr x) t') as [[y t'']| | |]; auto.
Qed.
Lemma trace_length {S} (day : S -> M S) n : forall st tp tr tp', run_trace day n st tp = Ok (tr, tp') -> length tr = n.
Proof.
  induction n as [|n IH]; intros st tp tr tp' H; cbn [run_trace] in H.
  - apply ret_Ok in H as (H & _). subst. auto.
  - apply bind_Ok in H as (x & t & H1 & H). apply bind_Ok in H as (l & t' & H2 & H). apply ret_Ok in H as (H & _). subst. cbn. f_equal. eauto.
Qed.
Lemma last_nth {A} (l : list A) n d : length l = Datatypes.S n -> nth_error l n = Some (last l d).
Proof.
  revert n. induction l as [|x l IH]; intros n H; [discriminate|]. destruct l as [|y l].
  - assert (n = 0) by (cbn in H; lia). subst. reflexivity.
  - destruct n as [|n]; [discriminate|]. change (last (x :: y :: l) d) with (last (y :: l) d). cbn [nth_error]. apply IH. cbn in *. lia.
Qed.

Section Iter.
Context {A B : Type}.
Variable f : A -> B.
Variables (dayA : A -> M A) (dayB : B -> M B).
Hypothesis same : forall a tp, match dayA a tp, dayB (f a) tp with
  | Ok (a', t), Ok (b', t') => f a' = b' /\ t = t' | Ok _, _ => False | _, Ok _ => False | _, _ => True end.
Fixpoint iterA (n : nat) (a : A) : M A := match n with 0 => ret a | Datatypes.S m => a' <- iterA m a ;; dayA a' end.
Lemma iter_trace n : forall a tp,
  match iterA n a tp, run_trace dayB n (f a) tp with
  | Ok (a', t), Ok (tr, t') => last tr (f a) = f a' /\ t = t' | Ok _, _ => False | _, Ok _ => False | _, _ => True end.
Proof.
  induction n as [|n IH]; intros a tp.
  - cbn. auto.
  - rewrite trace_snoc. cbn [iterA]. unfold bind. specialize (IH a tp). destruct (iterA n a tp) as [[a1 t1]| | |]; destruct (run_trace dayB n (f a) tp) as [[tr t2]| | |]; try contradiction; auto.
    destruct IH as (L & ->). rewrite L. specialize (same a1 t2). destruct (dayA a1 t2) as [[a2 t3]| | |]; destruct (dayB (f a1) t2) as [[b2 t4]| | |]; try contradiction; auto.
    destruct same as (<- & ->). cbn. rewrite last_last. auto.
Qed.
End Iter.

Section Days.
Context {Gr : group}.
Variable hash : Z -> list bool.
Variable circuit_input : Z -> outcome (list bool).
Variables (P0 P1 : pub) (V0 V1 : priv).

(** ** deletion *)
Definition d_days (n : nat) : dzero * dserver -> M (dzero * dserver) :=
  days 1 (d_send (Gr := Gr) hash P1 V0) (d_recv V0) (d_work hash P0 V1) d_publish d_advance ds_reset (d_second circuit_input P0 P1 V0 V1) n.
Definition d_flat (st : dzero * dserver) : dclient * dserver * (round * round) := (fst (fst st), snd st, snd (fst st)).
Lemma d_handle_same req s tp : handle_all (d_work (Gr := Gr) hash P0 V1) d_publish d_advance req s tp = del_handle hash P0 V1 req s tp.
Proof.
  unfold handle_all, d_work, del_handle. destruct (ds_finished s); auto. destruct req as [x| |]; auto; try (destruct x; auto).
  all: try (destruct (nth_error (ds_data s) (ds_day s)); auto). all: try (destruct del_gen2 as [p' [[? ?]| | |]]; auto).
Qed.
Lemma d_day_same st tp :
  match one_day 1 (d_send (Gr := Gr) hash P1 V0) (d_recv V0) (d_work hash P0 V1) d_publish d_advance ds_reset (d_second circuit_input P0 P1 V0 V1) st tp,
        del_day (Gr := Gr) hash circuit_input P0 P1 V0 V1 (d_flat st) tp with
  | Ok (a', t), Ok (b', t') => d_flat a' = b' /\ t = t' | Ok _, _ => False | _, Ok _ => False | _, _ => True end.
Proof.
  destruct st as [[c rs] s]. unfold one_day, del_day, d_flat. cbn [calls]. unfold one_call, dc_run, d_send, d_recv, d_second, call, send. 
  unfold bind, lift, ret. cbn [fst snd].
  destruct (nth_error (dc_data c) (dc_day c)) as [es|]; [|auto].
  destruct (del_gen1 (Gr := Gr) hash P1 V0 es (reset_gc (dc_party c)) tp) as [[[p1 m1] t1]| | |]; auto.
  rewrite d_handle_same. change (evens t1) with (fun i : nat => t1 (2 * i)). change (odds t1) with (fun i : nat => t1 (2 * i + 1)).
  destruct (del_handle hash P0 V1 (C_party_zero (P0_I m1)) (ds_reset s) (fun i => t1 (2 * i))) as [s' [r| | |]]; auto. cbn [fst snd].
  destruct (dc_handle V0 match r with Some m => m | None => S_unset end _) as [c'| | |]; cbn [obind fst snd]; auto.
  destruct (del_circuits circuit_input P0 P1 V0 V1 (dc_party c') (ds_party s') (fun i => t1 (2 * i + 1))) as [[[[a b] rounds] t]| | |]; auto.
Qed.

(** ** deletion-psi *)
Definition p_days (n : nat) : pzero * pone -> M (pzero * pone) :=
  days 2 (p_send (Gr := Gr) hash P1 V0) (p_recv V0) (p_work hash P0 V1) p_publish p_advance p_reset (p_second circuit_input P0 P1 V0 V1) n.
Definition p_flat (st : pzero * pone) : pclient * pserver * day_info := (fst (fst st), fst (snd st), snd (fst st)).
Lemma p_handle_same req s mid tp : let '((s', _), o) := handle_all (p_work (Gr := Gr) hash P0 V1) p_publish p_advance req (s, mid) tp in
  (s', o) = psi_handle hash P0 V1 req s tp.
Proof.
  unfold handle_all, p_work, psi_handle. destruct (ps_finished s) eqn:F; auto. destruct req as [x| |]; auto; try (destruct x; auto).
  all: try (destruct (nth_error (ps_data s) (ps_day s)) as [[? ?]|]; auto). all: try (destruct psi_gen2 as [p' [[? ?]| | |]]; auto).
  unfold p_publish, p_advance, ps_finish. destruct (ps_first s); cbn [ps_first ps_finished ps_party ps_data ps_day]; auto.
Qed.
Lemma psi_handle_mid req s mid tp s' mid' r : handle_all (p_work (Gr := Gr) hash P0 V1) p_publish p_advance req (s, mid) tp = ((s', mid'), Ok r) ->
  mid' = if ps_first s then mid else pg_my (ps_party s').
Proof.
  unfold handle_all, p_work. destruct (ps_finished s) eqn:F; [discriminate|]. destruct req as [x| |]; try discriminate; destruct x; try discriminate.
  destruct (nth_error (ps_data s) (ps_day s)) as [[? ?]|]; try discriminate. destruct psi_gen2 as [p' [[? ?]| | |]]; try discriminate.
  unfold p_publish, p_advance. cbn [ps_first ps_party ps_finished ps_data ps_day]. destruct (ps_first s); cbn; intros Q; inversion Q; auto.
Qed.
Lemma psi_handle_first req s tp s' r : psi_handle (Gr := Gr) hash P0 V1 req s tp = (s', Ok r) -> ps_first s' = true.
Proof.
  unfold psi_handle. destruct (ps_finished s) eqn:F; [discriminate|]. destruct req as [x| |]; try discriminate; destruct x; try discriminate.
  destruct (nth_error (ps_data s) (ps_day s)) as [[? ?]|]; try discriminate. destruct psi_gen2 as [p' [[? ?]| | |]]; try discriminate.
  unfold ps_finish. cbn [ps_first ps_party ps_finished ps_data ps_day]. destruct (ps_first s); cbn; intros Q; inversion Q; auto.
Qed.
Lemma pc_handle_keeps m c c' : pc_handle (Gr := Gr) V0 m c = Ok c' -> pc_data c' = pc_data c /\ pc_day c' = pc_day c.
Proof.
  unfold pc_handle. destruct (_ <=? _); [discriminate|]. destruct m as [x| |]; try discriminate. destruct x; try discriminate.
  destruct psi_receive as [p' [|c2| |]]; try discriminate. intros Q. inversion Q. auto.
Qed.
Local Notation p_call := (one_call (p_send (Gr := Gr) hash P1 V0) (p_recv V0) (p_work hash P0 V1) p_publish p_advance).
Local Notation half := (exchange (Gr := Gr) hash P0 P1 V0 V1).
Lemma call_first c di s mid tp dels adds : nth_error (pc_data c) (pc_day c) = Some (dels, adds) -> ps_first s = false ->
  match p_call 0 ((c, di), (s, mid)) tp, half dels (pc_with (preset (pc_party c)) c, s) tp with
  | Ok (((c', di'), (s', mid')), t), Ok ((c2, s2), t') => c' = c2 /\ s' = s2 /\ t = t' /\ di_mid0 di' = pg_my (pc_party c2) /\ mid' = pg_my (ps_party s2)
      /\ ps_first s2 = true /\ pc_data c2 = pc_data c /\ pc_day c2 = pc_day c
  | Ok _, _ => False | _, Ok _ => False | _, _ => True end.
Proof.
  intros ND FS. unfold one_call, exchange, p_send, call, send, p_recv. unfold bind, lift, ret. cbn [fst snd Nat.eqb pc_with pc_data pc_day pc_party].
  rewrite ND. destruct (psi_gen1 (Gr := Gr) hash P1 V0 dels (preset (pc_party c)) tp) as [[[p1 m1] t1]| | |]; auto.
  change (evens t1) with (fun i : nat => t1 (2 * i)). change (odds t1) with (fun i : nat => t1 (2 * i + 1)).
  pose proof (p_handle_same (C_party_zero (P0_I m1)) s mid (fun i => t1 (2 * i))) as HS.
  pose proof (psi_handle_mid (C_party_zero (P0_I m1)) s mid (fun i => t1 (2 * i))) as HM.
  destruct (handle_all _ _ _ _ _ _) as [[s1 mid1] o1]. rewrite <- HS. symmetry in HS. destruct o1 as [r1| | |]; auto.
  specialize (HM _ _ _ eq_refl). rewrite FS in HM. apply psi_handle_first in HS. cbn [fst snd].
  match goal with |- context [pc_handle V0 ?m ?c] => pose proof (pc_handle_keeps m c) as KP; destruct (pc_handle V0 m c) as [c'| | |]; cbn [obind]; auto end.
  destruct (KP _ eq_refl) as (K1 & K2). cbn [pc_with pc_data pc_day] in *. cbn [fst snd di_mid0]. auto 10.
Qed.
Lemma call_second c di s mid tp dels adds : nth_error (pc_data c) (pc_day c) = Some (dels, adds) -> ps_first s = true ->
  match p_call 1 ((c, di), (s, mid)) tp, half adds (c, s) tp with
  | Ok (((c', di'), (s', mid')), t), Ok ((c2, s2), t') =>
      c' = mkPC (pc_party c2) (pc_data c2) (S (pc_day c2)) (pc_total c2) (pc_result c2) (pc_set c2) /\ s' = s2 /\ t = t' /\ di' = di /\ mid' = mid
  | Ok _, _ => False | _, Ok _ => False | _, _ => True end.
Proof.
  intros ND FS. unfold one_call, exchange, p_send, call, send, p_recv. unfold bind, lift, ret. cbn [fst snd Nat.eqb pc_with pc_data pc_day pc_party].
  rewrite ND. destruct (psi_gen1 (Gr := Gr) hash P1 V0 adds (pc_party c) tp) as [[[p1 m1] t1]| | |]; auto.
  change (evens t1) with (fun i : nat => t1 (2 * i)). change (odds t1) with (fun i : nat => t1 (2 * i + 1)).
  pose proof (p_handle_same (C_party_zero (P0_I m1)) s mid (fun i => t1 (2 * i))) as HS.
  pose proof (psi_handle_mid (C_party_zero (P0_I m1)) s mid (fun i => t1 (2 * i))) as HM.
  destruct (handle_all _ _ _ _ _ _) as [[s1 mid1] o1]. rewrite <- HS. symmetry in HS. destruct o1 as [r1| | |]; auto.
  specialize (HM _ _ _ eq_refl). rewrite FS in HM. cbn [fst snd].
  match goal with |- context [pc_handle V0 ?m ?c] => destruct (pc_handle V0 m c) as [c'| | |]; cbn [obind]; auto end.
Qed.
Lemma p_day_same st tp :
  match one_day 2 (p_send (Gr := Gr) hash P1 V0) (p_recv V0) (p_work hash P0 V1) p_publish p_advance p_reset (p_second circuit_input P0 P1 V0 V1) st tp,
        psi_day2 (Gr := Gr) hash circuit_input P0 P1 V0 V1 (p_flat st) tp with
  | Ok (a', t), Ok (b', t') => p_flat a' = b' /\ t = t' | Ok _, _ => False | _, Ok _ => False | _, _ => True end.
Proof.
  destruct st as [[c di] [s mid]]. unfold one_day, psi_day2, p_flat, psi_run. cbn [calls fst snd]. unfold p_reset. cbn [fst snd].
  destruct (nth_error (pc_data c) (pc_day c)) as [[dels adds]|] eqn:ND.
  2:{ unfold bind, ret, one_call, p_send. cbn [fst snd Nat.eqb pc_with pc_data pc_day]. unfold bind. rewrite ND. cbn. auto. }
  unfold p_second. unfold bind, lift, ret.
  pose proof (call_first c di (ps_reset s) mid tp dels adds ND eq_refl) as C1.
  match type of C1 with context [one_call ?a1 ?a2 ?a3 ?a4 ?a5 0 ?x tp] => match goal with |- context [one_call ?b1 ?b2 ?b3 ?b4 ?b5 0 ?y tp] =>
    change (one_call b1 b2 b3 b4 b5 0 y tp) with (one_call a1 a2 a3 a4 a5 0 x tp); destruct (one_call a1 a2 a3 a4 a5 0 x tp) as [[[[c1 di1] [s1 mid1]] t1]| | |] end end; destruct (half dels (pc_with (preset (pc_party c)) c, ps_reset s) tp) as [[[c2 s2] t2]| | |]; try contradiction; auto.
  destruct C1 as (-> & -> & -> & D0 & -> & FS & K1 & K2). rewrite <- K1, <- K2 in ND.
  pose proof (call_second c2 di1 s2 (pg_my (ps_party s2)) t2 dels adds ND FS) as C2.
  match type of C2 with context [one_call ?a1 ?a2 ?a3 ?a4 ?a5 1 ?x t2] => match goal with |- context [one_call ?b1 ?b2 ?b3 ?b4 ?b5 1 ?y t2] =>
    change (one_call b1 b2 b3 b4 b5 1 y t2) with (one_call a1 a2 a3 a4 a5 1 x t2); destruct (one_call a1 a2 a3 a4 a5 1 x t2) as [[[[c3 di3] [s3 mid3]] t3]| | |] end end; destruct (half adds (c2, s2) t2) as [[[c4 s4] t4]| | |]; try contradiction; auto.
  destruct C2 as (-> & -> & -> & -> & ->). cbn [pc_party pc_data pc_day pc_total pc_result pc_set].
  destruct (psi_circuits circuit_input P0 P1 V0 V1 (pc_party c4) (ps_party s4) t4) as [[[[rs0 rs1] [r0 r1]] t5]| | |]; auto.
  destruct (second_phase P0 V0 rs0 rs1 t5) as [[us t6]| | |]; auto.
  destruct (apply_updates us (pc_result c4, pc_set c4)) as [rs| | |]; auto.
  cbn [fst snd]. rewrite D0. auto.
Qed.

(** ** whole runs *)
Lemma d_days_trace n st tp :
  match d_days n st tp, run_trace (del_day (Gr := Gr) hash circuit_input P0 P1 V0 V1) n (d_flat st) tp with
  | Ok (a', t), Ok (tr, t') => last tr (d_flat st) = d_flat a' /\ t = t' | Ok _, _ => False | _, Ok _ => False | _, _ => True end.
Proof.
  pose proof (iter_trace d_flat _ _ d_day_same n st tp) as X.
  assert (Q : forall m st tp, d_days m st tp = iterA (one_day 1 (d_send (Gr := Gr) hash P1 V0) (d_recv V0) (d_work hash P0 V1) d_publish d_advance ds_reset (d_second circuit_input P0 P1 V0 V1)) m st tp).
  { induction m as [|m IH]; intros; [reflexivity|]. cbn [iterA]. unfold d_days. cbn [days]. unfold bind. change (days 1 _ _ _ _ _ _ _ m) with (d_days m). rewrite IH. reflexivity. }
  rewrite Q. exact X.
Qed.
Lemma p_days_trace n st tp :
  match p_days n st tp, run_trace (psi_day2 (Gr := Gr) hash circuit_input P0 P1 V0 V1) n (p_flat st) tp with
  | Ok (a', t), Ok (tr, t') => last tr (p_flat st) = p_flat a' /\ t = t' | Ok _, _ => False | _, Ok _ => False | _, _ => True end.
Proof.
  pose proof (iter_trace p_flat _ _ p_day_same n st tp) as X.
  assert (Q : forall m st tp, p_days m st tp = iterA (one_day 2 (p_send (Gr := Gr) hash P1 V0) (p_recv V0) (p_work hash P0 V1) p_publish p_advance p_reset (p_second circuit_input P0 P1 V0 V1)) m st tp).
  { induction m as [|m IH]; intros; [reflexivity|]. cbn [iterA]. unfold p_days. cbn [days]. unfold bind. change (days 2 _ _ _ _ _ _ _ m) with (p_days m). rewrite IH. reflexivity. }
  rewrite Q. exact X.
Qed.

(** ** day counters *)
Lemma del_day_days c s rs tp c' s' rs' t : del_day (Gr := Gr) hash circuit_input P0 P1 V0 V1 (c, s, rs) tp = Ok ((c', s', rs'), t) ->
  dc_day c' = S (dc_day c) /\ ds_day s' = S (ds_day s).
Proof.
  unfold del_day. cbn [fst snd]. intros E. apply bind_Ok in E as ([c1 s1] & t1 & E1 & E). apply bind_Ok in E as ([[a b] rounds] & t2 & _ & E).
  apply ret_Ok in E as (E & _). inversion E; subst. cbn [dc_day]. clear E. unfold dc_run in E1. destruct (nth_error _ _) as [es|]; [|discriminate].
  apply bind_Ok in E1 as ([p1 m1] & t3 & _ & E). apply bind_Ok in E as ([s2 r] & t4 & E2 & E). apply bind_Ok in E as (c3 & t5 & E3 & E).
  apply ret_Ok in E as (E & _). inversion E; subst. clear E. apply lift_Ok in E3 as (E3 & _). split.
  - unfold dc_handle in E3. destruct (_ <=? _); [discriminate|]. destruct r as [x| |]; try discriminate. destruct x; try discriminate.
    destruct del_receive as [p' [| | |]]; try discriminate. inversion E3. reflexivity.
  - unfold send, del_handle in E2. cbn [ds_reset ds_finished ds_data ds_day] in E2. destruct (nth_error (ds_data s) (ds_day s)); [|discriminate].
    destruct del_gen2 as [p' [[? ?]| | |]]; try discriminate. inversion E2. reflexivity.
Qed.
Lemma exchange_days es c s tp c' s' t : half es (c, s) tp = Ok ((c', s'), t) ->
  pc_day c' = pc_day c /\ ps_day s' = (if ps_first s then S (ps_day s) else ps_day s) /\ ps_first s' = true.
Proof.
  unfold exchange. intros E. apply bind_Ok in E as ([p1 m1] & t3 & _ & E). apply bind_Ok in E as ([s2 r] & t4 & E2 & E). apply bind_Ok in E as (c3 & t5 & E3 & E).
  apply ret_Ok in E as (E & _). inversion E; subst. clear E. apply lift_Ok in E3 as (E3 & _). apply pc_handle_keeps in E3 as (_ & E3). split; auto.
  unfold send, psi_handle in E2. destruct (ps_finished s); [discriminate|]. destruct (nth_error (ps_data s) (ps_day s)) as [[? ?]|]; [|discriminate].
  destruct psi_gen2 as [p' [[? ?]| | |]]; try discriminate. inversion E2. unfold ps_finish. cbn. destruct (ps_first s); auto.
Qed.
Lemma psi_day_days c s di tp c' s' di' t : psi_day2 (Gr := Gr) hash circuit_input P0 P1 V0 V1 (c, s, di) tp = Ok ((c', s', di'), t) ->
  pc_day c' = S (pc_day c) /\ ps_day s' = S (ps_day s).
Proof.
  unfold psi_day2. intros E. apply bind_Ok in E as ([[c1 s1] [m0 m1]] & t1 & E1 & E). apply bind_Ok in E as ([[a b] [r0 r1]] & t2 & _ & E).
  apply bind_Ok in E as (us & t3 & _ & E). apply bind_Ok in E as (rs & t4 & _ & E). apply ret_Ok in E as (E & _). inversion E; subst. cbn [pc_day]. clear E.
  unfold psi_run in E1. destruct (nth_error _ _) as [[dels adds]|]; [|discriminate]. apply bind_Ok in E1 as ([c2 s2] & t5 & E2 & E). apply bind_Ok in E as ([c3 s3] & t6 & E3 & E).
  apply ret_Ok in E as (E & _). inversion E; subst. cbn [pc_day]. apply exchange_days in E2 as (A1 & A2 & A3). apply exchange_days in E3 as (B1 & B2 & B3).
  cbn in *. rewrite A3 in B2. lia.
Qed.
Lemma d_days_days n : forall c rs s tp c' rs' s' t, d_days n ((c, rs), s) tp = Ok (((c', rs'), s'), t) -> dc_day c' = n + dc_day c /\ ds_day s' = n + ds_day s.
Proof.
  induction n as [|n IH]; intros c rs s tp c' rs' s' t E; unfold d_days in E; cbn [days] in E.
  - apply ret_Ok in E as (E & _). inversion E. auto.
  - apply bind_Ok in E as (st1 & t1 & E1 & E). pose proof (d_day_same st1 t1) as X. rewrite E in X. destruct st1 as [[c1 rs1] s1]. apply IH in E1 as (A1 & A2). unfold d_flat in X. cbn [fst snd] in X.
    destruct (del_day _ _ _ _ _ _ _ t1) as [[[[c2 s2] rs2] t2]| | |] eqn:D; try contradiction. destruct X as (X & _). inversion X; subst.
    apply del_day_days in D. lia.
Qed.
Lemma p_days_days n : forall c di s mid tp c' di' s' mid' t, p_days n ((c, di), (s, mid)) tp = Ok (((c', di'), (s', mid')), t) -> pc_day c' = n + pc_day c /\ ps_day s' = n + ps_day s.
Proof.
  induction n as [|n IH]; intros c di s mid tp c' di' s' mid' t E; unfold p_days in E; cbn [days] in E.
  - apply ret_Ok in E as (E & _). inversion E. auto.
  - apply bind_Ok in E as (st1 & t1 & E1 & E). pose proof (p_day_same st1 t1) as X. rewrite E in X. destruct st1 as [[c1 di1] [s1 mid1]]. apply IH in E1 as (A1 & A2). unfold p_flat in X. cbn [fst snd] in X.
    destruct (psi_day2 _ _ _ _ _ _ _ t1) as [[[[c2 s2] di2] t2]| | |] eqn:D; try contradiction. destruct X as (X & _). inversion X; subst.
    apply psi_day_days in D. lia.
Qed.
End Days.
