(** * The threads of ProcessRecordFile: the results do not depend on the schedule. *)
Require Import List Arith Lia ZArith Bool Permutation.
Import ListNotations.
From Verif Require Import Prelude BytesModel FileModel RecordModel RecordProofs.

Section Threads.
Context {I T : Type} (f : I -> outcome T).

(** the transformer on one record after the other: the results or the first
    failure, and the calls made *)
Fixpoint work (l : list I) : outcome (list T) * list I :=
  match l with
  | [] => (Ok [], [])
  | x :: r => match f x with
              | Ok y => (match fst (work r) with Ok ys => Ok (y :: ys) | o => o end, x :: snd (work r))
              | Err c => (Err c, [x])
              | Abort => (Abort, [x])
              | UB => (UB, [x])
              end
  end.
Definition prepend (acc : list T) (o : outcome (list T)) : outcome (list T) :=
  match o with Ok ys => Ok (acc ++ ys) | _ => o end.
Definition part (chunk : list I) (i fin : nat) : list I := firstn (fin - i) (skipn i chunk).
Definition todo (chunk : list I) (t : thread) : outcome (list T) * list I :=
  match t with
  | Finished r => (r, [])
  | Running i fin acc => (prepend acc (fst (work (part chunk i fin))), snd (work (part chunk i fin)))
  end.
Definition fine (chunk : list I) (t : @thread T) : Prop :=
  match t with Running _ fin _ => fin <= length chunk | Finished _ => True end.
Definition steps (t : @thread T) : nat := match t with Running i fin _ => S (fin - i) | Finished _ => 0 end.
Lemma part_step (chunk : list I) i fin x : i < fin -> nth_error chunk i = Some x -> part chunk i fin = x :: part chunk (S i) fin.
Proof.
  intros L N. unfold part. replace (fin - i) with (S (fin - S i)) by lia.
  assert (skipn i chunk = x :: skipn (S i) chunk) as ->; [|reflexivity].
  revert chunk N. induction i as [|i IH]; intros [|y l] N; cbn in *; try discriminate; [congruence|]. apply IH; auto; lia.
Qed.
Lemma thread_step_todo chunk t t' c : fine chunk t -> thread_step f chunk t = (t', c) ->
  fst (todo chunk t') = fst (todo chunk t) /\ snd (todo chunk t) = c ++ snd (todo chunk t') /\ fine chunk t' /\ steps t' <= pred (steps t).
Proof.
  intros F X. destruct t as [i fin acc|r]; cbn [thread_step] in X; [|inversion X; subst; cbn; auto].
  cbn in F. destruct (Nat.ltb_spec i fin) as [L|L].
  - destruct (nth_error chunk i) as [x|] eqn:N; [|apply nth_error_None in N; lia].
    cbn [todo]. rewrite (part_step chunk i fin x L N). cbn [work].
    destruct (f x) as [y|e| |]; inversion X; subst; cbn [todo fst snd fine steps prepend app]; try (repeat split; auto; lia).
    split; [|repeat split; auto; lia]. destruct (fst (work (part chunk (S i) fin))); cbn; auto. rewrite <- app_assoc. auto.
  - inversion X; subst. cbn. unfold part. replace (fin - i) with 0 by lia. cbn. rewrite app_nil_r. repeat split; auto; lia.
Qed.
Lemma map_set_nth_same {A B} (g : A -> B) (x : A) : forall l i y, nth_error l i = Some y -> g x = g y -> map g (set_nth i x l) = map g l.
Proof. induction l as [|z l IH]; intros [|i] y N E; cbn in *; try discriminate; auto. - congruence. - f_equal; eauto. Qed.
Lemma concat_set_nth_app {A B} (g : A -> list B) (t t' : A) c : forall l i, nth_error l i = Some t -> g t = c ++ g t' ->
  Permutation (c ++ concat (map g (set_nth i t' l))) (concat (map g l)).
Proof.
  induction l as [|z l IH]; intros [|i] N E; cbn in *; try discriminate.
  - inversion N; subst. rewrite E, <- app_assoc. auto.
  - rewrite app_assoc, (Permutation_app_comm c), <- app_assoc. apply Permutation_app_head. auto.
Qed.
Lemma Forall_set {A} (P : A -> Prop) (x : A) : P x -> forall l i, Forall P l -> Forall P (set_nth i x l).
Proof. intros X. induction l as [|y l IH]; intros [|i] F; cbn; auto; inversion F; subst; constructor; auto. Qed.
Lemma nth_set {A} (x : A) : forall l i j, nth_error (set_nth i x l) j = if Nat.eqb i j then (match nth_error l j with None => None | Some _ => Some x end) else nth_error l j.
Proof.
  induction l as [|y l IH]; intros [|i] [|j]; cbn; auto; try (destruct (Nat.eqb i j); auto; fail); try (destruct j; auto; fail).
Qed.
Lemma run_threads_spec chunk : forall order ts calls ts' calls', Forall (fine chunk) ts -> run_threads f chunk order ts calls = (ts', calls') ->
  Forall (fine chunk) ts' /\ map (fun t => fst (todo chunk t)) ts' = map (fun t => fst (todo chunk t)) ts /\
  Permutation (calls' ++ concat (map (fun t => snd (todo chunk t)) ts')) (calls ++ concat (map (fun t => snd (todo chunk t)) ts)) /\
  (forall j t, nth_error ts j = Some t -> exists t', nth_error ts' j = Some t' /\ steps t' <= steps t - count_occ Nat.eq_dec order j).
Proof.
  induction order as [|j r IH]; intros ts calls ts' calls' F X; cbn in X.
  - inversion X; subst. split; auto. split; auto. split; auto. intros j t N. exists t. split; auto. cbn. lia.
  - destruct (nth_error ts j) as [t|] eqn:N.
    + destruct (thread_step f chunk t) as [t1 c] eqn:S1. assert (fine chunk t) as Ft by (rewrite Forall_forall in F; apply F; eapply nth_error_In; eauto).
      destruct (thread_step_todo chunk t t1 c Ft S1) as (E1 & E2 & F1 & L1).
      destruct (IH _ _ _ _ (Forall_set (fine chunk) t1 F1 ts j F) X) as (F' & M & P & ST).
      split; auto. split; [rewrite M; apply map_set_nth_same with t; auto|]. split.
      * rewrite P, <- app_assoc. apply Permutation_app_head. apply concat_set_nth_app with t; auto.
      * intros k u Nk. cbn [count_occ]. destruct (Nat.eq_dec j k) as [<-|NE].
        -- destruct (ST j t1) as (t' & N' & L'); [rewrite nth_set, Nat.eqb_refl, N; auto|].
           exists t'. split; auto. assert (u = t) by congruence. subst. lia.
        -- destruct (ST k u) as (t' & N' & L'); eauto. rewrite nth_set. destruct (Nat.eqb_spec j k); [congruence|auto].
    + destruct (IH _ _ _ _ F X) as (F' & M & P & ST). split; auto. split; auto. split; auto.
      intros k u Nk. destruct (ST k u Nk) as (t' & N' & L'). exists t'. split; auto. cbn [count_occ]. destruct (Nat.eq_dec j k); [congruence|auto].
Qed.
Definition slice (per : nat) (chunk : list I) (j : nat) : list I := firstn per (skipn (j * per) chunk).
Lemma slices_concat per (l : list I) : forall k, concat (map (slice per l) (seq 0 k)) = firstn (k * per) l.
Proof.
  induction k as [|k IH]; [reflexivity|]. rewrite seq_S, map_app, concat_app, IH. cbn [map concat]. rewrite app_nil_r. unfold slice. cbn [plus].
  replace (S k * per) with (k * per + per) by (cbn; lia).
  clear IH. generalize (k * per). intros n. revert l. induction n as [|n IH]; intros [|x l]; cbn; auto.
  - rewrite firstn_nil. destruct per; auto.
  - f_equal. apply IH.
Qed.
Definition per_thread (threads : nat) (chunk : list I) : nat := (length chunk + threads - 1) / threads.
Lemma slices_all threads chunk : threads <> 0 -> concat (map (slice (per_thread threads chunk) chunk) (seq 0 threads)) = chunk.
Proof.
  intros NZ. rewrite slices_concat. apply firstn_all2. unfold per_thread.
  pose proof (Nat.div_mod (length chunk + threads - 1) threads NZ). pose proof (Nat.mod_upper_bound (length chunk + threads - 1) threads NZ). lia.
Qed.
Lemma part_slice threads chunk j : part chunk (j * per_thread threads chunk) (Nat.min ((j + 1) * per_thread threads chunk) (length chunk)) = slice (per_thread threads chunk) chunk j.
Proof.
  unfold part, slice. set (per := per_thread threads chunk). set (n := length chunk).
  destruct (Nat.le_gt_cases (j * per) n) as [L|L].
  - destruct (Nat.le_gt_cases ((j + 1) * per) n) as [M|M].
    + rewrite Nat.min_l by auto. f_equal. lia.
    + rewrite Nat.min_r by lia. rewrite (firstn_all2 (n := per)). 2:{ rewrite skipn_length. fold n. lia. }
      apply firstn_all2. rewrite skipn_length. fold n. lia.
  - rewrite skipn_all2 by (fold n; lia). rewrite !firstn_nil. auto.
Qed.
Lemma count_wait n k j : j < n -> count_occ Nat.eq_dec (flat_map (fun j => repeat j k) (seq 0 n)) j = k.
Proof.
  assert (forall a n, count_occ Nat.eq_dec (flat_map (fun j => repeat j k) (seq a n)) j = if (a <=? j) && (j <? a + n) then k else 0) as X.
  { intros a m. revert a. induction m as [|m IH]; intros a; cbn [seq flat_map].
    - cbn [count_occ]. destruct (Nat.leb_spec a j), (Nat.ltb_spec j (a + 0)); cbn [andb]; auto; lia.
    - rewrite count_occ_app, IH.
      assert (count_occ Nat.eq_dec (repeat a k) j = if Nat.eqb a j then k else 0) as ->.
      { destruct (Nat.eqb_spec a j) as [->|NE]. - apply count_occ_repeat_eq. auto. - apply count_occ_repeat_neq. auto. }
      destruct (Nat.eqb_spec a j), (Nat.leb_spec a j), (Nat.leb_spec (S a) j), (Nat.ltb_spec j (S a + m)), (Nat.ltb_spec j (a + S m)); cbn [andb]; lia. }
  intros L. rewrite X. destruct (Nat.leb_spec 0 j), (Nat.ltb_spec j (0 + n)); cbn; auto; lia.
Qed.
(** whatever the schedule, each thread gives the result of its part *)
Lemma parallel_spec threads order chunk : exists calls, parallel f threads order chunk = (map (fun j => fst (work (slice (per_thread threads chunk) chunk j))) (seq 0 threads), calls) /\
  Permutation calls (concat (map (fun j => snd (work (slice (per_thread threads chunk) chunk j))) (seq 0 threads))).
Proof.
  unfold parallel. destruct (run_threads f chunk (order ++ wait_steps threads chunk) (start_threads threads chunk) []) as [ts calls] eqn:X.
  assert (Forall (fine chunk) (start_threads (I := I) (T := T) threads chunk)) as F0.
  { unfold start_threads. apply Forall_map, Forall_forall. intros j _. cbn. lia. }
  destruct (run_threads_spec chunk _ _ _ _ _ F0 X) as (F & M & P & ST). exists calls.
  assert (forall t, In t ts -> steps t = 0) as Z.
  { intros t IN. apply In_nth_error in IN as [j N].
    assert (length ts = threads) as LT by (transitivity (length (map (fun t => fst (todo chunk t)) ts)); [rewrite map_length; auto|rewrite M; unfold start_threads; rewrite !map_length, seq_length; auto]).
    assert (j < threads) as LJ by (rewrite <- LT; apply nth_error_Some; congruence).
    destruct (nth_error (start_threads (I := I) (T := T) threads chunk) j) as [t0|] eqn:N0.
    2:{ apply nth_error_None in N0. unfold start_threads in N0. rewrite map_length, seq_length in N0. lia. }
    destruct (ST j t0 N0) as (t' & N' & L'). rewrite N in N'. inversion N'; subst t'.
    rewrite count_occ_app in L'. unfold wait_steps in L'. rewrite count_wait in L' by auto.
    apply nth_error_In in N0. unfold start_threads in N0. apply in_map_iff in N0 as (j0 & <- & _). cbn [steps] in L'. lia. }
  assert (forall t, In t ts -> result_of t = fst (todo chunk t) /\ snd (todo chunk t) = []) as Z2.
  { intros t IN. specialize (Z t IN). destruct t; cbn in Z; [lia|]. auto. }
  split.
  - f_equal. rewrite (map_ext_in _ (fun t => fst (todo chunk t)) ts) by (intros t IN; apply Z2; auto). rewrite M. unfold start_threads.
    rewrite map_map. apply map_ext. intros j. cbn [todo fst]. fold (per_thread threads chunk). rewrite part_slice.
    destruct (fst (work _)); reflexivity.
  - cbn in P. assert (concat (map (fun t => snd (todo chunk t)) ts) = []) as Q.
    { clear - Z2. induction ts as [|t ts IH]; auto. cbn. rewrite (proj2 (Z2 t (or_introl eq_refl))). apply IH. intros; apply Z2; right; auto. }
    rewrite Q, app_nil_r in P. rewrite P. unfold start_threads. rewrite map_map. cbn [todo snd]. fold (per_thread threads chunk).
    erewrite map_ext; [reflexivity|]. intros j. cbn. rewrite part_slice. auto.
Qed.
End Threads.
