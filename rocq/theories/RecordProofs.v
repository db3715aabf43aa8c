(** * Sharded sorting: the sharding writer, the multi-file reader and the merge. *)
Require Import List Arith Lia ZArith Bool Permutation Sorted.
Import ListNotations.
From Verif Require Import Prelude BytesModel CsvModel CsvProofs FileModel FileSpec RecordModel FileProofs.
Local Open Scope Z_scope.

Lemma okle_catch {S A} (m m0 : SM S A) s s' a : okle m m0 -> scatch m s = (s', Ok (Ok a)) -> scatch m0 s = (s', Ok (Ok a)).
Proof.
  unfold scatch. intros X. destruct (m s) as [s1 [x| | |]] eqn:E1; intros Y; inversion Y; subst. rewrite (X _ _ _ E1). reflexivity.
Qed.

Lemma set_nth_other {A} (x : A) : forall l i j, i <> j -> nth_error (set_nth i x l) j = nth_error l j.
Proof. induction l as [|a l IH]; intros [|i] [|j] N; cbn; auto; congruence. Qed.
Lemma set_nth_same {A} (x : A) : forall l i, (i < length l)%nat -> nth_error (set_nth i x l) i = Some x.
Proof. induction l as [|a l IH]; intros [|i] N; cbn in *; auto; try lia. apply IH; lia. Qed.

Section Keyed.
Context {K : Type} (ltb : K -> K -> bool) (key : bytes -> K).

(** ** success in spite of failures *)
Section Okle.
Context (e : env).
Notation e0 := (calm e).
Lemma okle_on_reader {A} i (m m0 : SM (handle * world) A) : okle m m0 -> okle (on_reader (K := K) i m) (on_reader i m0).
Proof.
  intros X [s w] s' a. unfold on_reader. destruct (nth_error (readers s) i) as [h|]; auto.
  destruct (m (h, w)) as [[h1 w1] r] eqn:Y. intros Z; inversion Z; subst. rewrite (X _ _ _ Y). reflexivity.
Qed.
Lemma okle_on_writer {A} (m m0 : SM (handle * world) A) : okle m m0 -> okle (on_writer m) (on_writer m0).
Proof.
  intros X [s w] s' a. unfold on_writer. destruct (m (sw_handle s, w)) as [[h1 w1] r] eqn:Y.
  intros Z; inversion Z; subst. rewrite (X _ _ _ Y). reflexivity.
Qed.
Lemma okle_in_multi {A} (m m0 : SM (multi * world) A) : okle m m0 -> okle (in_multi (K := K) m) (in_multi m0).
Proof.
  intros X [[s h] w] s' a. unfold in_multi. destruct (m (s, w)) as [[h1 w1] r] eqn:Y.
  intros Z; inversion Z; subst. rewrite (X _ _ _ Y). reflexivity.
Qed.
Lemma okle_in_writer {A} (m m0 : SM (handle * world) A) : okle m m0 -> okle (in_writer (K := K) m) (in_writer m0).
Proof.
  intros X [[s h] w] s' a. unfold in_writer. destruct (m (h, w)) as [[h1 w1] r] eqn:Y.
  intros Z; inversion Z; subst. rewrite (X _ _ _ Y). reflexivity.
Qed.
Lemma okle_multi_open_loop : forall names opened, okle (multi_open_loop (K := K) e names opened) (multi_open_loop e0 names opened).
Proof.
  induction names as [|n ns IH]; intros opened [s w] s' a; cbn [multi_open_loop]; auto.
  destruct (posix_open e n R (Closed, w)) as [[h w1] [x|c| |]] eqn:X; try discriminate.
  - intros Y. rewrite (okle_open e n R _ _ _ X). apply IH, Y.
  - destruct (unwind e h opened w1) as [w2 [y| | |]]; discriminate.
Qed.
Lemma okle_multi_open names : okle (multi_open (K := K) e names) (multi_open e0 names).
Proof. intros [s w] s' a. unfold multi_open. destruct (readers s); auto. apply okle_multi_open_loop. Qed.
Lemma close_all_Ok : forall hs w w' r u, close_all e hs w = (w', Ok (r, Ok u)) -> close_all e0 hs w = (w', Ok (r, Ok u)).
Proof.
  induction hs as [|h hs IH]; intros w w' r u; cbn [close_all]; auto.
  destruct (posix_close e (h, w)) as [[h1 w1] [x|c| |]] eqn:X; try discriminate.
  rewrite (okle_close e _ _ _ X). destruct (close_all e hs w1) as [w2 [[r' o]| | |]] eqn:Y; try discriminate.
  intros Z; inversion Z; subst. rewrite (IH _ _ _ _ Y). reflexivity.
Qed.
Lemma okle_multi_close : okle (multi_close (K := K) e) (multi_close e0).
Proof.
  intros [s w] s' a. unfold multi_close. destruct (close_all e (readers s) w) as [w1 [[hs [u| | |]]| | |]] eqn:X; try discriminate.
  rewrite (close_all_Ok _ _ _ _ _ X). auto.
Qed.
Lemma okle_refill i : okle (refill e key i) (refill e0 key i).
Proof.
  apply okle_bind; [apply okle_on_reader, okle_has_more|]. intros [|]; [|apply okle_refl].
  apply okle_bind; [apply okle_on_reader, okle_record_read|]. intros; apply okle_refl.
Qed.
Lemma okle_multi_read : okle (multi_read e ltb key) (multi_read e0 ltb key).
Proof.
  apply okle_bind.
  { intros [s w] s' a. destruct (heap s); auto. apply okle_each. apply okle_refill. }
  intros _. apply okle_bind; [apply okle_refl|]. intros x. apply okle_bind; [apply okle_refill|]. intros; apply okle_refl.
Qed.
(** an error of one reader may be hidden by another one that has more; such a
    reader stays in its error state *)
Definition stuck (h : handle) : Prop := match h with Closed | Writing _ | Reading _ true => True | _ => False end.
Lemma has_more_stuck h w h' w' c : posix_has_more e (h, w) = ((h', w'), Err c) -> stuck h'.
Proof.
  destruct h as [|rest [|]|n|]; cbn; intros X; try (inversion X; subst; exact Logic.I); try discriminate.
  destruct (fault e (tick w)); inversion X; subst. exact Logic.I.
Qed.
Lemma stuck_has_more h w s b : stuck h -> posix_has_more e (h, w) <> (s, Ok b).
Proof. destruct h as [|rest [|]|n|]; cbn; try tauto; discriminate. Qed.
Lemma any_more_err : forall hs c w w' r, any_more e hs (Err c) w <> (w', Ok (r, Ok false)).
Proof.
  induction hs as [|h hs IH]; intros c w w' r; cbn [any_more]; [discriminate|].
  destruct (posix_has_more e (h, w)) as [[h1 w1] [[|]|c1| |]]; try discriminate;
    match goal with |- context[any_more e hs ?st w1] => destruct (any_more e hs st w1) as [w2 [[r' o]| | |]] eqn:Y end; try discriminate;
    intros Z; inversion Z; subst; eapply IH; eauto.
Qed.
Lemma any_more_Ok : forall hs st w w' r b, any_more e hs st w = (w', Ok (r, Ok b)) ->
  any_more e0 hs st w = (w', Ok (r, Ok b)) \/ (b = true /\ exists j h, nth_error r j = Some h /\ stuck h).
Proof.
  induction hs as [|h hs IH]; intros st w w' r b; cbn [any_more]; auto.
  destruct (posix_has_more e (h, w)) as [[h1 w1] [[|]|c1| |]] eqn:X; try discriminate.
  - rewrite (okle_has_more e _ _ _ X). auto.
  - rewrite (okle_has_more e _ _ _ X). destruct (any_more e hs st w1) as [w2 [[r' o]| | |]] eqn:Y; try discriminate.
    intros Z; inversion Z; subst. destruct (IH _ _ _ _ _ Y) as [Q|(-> & j & g & J & S)].
    + rewrite Q. auto.
    + right. split; auto. exists (Datatypes.S j), g. auto.
  - apply has_more_stuck in X. destruct (any_more e hs (Err c1) w1) as [w2 [[r' o]| | |]] eqn:Y; try discriminate.
    intros Z; inversion Z; subst. right. destruct b; [split; auto; exists O, h1; auto|]. apply any_more_err in Y; tauto.
Qed.
Lemma refill_stuck i h (s : multi (K := K)) w s' u : nth_error (readers s) i = Some h -> stuck h -> refill e key i (s, w) <> (s', Ok u).
Proof.
  intros N S X. apply sbind_Ok in X as (s1 & hm & X & _). unfold on_reader in X. rewrite N in X.
  destruct (posix_has_more e (h, w)) as [[h1 w1] r] eqn:Y. inversion X; subst. eapply stuck_has_more; eauto.
Qed.
Lemma refill_other i (s : multi (K := K)) w s' w' u j : refill e key i (s, w) = ((s', w'), Ok u) -> i <> j -> nth_error (readers s') j = nth_error (readers s) j.
Proof.
  intros X N.
  apply sbind_Ok in X as ([s1 w1] & hm & X & Y). unfold on_reader in X. destruct (nth_error (readers s) i) as [h|] eqn:NE; [|discriminate].
  destruct (posix_has_more e (h, w)) as [[h1 w2] r]. inversion X; subst. clear X. destruct hm.
  2:{ inversion Y; subst. cbn. apply set_nth_other; auto. }
  apply sbind_Ok in Y as ([s2 w3] & d & X & Y). unfold on_reader in X. cbn [readers heap] in X.
  destruct (nth_error (set_nth i h1 (readers s)) i) as [h3|]; [|discriminate].
  destruct (record_read e (h3, w1)) as [[h4 w4] r]. inversion X; subst. inversion Y; subst. cbn. rewrite !set_nth_other; auto.
Qed.
Lemma fill_stuck : forall l (s : multi (K := K)) w s' u j h, In j l -> NoDup l -> nth_error (readers s) j = Some h -> stuck h -> each (refill e key) l (s, w) <> (s', Ok u).
Proof.
  induction l as [|i l IH]; intros s w s' u j h IN ND N S X; [destruct IN|]. cbn [each] in X.
  apply sbind_Ok in X as ([s1 w1] & [] & X1 & X2). inversion ND; subst. destruct (Nat.eq_dec i j) as [->|NE].
  - eapply refill_stuck; eauto.
  - destruct IN as [->|IN]; [congruence|]. apply (IH s1 w1 s' u j h); auto. rewrite (refill_other _ _ _ _ _ _ _ X1 NE). auto.
Qed.
Lemma okle_merge_loop : forall fuel, okle (merge_loop e ltb key fuel) (merge_loop e0 ltb key fuel).
Proof.
  induction fuel as [|fuel IH]; [apply okle_refl|]. intros [[s h] w] s' a X. cbn [merge_loop] in X |- *.
  apply sbind_Ok in X as ([[s1 h1] w1] & hm & X1 & X2).
  assert (value (in_multi (K := K) (multi_has_more e0)) (s, h, w) = ((s1, h1, w1), Ok hm)) as Y.
  { unfold value, in_multi, multi_has_more in X1 |- *. destruct (heap s) as [|x r] eqn:HS; auto.
    destruct (any_more e (readers s) (Ok false) w) as [w2 [[hs [b| | |]]| | |]] eqn:AM; try discriminate.
    cbn in X1. inversion X1; subst. destruct (any_more_Ok _ _ _ _ _ _ AM) as [Q|(-> & j & g & J & S)].
    { rewrite Q. reflexivity. }
    exfalso. apply sbind_Ok in X2 as (s2 & d & X2 & _). unfold in_multi in X2.
    destruct (multi_read e ltb key _) as [[sm wm] r] eqn:MR. inversion X2; subst. clear X2.
    apply sbind_Ok in MR as (s3 & [] & MR & _). cbn [heap readers] in MR.
    eapply (fill_stuck _ (mkMulti hs []) w1 _ tt j g); [| |exact J|exact S|exact MR]; [|apply seq_NoDup].
    apply in_seq. split; [lia|]. apply nth_error_Some. rewrite J. discriminate. }
  rewrite (sbind_run _ _ _ _ _ Y). destruct hm; auto. revert X2.
  apply okle_bind; [apply okle_in_multi, okle_multi_read|]. intros d. apply okle_bind; [apply okle_in_writer, okle_record_write|]. intros; apply IH.
Qed.
Lemma okle_merge shards out : okle (merge e ltb key shards out) (merge e0 ltb key shards out).
Proof.
  apply okle_bind.
  { destruct shards; [|apply okle_refl]. apply okle_bind; [apply okle_in_writer, okle_open|]. intros; apply okle_in_writer, okle_close. }
  intros _. apply okle_bind; [apply okle_in_multi, okle_multi_open|]. intros _. apply okle_bind; [apply okle_in_writer, okle_open|]. intros _.
  apply okle_bind. { intros [[s h] w]. apply okle_merge_loop. } intros _.
  apply okle_bind; [apply okle_in_writer, okle_close|]. intros; apply okle_in_multi, okle_multi_close.
Qed.
Lemma okle_write_shard : forall l, okle (write_shard e l) (write_shard e0 l).
Proof.
  induction l as [|d l IH]; [apply okle_refl|]. intros [s w] s' a X. cbn [write_shard] in X |- *.
  apply sbind_Ok in X as (s1 & o & X1 & X2). destruct o as [u| | |]; try (destruct s1; discriminate).
  erewrite sbind_run; [|eapply okle_catch; [|exact X1]; apply okle_on_writer, okle_record_write]. apply IH, X2.
Qed.
Lemma okle_write_cache : okle (write_cache_to_file e ltb key) (write_cache_to_file e0 ltb key).
Proof.
  intros [s w] s' a. unfold write_cache_to_file. destruct (negb (sw_healthy s)); auto. destruct (sw_cache s) as [|c r]; auto. intros X.
  apply sbind_Ok in X as (s1 & o & X1 & X2). destruct o as [u| | |]; try (destruct s1; discriminate).
  erewrite sbind_run; [|eapply okle_catch; [|exact X1]; apply okle_on_writer, okle_open].
  apply sbind_Ok in X2 as (s2 & o1 & X2 & X3). apply sbind_Ok in X3 as ([s3 w3] & o2 & X3 & X4).
  destruct (sw_idx s3 + 1 <? 2 ^ 31) eqn:ID; [|discriminate].
  destruct o1 as [u1|c1| |]; try discriminate. destruct o2 as [u2|c2| |]; try discriminate.
  - erewrite sbind_run; [|eapply okle_catch; [|exact X2]; apply okle_write_shard].
    erewrite sbind_run; [|eapply okle_catch; [|exact X3]; apply okle_on_writer, okle_close]. cbv beta iota. rewrite ID. exact X4.
  - unfold scatch in X3. destruct (on_writer (posix_close e) s2) as [? [| | |]]; discriminate.
  - unfold scatch in X3. destruct (on_writer (posix_close e) s2) as [? [| | |]]; discriminate.
Qed.
Lemma okle_shard_write d : okle (shard_write e ltb key d) (shard_write e0 ltb key d).
Proof.
  intros [s w] s' a. unfold shard_write. destruct (negb (sw_open s)); auto. destruct (negb (sw_healthy s)); auto.
  assert (forall m m0 : SM (sharder * world) unit, okle m m0 -> m (s, w) = (s', Ok a) -> m0 (s, w) = (s', Ok a)) as Q by (intros m m0 Z; apply Z).
  apply Q. apply okle_bind; [|intros; apply okle_refl]. intros [s1 w1] s2 b. destruct (sw_max s1 <? sw_bytes s1); auto. apply okle_write_cache.
Qed.
Lemma okle_shard_close : okle (shard_close e ltb key) (shard_close e0 ltb key).
Proof.
  intros [s w] s' a. unfold shard_close. destruct (negb (sw_open s)); auto.
  destruct (write_cache_to_file e ltb key (s, w)) as [[s1 w1] [u| | |]] eqn:X; try discriminate. rewrite (okle_write_cache _ _ _ X). auto.
Qed.
Lemma okle_delete_shards l : okle (delete_shards e l) (delete_shards e0 l).
Proof. apply okle_each. apply okle_delete. Qed.
End Okle.
End Keyed.
