(** * C46: parallel record processing. *)
Require Import List Arith Lia ZArith Bool Permutation Sorted.
Import ListNotations.
From Verif Require Import Prelude BytesModel CsvModel CsvProofs FileModel FileSpec RecordModel FileProofs RecordProofs RecordRun RecordShard PropsFile PropsRecord ProcessThreads ProcessProofs.
Local Open Scope Z_scope.

Section Process.
Context {I T : Type} (parse : bytes -> I) (f : I -> outcome T) (ser : T -> bytes) (key : bytes -> bytes).
Context (chunk_size threads : nat).

(** ** success in spite of failures *)
Section Okle.
Context (e : env).
Notation e0 := (calm e).
Lemma okle_in_reader {A} (m m0 : SM (handle * world) A) : okle m m0 -> okle (in_reader (I := I) m) (in_reader m0).
Proof.
  intros X [l w] s' a. unfold in_reader. destruct (m (l_reader l, w)) as [[h1 w1] r] eqn:Y.
  intros Z; inversion Z; subst. rewrite (X _ _ _ Y). reflexivity.
Qed.
Lemma okle_in_sharder {A} (m m0 : SM (sharder * world) A) : okle m m0 -> okle (in_sharder (I := I) m) (in_sharder m0).
Proof.
  intros X [l w] s' a. unfold in_sharder. destruct (m (l_writer l, w)) as [[h1 w1] r] eqn:Y.
  intros Z; inversion Z; subst. rewrite (X _ _ _ Y). reflexivity.
Qed.
Lemma okle_read_chunk : forall n hm, okle (read_chunk e parse n hm) (read_chunk e0 parse n hm).
Proof.
  induction n as [|n IH]; intros hm; cbn [read_chunk]; [apply okle_refl|]. destruct hm; [|apply okle_refl].
  apply okle_bind; [apply okle_record_read|]. intros d. apply okle_bind; [apply okle_has_more|]. intros b.
  apply okle_bind; [apply IH|]. intros r. apply okle_refl.
Qed.
Lemma okle_write_results rs : okle (write_results e ser key rs) (write_results e0 ser key rs).
Proof.
  apply okle_each. intros [ys|c| |]; try apply okle_refl. apply okle_each. intros y. apply okle_shard_write.
Qed.
Lemma okle_chunk_loop out : forall fuel hm, okle (chunk_loop e parse f ser key chunk_size threads fuel out hm) (chunk_loop e0 parse f ser key chunk_size threads fuel out hm).
Proof.
  induction fuel as [|fuel IH]; intros hm; cbn [chunk_loop]; destruct hm; try apply okle_refl.
  apply okle_bind; [apply okle_in_reader, okle_read_chunk|]. intros c. destruct (threads =? 0)%nat; [apply okle_refl|].
  apply okle_bind; [apply okle_refl|]. intros rs. apply okle_bind; [|intros; apply IH].
  apply okle_in_sharder. apply okle_bind; [apply okle_refl|]. intros _. apply okle_write_results.
Qed.
Lemma okle_process_shards inp out : okle (process_shards e parse f ser key chunk_size threads inp out) (process_shards e0 parse f ser key chunk_size threads inp out).
Proof.
  unfold process_shards. apply okle_bind; [apply okle_in_reader, okle_open|]. intros _. apply okle_bind; [apply okle_refl|]. intros _.
  apply okle_bind; [apply okle_in_reader, okle_has_more|]. intros hm. apply okle_bind.
  { intros [l w] s' a. apply okle_chunk_loop. }
  intros _. apply okle_bind; [apply okle_in_reader, okle_close|]. intros _. apply okle_in_sharder, okle_shard_close.
Qed.
End Okle.

(** ** without failures *)
Lemma process_shards_calm e inp out recs w : reliable e -> Forall short recs -> files w inp = Some (file_of recs) ->
  match process_shards e parse f ser key chunk_size threads inp out (mkLocals Closed (sharder_new default_max_bytes) O [], w) with
  | ((l', w'), Ok shards) => exists groups ys, shards = shard_names out (length groups) /\ sw_handle (l_writer l') = Closed /\ l_reader l' = Closed /\
       stored string_ltb key out w w' groups /\ concat groups = map ser ys /\ Forall2 (gives f) (map parse recs) ys /\ Permutation (l_calls l') (map parse recs)
  | ((l', w'), Err c) => failed_at parse f c recs /\ (exists c', l_reader l' = Reading c' false) /\ sw_handle (l_writer l') = Closed /\
       (exists n, same_except (shard_names out n) w w') /\ exists rest, Permutation (l_calls l' ++ rest) (map parse recs)
  | (_, UB) => too_much parse f ser recs \/ chunk_size = O \/ threads = O \/ ~ (forall x, returned (f x))
  | (_, Abort) => ~ (forall x, returned (f x))
  end.
Proof.
  intros RE SH F. unfold process_shards.
  destruct (open_r e RE inp _ w F) as [t1 X1]. unfold sbind at 1, in_reader at 1. cbn [l_reader l_writer l_chunk l_calls]. rewrite X1. cbv beta iota.
  unfold sbind at 1, in_sharder at 1, set_prefix. cbn [l_reader l_writer l_chunk l_calls]. rewrite state_of_new.
  destruct (has_more_calm e RE (file_of recs) (mkWorld (files w) t1)) as [t2 X2]. unfold sbind at 1, in_reader at 1. cbn [l_reader l_writer l_chunk l_calls]. rewrite X2. cbv beta iota. cbn [files].
  change (match file_of recs with [] => false | _ => true end) with (nonempty (file_of recs)). rewrite nonempty_file'.
  unfold sbind at 1. cbn [l_reader l_writer l_chunk l_calls handle_size].
  pose proof (chunk_loop_calm parse f ser key chunk_size threads e RE out default_max_bytes w (S (length (file_of recs))) [] recs [] [] 0 [] [] O (mkWorld (files w) t2) SH
    (stored_same key out w w (mkWorld (files w) t2) [] eq_refl (stored_nil string_ltb key out w)) eq_refl (Forall2_nil _) (Permutation_refl _)) as CL.
  cbn [app] in CL. match type of CL with ?P -> _ => assert P as Q; [|specialize (CL Q); clear Q] end.
  { intros _. pose proof (file_size recs). unfold bytes in *. lia. }
  destruct (chunk_loop e parse f ser key chunk_size threads _ out (nonempty recs) _) as [[l3 w3] [u|c| |]]; auto.
  - destruct CL as (g & ca & b & ys & R3 & W3 & ST3 & E3 & F3 & P3). unfold sbind at 1, in_reader at 1. rewrite R3.
    destruct (close_r e RE [] false w3) as [t4 X4]. rewrite X4. cbv beta iota. unfold in_sharder. cbn [l_reader l_writer l_chunk l_calls]. rewrite W3.
    pose proof (shard_close_calm string_ltb key e RE out default_max_bytes g ca b w (mkWorld (files w3) t4) (stored_same key out w w3 (mkWorld (files w3) t4) g eq_refl ST3)) as SC.
    destruct (shard_close e string_ltb key _) as [[s5 w5] [shards|c| |]]; try tauto.
    + cbn [l_reader l_writer l_chunk l_calls]. destruct SC as (HC & _ & groups & -> & ST5 & E5). exists groups, ys. rewrite E3 in E5. auto 10.
    + left. rewrite E3 in SC. exists recs, [], ys. rewrite app_nil_r. auto.
  - destruct CL as (FA & RC & (g & ca & b & W3 & ST3) & RP). split; auto. split; auto. rewrite W3. split; [reflexivity|]. split; auto.
    exists (length g). apply (st_same _ _ _ _ _ _ ST3).
Qed.

Definition transformed (recs : list bytes) (ys : list T) : Prop := Forall2 (fun r y => f (parse r) = Ok y) recs ys.
Lemma gives_transformed recs ys : Forall2 (gives f) (map parse recs) ys <-> transformed recs ys.
Proof.
  unfold transformed, gives. revert ys. induction recs as [|r recs IH]; intros [|y ys]; cbn; split; intros X; inversion X; subst; constructor; auto; apply IH; auto.
Qed.
Lemma not_shard p n k : ~ is_shard p k -> ~ In k (shard_names p n).
Proof. intros N X. apply N. pose proof (shard_names_are p n) as Q. rewrite Forall_forall in Q. auto. Qed.
Lemma shard_not_self p : ~ is_shard p p.
Proof. intros (i & P & E). apply (shard_name_neq p i P). symmetry. exact E. Qed.

(** C46: whenever processing a file of records reports success, whatever I/O
    failures happened, for every chunk size, number of threads and schedule, the
    transformer was called exactly once for each record, the output holds the
    results sorted by key, and no other file changed except that shard files
    (named like the output with a number appended) are gone. *)
Theorem C46_processed e0 e inp out recs w0 w1 w calls w' :
  write_records_to_file e0 (fun d => d) inp recs w0 = (w1, Ok tt) -> files w inp = files w1 inp ->
  process_record_file e parse f ser key chunk_size threads inp out w = (calls, (w', Ok tt)) ->
  Permutation calls (map parse recs) /\
  exists ys l, transformed recs ys /\ Permutation l (map ser ys) /\ sorted_by string_ltb key l /\ holds w' out l /\
  (forall n, n <> out -> ~ is_shard out n -> files w' n = files w n) /\
  (forall n, is_shard out n -> files w' n = files w n \/ files w' n = None).
Proof.
  intros W0 FE X. apply write_records_Ok in W0 as (SH & F). rewrite map_id in SH, F. rewrite F in FE. clear F. unfold process_record_file in X.
  destruct (process_shards e parse f ser key chunk_size threads inp out _) as [[l2 w2] o] eqn:X2.
  pose proof (fun a (Q : o = Ok a) => okle_process_shards e inp out _ _ a (eq_trans X2 (f_equal (pair _) Q))) as X2'.
  destruct o as [shards|c| |]; try discriminate.
  2:{ exfalso. destruct (destroy_all e _ w2) as [w3 [u| | |]]; discriminate. }
  specialize (X2' shards eq_refl). pose proof (process_shards_calm (calm e) inp out recs w (calm_reliable e) SH FE) as PS. rewrite X2' in PS.
  destruct PS as (groups & ys & -> & HW & HR & ST & EG & FY & PC).
  destruct (sbind _ _ (multi_new, Closed, w2)) as [[[s3 h3] w3] o3] eqn:X3.
  destruct o3 as [u|c| |]; try discriminate.
  2:{ exfalso. destruct (destroy_all e _ w3) as [w4 [u| | |]]; discriminate. }
  apply sbind_Ok in X3 as ([[s4 h4] w4] & u4 & X4 & X3). apply (okle_merge string_ltb key e) in X4.
  destruct (merge_calm string_ltb key string_order (calm e) (calm_reliable e) (shard_names out (length groups)) (map (key_sort string_ltb key) groups) out w2)
    as (outl & w5 & X5 & F5 & S5 & P5 & SO5).
  { apply stored_files with (1 := ST). }
  { apply shard_names_neq. }
  { apply short_groups. apply (st_short _ _ _ _ _ _ ST). }
  { apply sorted_groups. apply string_order. }
  rewrite X5 in X4. inversion X4; subst s4 h4 w5. clear X4.
  destruct (delete_shards e (shard_names out (length groups)) w4) as [w6 r6] eqn:X6. inversion X3; subst. clear X3.
  apply okle_delete_shards in X6.
  assert (files w' = files w3) as FW.
  { cbn [multi_new readers app destroy_all] in X. rewrite HW, HR in X. cbn in X. inversion X; subst; auto. }
  assert (calls = l_calls l2) as -> by (cbn [multi_new readers app destroy_all] in X; rewrite HW, HR in X; cbn in X; inversion X; subst; auto).
  assert (forall ns w w', delete_shards (calm e) ns w = (w', Ok u) -> (forall k, In k ns -> files w' k = None) /\ same_except ns w w') as D.
  { clear. induction ns as [|n ns IH]; intros w w' X; unfold delete_shards in *; cbn [each] in X.
    - inversion X; subst. split; [intros k []|red; auto].
    - apply sbind_Ok in X as (w1 & u1 & X1 & X). destruct (IH _ _ X) as [A B]. unfold delete_file in X1. cbn [calm fault] in X1.
      destruct (files w n); inversion X1; subst. cbn [files step set_file] in *.
      assert (same_except (n :: ns) w w') as SE. { intros k NK. rewrite B by (intros Q; apply NK; right; auto). cbn [step set_file files]. apply upd_neq. intros ->. apply NK; left; auto. }
      split; auto. intros k [<-|IN]; auto. destruct (in_dec (list_eq_dec Z.eq_dec) n ns) as [IN|NI]; auto. rewrite B by auto. cbn [step set_file files]. apply upd_eq. }
  destruct (D _ _ _ X6) as [D1 D2].
  split; auto. exists ys, outl. split; [apply gives_transformed; auto|]. split; [rewrite P5, concat_groups, EG; auto|]. split; auto. split.
  { apply file_of_holds. - rewrite P5, concat_groups. apply short_concat. apply (st_short _ _ _ _ _ _ ST).
    - rewrite FW, D2; [auto|]. apply shard_names_neq. }
  assert (forall n, n <> out -> ~ In n (shard_names out (length groups)) -> files w' n = files w n) as SAME.
  { intros n NO NI. rewrite FW, D2 by auto. rewrite S5 by (intros [->|[]]; auto). apply (st_same _ _ _ _ _ _ ST); auto. }
  split.
  - intros n NO NS. apply SAME; auto. apply not_shard; auto.
  - intros n IS. destruct (in_dec (list_eq_dec Z.eq_dec) n (shard_names out (length groups))) as [IN|NI].
    + right. rewrite FW. auto.
    + left. apply SAME; auto. intros ->. apply (shard_not_self out IS).
Qed.

Lemma delete_all_calm e : reliable e -> forall ns w, NoDup ns -> (forall n, In n ns -> files w n <> None) -> exists w', delete_shards e ns w = (w', Ok tt).
Proof.
  intros RE. induction ns as [|n ns IH]; intros w ND EX.
  - exists w. reflexivity.
  - unfold delete_shards in *. cbn [each]. destruct (delete_calm e n w RE) as [t X]; [apply EX; left; auto|]. rewrite (sbind_run _ _ _ _ _ X).
    apply NoDup_cons_iff in ND as [NI ND]. apply IH; auto. intros m IN. cbn [files]. rewrite upd_neq; [apply EX; right; auto|]. intros ->. auto.
Qed.
Lemma Forall2_len {A B} (P : A -> B -> Prop) a b : Forall2 P a b -> length a = length b. Proof. induction 1; cbn; auto. Qed.
Lemma Ok_eq {A} (a b : A) : Ok a = Ok b -> a = b. Proof. congruence. Qed.
Lemma Forall2_prefix {A B} (P : A -> B -> Prop) a b ys zs : (forall x y z, P x y -> P x z -> y = z) -> Forall2 P a ys -> Forall2 P (a ++ b) zs -> exists r, zs = ys ++ r.
Proof.
  intros FU F. revert zs. induction F as [|x y a ys X F IH]; intros zs G; [exists zs; auto|]. cbn in G. inversion G; subst.
  destruct (IH _ H3) as [r ->]. exists r. cbn. f_equal. eapply FU; eauto.
Qed.
(** C46: without I/O failures, for every positive chunk size and number of
    threads and every schedule, it succeeds if the transformer does. *)
Theorem C46_succeeds e0 e inp out recs ys w0 w1 w : reliable e -> (chunk_size > 0)%nat -> (threads > 0)%nat ->
  write_records_to_file e0 (fun d => d) inp recs w0 = (w1, Ok tt) -> files w inp = files w1 inp ->
  (forall x, returned (f x)) -> transformed recs ys -> Forall (fun y => short (ser y)) ys -> Z.of_nat (length recs) + 1 < 2 ^ 31 ->
  exists calls w', process_record_file e parse f ser key chunk_size threads inp out w = (calls, (w', Ok tt)).
Proof.
  intros RE CP TP W0 FE RF TR SY LN. apply write_records_Ok in W0 as (SH & F). rewrite map_id in SH, F. rewrite F in FE. clear F.
  pose proof (process_shards_calm e inp out recs w RE SH FE) as PS. unfold process_record_file.
  destruct (process_shards e parse f ser key chunk_size threads inp out _) as [[l2 w2] [shards|c| |]] eqn:X2.
  2:{ exfalso. destruct PS as ((a & x & b & zs & -> & _ & FX) & _). unfold transformed in TR. apply Forall2_app_inv_l in TR as (y1 & y2 & _ & T2 & _). inversion T2; congruence. }
  2:{ exfalso. auto. }
  2:{ exfalso. destruct PS as [(a & b & zs & -> & FZ & NF)|[Z|[Z|Z]]]; try lia; auto. apply NF. apply gives_transformed in FZ.
      destruct (Forall2_prefix _ _ _ _ _ (fun x y z (A : f (parse x) = Ok y) (B : f (parse x) = Ok z) => Ok_eq _ _ (eq_trans (eq_sym A) B)) FZ TR) as [r ->]. rewrite Forall_app in SY. destruct SY as [SY _].
      split; [rewrite Forall_map; exact SY|]. apply Forall2_len in FZ. rewrite app_length in LN. rewrite map_length. lia. }
  destruct PS as (groups & zs & -> & HW & HR & ST & EG & FY & PC).
  destruct (merge_calm string_ltb key string_order e RE (shard_names out (length groups)) (map (key_sort string_ltb key) groups) out w2)
    as (outl & w5 & X5 & F5 & S5 & P5 & SO5).
  { apply stored_files with (1 := ST). }
  { apply shard_names_neq. }
  { apply short_groups. apply (st_short _ _ _ _ _ _ ST). }
  { apply sorted_groups. apply string_order. }
  rewrite (sbind_run _ _ _ _ _ X5).
  destruct (delete_all_calm e RE (shard_names out (length groups)) w5) as [w6 X6].
  { apply shard_names_NoDup. }
  { intros n IN. rewrite S5 by (intros [<-|[]]; eapply shard_names_neq; eauto).
    pose proof (stored_files _ _ _ _ _ _ ST) as Q. clear - Q IN. induction Q; [destruct IN|]. destruct IN as [<-|IN]; auto. congruence. }
  rewrite X6. cbn [multi_new readers app destroy_all]. rewrite HW, HR. cbn. do 2 eexists. reflexivity.
Qed.
(** C46: if the transformer fails, the status is that of the first record, in
    the order of the file, on which it fails; it was called at most once for each
    record; the output file is untouched. *)
Theorem C46_error e0 e inp out a x b ys c w0 w1 w : reliable e -> (chunk_size > 0)%nat -> (threads > 0)%nat ->
  write_records_to_file e0 (fun d => d) inp (a ++ x :: b) w0 = (w1, Ok tt) -> files w inp = files w1 inp ->
  (forall x, returned (f x)) -> transformed a ys -> f (parse x) = Err c ->
  Forall (fun y => short (ser y)) ys -> Z.of_nat (length a) + 1 < 2 ^ 31 ->
  exists calls w', process_record_file e parse f ser key chunk_size threads inp out w = (calls, (w', Err c)) /\
  (exists rest, Permutation (calls ++ rest) (map parse (a ++ x :: b))) /\
  forall n, ~ is_shard out n -> files w' n = files w n.
Proof.
  intros RE CP TP W0 FE RF TR FX SY LN. apply write_records_Ok in W0 as (SH & F). rewrite map_id in SH, F. rewrite F in FE. clear F.
  pose proof (process_shards_calm e inp out (a ++ x :: b) w RE SH FE) as PS. unfold process_record_file.
  assert (forall p q zs, a ++ x :: b = p ++ q -> transformed p zs -> exists q', a = p ++ q') as PRE.
  { intros p q zs EQ TP'. destruct (Nat.le_gt_cases (length p) (length a)) as [L|L].
    - apply (f_equal (firstn (length p))) in EQ. rewrite !firstn_app, firstn_all, Nat.sub_diag in EQ. replace (length p - length a)%nat with O in EQ by lia.
      cbn [firstn] in EQ. rewrite !app_nil_r in EQ. exists (skipn (length p) a). rewrite <- EQ at 1. symmetry. apply firstn_skipn.
    - exfalso. apply (f_equal (fun l => nth_error l (length a))) in EQ. rewrite (nth_error_app2 a), Nat.sub_diag in EQ by auto. cbn in EQ.
      rewrite nth_error_app1 in EQ by auto. symmetry in EQ. clear - EQ TP' FX. revert EQ. generalize (length a). unfold transformed in TP'. induction TP'; intros [|k] EQ; cbn in EQ; try discriminate; eauto. congruence. }
  destruct (process_shards e parse f ser key chunk_size threads inp out _) as [[l2 w2] [shards|c'| |]] eqn:X2.
  - exfalso. destruct PS as (groups & zs & _ & _ & _ & _ & _ & FY & _). apply gives_transformed in FY. unfold transformed in FY.
    apply Forall2_app_inv_l in FY as (y1 & y2 & _ & T2 & _). inversion T2; congruence.
  - destruct PS as ((a' & x' & b' & zs & EQ & GZ & FX') & (rc & HR) & HW & (n & SE) & RP).
    apply gives_transformed in GZ. destruct (PRE a' (x' :: b') zs EQ GZ) as [q ->].
    assert (q = []) as ->.
    { rewrite <- app_assoc in EQ. apply app_inv_head in EQ. destruct q as [|y q]; auto. exfalso. cbn in EQ. inversion EQ; subst.
      unfold transformed in TR. apply Forall2_app_inv_l in TR as (y1 & y2 & _ & T2 & _). inversion T2; congruence. }
    rewrite app_nil_r in *. apply app_inv_head in EQ. inversion EQ; subst. rewrite FX in FX'. inversion FX'; subst.
    cbn [destroy_all]. rewrite HW, HR. cbn [posix_destroy]. destruct (close_r e RE rc false w2) as [t X3]. rewrite X3.
    do 2 eexists. split; [reflexivity|]. split; auto. intros k NK. cbn [files]. apply SE. apply not_shard; auto.
  - exfalso. auto.
  - exfalso. destruct PS as [(p & q & zs & EQ & FZ & NF)|[Z|[Z|Z]]]; try lia; auto. apply NF. apply gives_transformed in FZ.
    destruct (PRE p q zs EQ FZ) as [q' ->]. destruct (Forall2_prefix _ _ _ _ _ (fun x y z (A : f (parse x) = Ok y) (B : f (parse x) = Ok z) => Ok_eq _ _ (eq_trans (eq_sym A) B)) FZ TR) as [r ->]. rewrite Forall_app in SY. destruct SY as [SY _].
    split; [rewrite Forall_map; exact SY|]. apply Forall2_len in FZ. rewrite app_length in LN. rewrite map_length. lia.
Qed.
End Process.

(** C46: the bounds are needed.  With a chunk size of zero no number of rounds
    is enough; with zero threads the program divides by zero. *)
Lemma results_of_nothing {I T} (f : I -> outcome T) threads order : exists calls, parallel f threads order [] = (map (fun _ => Ok []) (seq 0 threads), calls).
Proof.
  destruct (parallel_spec f threads order []) as (calls & X & _). exists calls. rewrite X. f_equal. apply map_ext. intros j.
  unfold slice. rewrite skipn_nil, firstn_nil. reflexivity.
Qed.
Lemma write_nothing {T} e (ser : T -> bytes) key (js : list nat) st : write_results e ser key (map (fun _ => Ok []) js) st = (st, Ok tt).
Proof. unfold write_results. revert st. induction js as [|j js IH]; intros st; cbn [map each]; [reflexivity|]. unfold sbind at 1. cbn [each sret]. apply IH. Qed.
Theorem C46_zero_chunk {I T} (parse : bytes -> I) (f : I -> outcome T) ser key threads e out : (threads > 0)%nat ->
  forall rounds l w, exists st, chunk_loop e parse f ser key O threads rounds out true (l, w) = (st, UB).
Proof.
  intros TP. induction rounds as [|n IH]; intros l w; cbn [chunk_loop]; [eexists; reflexivity|].
  unfold sbind at 1, in_reader at 1. cbn [read_chunk sret fst snd]. destruct (Nat.eqb_spec threads 0); [lia|].
  unfold sbind at 1. cbn [l_reader l_writer l_chunk l_calls]. destruct (results_of_nothing f threads (sched e (l_chunk l))) as [calls ->].
  unfold sbind at 1, in_sharder at 1. unfold sbind at 1, set_prefix. cbv beta iota. rewrite write_nothing. apply IH.
Qed.
Theorem C46_zero_threads {I T} (parse : bytes -> I) (f : I -> outcome T) ser key chunk_size e0 e inp out recs w0 w1 w : reliable e ->
  write_records_to_file e0 (fun d => d) inp recs w0 = (w1, Ok tt) -> files w inp = files w1 inp -> recs <> [] ->
  exists calls w', process_record_file e parse f ser key chunk_size O inp out w = (calls, (w', UB)).
Proof.
  intros RE W0 FE NE. apply write_records_Ok in W0 as (SH & F). rewrite map_id in SH, F. rewrite F in FE. clear F.
  assert (exists st, process_shards e parse f ser key chunk_size O inp out (mkLocals Closed (sharder_new default_max_bytes) O [], w) = (st, UB)) as [[l' w'] X].
  2:{ unfold process_record_file. rewrite X. do 2 eexists. reflexivity. }
  unfold process_shards.
  destruct (open_r e RE inp _ w FE) as [t1 X1]. unfold sbind at 1, in_reader at 1. cbn [l_reader l_writer l_chunk l_calls]. rewrite X1. cbv beta iota.
  unfold sbind at 1, in_sharder at 1, set_prefix. cbn [l_reader l_writer l_chunk l_calls].
  destruct (has_more_calm e RE (file_of recs) (mkWorld (files w) t1)) as [t2 X2]. unfold sbind at 1, in_reader at 1. cbn [l_reader l_writer l_chunk l_calls]. rewrite X2. cbv beta iota. cbn [files].
  change (match file_of recs with [] => false | _ => true end) with (nonempty (file_of recs)). rewrite nonempty_file'.
  destruct recs as [|d recs]; [congruence|]. cbn [nonempty]. unfold sbind at 1. cbn [chunk_loop].
  destruct (read_chunk_calm parse e RE chunk_size (d :: recs) (mkWorld (files w) t2) SH) as [t3 X3].
  unfold sbind at 1, in_reader at 1. cbn [l_reader l_writer l_chunk l_calls]. change (nonempty (d :: recs)) with true in X3. rewrite X3.
  eexists. reflexivity.
Qed.

(** Doubling seven numbers in chunks of four with three threads, in a schedule
    where the threads take turns backwards. *)
Definition ex_sched : env := mkEnv (fun _ => None) (fun n => n) (-1) (fun _ => [2;1;0;2;1;2;7;0]%nat).
Definition ex_double (x : Z) : outcome Z := if x =? 9 then Err InvalidArgument else Ok (2 * x).
Definition ex_in : list bytes := [[5]; [3]; [8]; [1]; [3]; [7]; [2]].
Definition ex_process (recs : list bytes) : list Z * outcome (list bytes) :=
  match write_records_to_file ex_env (fun d => d) ex_name recs ex_fs with
  | (w1, Ok _) => match process_record_file ex_sched (fun d => nth 0 d 0) ex_double (fun y => [y]) (fun d => d) 4 3 ex_name ex_p w1 with
                  | (calls, (w2, Ok _)) => (calls, snd (read_protos_from_file ex_env (fun d => d) ex_p w2))
                  | (calls, (_, Err c)) => (calls, Err c)
                  | _ => ([], UB)
                  end
  | _ => ([], UB)
  end.
Example ex_C46 : match ex_process ex_in with
  | (calls, Ok l) => bytes_list_eqb [calls] [[8; 5; 1; 3; 2; 7; 3]] && bytes_list_eqb l [[2]; [4]; [6]; [6]; [10]; [14]; [16]]
  | _ => false end = true.
Proof. vm_cast_no_check (eq_refl true). Qed.
(** the second and the fourth record fail *)
Example ex_C46_error : match ex_process [[5]; [9]; [8]; [9]; [3]] with (_, Err InvalidArgument) => true | _ => false end = true.
Proof. vm_cast_no_check (eq_refl true). Qed.
