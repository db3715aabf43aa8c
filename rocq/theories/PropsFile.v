(** * C44: record files round-trip. *)
Require Import List Arith Lia ZArith Bool Permutation.
Import ListNotations.
From Verif Require Import Prelude BytesModel FileModel FileSpec FileProofs.
Local Open Scope Z_scope.

Lemma scoped_Ok {A} e (m : SM (handle * world) A) w w'' a : scoped e m w = (w'', Ok a) ->
  exists h w', m (Closed, w) = ((h, w'), Ok a) /\ (h = Closed -> w'' = w').
Proof.
  unfold scoped. destruct (m (Closed, w)) as [[h w'] [x|c| |]] eqn:X; try discriminate;
    destruct (posix_destroy e (h, w')) as [[h2 w2] [y|c2| |]] eqn:Y; intros Z; inversion Z; subst.
  exists h, w'. split; auto. intros ->. cbn in Y. inversion Y; auto.
Qed.
Lemma scoped_closed {A} e (m : SM (handle * world) A) w w' a : m (Closed, w) = ((Closed, w'), Ok a) -> scoped e m w = (w', Ok a).
Proof. intros X. unfold scoped. rewrite X. reflexivity. Qed.
Lemma scoped_files {A} e (m : SM (handle * world) A) w h w' o : m (Closed, w) = ((h, w'), o) ->
  (forall n, h <> Writing n) -> forall w'' o', scoped e m w = (w'', o') -> files w'' = files w'.
Proof.
  intros X NW w'' o'. unfold scoped. rewrite X. destruct o; intros Y; try (inversion Y; subst; reflexivity);
  destruct h; cbn in Y; try (destruct (fault e (tick w'))); inversion Y; subst; auto; exfalso; eapply NW; eauto.
Qed.
(** a computation on a file open for writing touches no other file *)
Definition only_writes {A} (n : bytes) (m : SM (handle * world) A) : Prop := forall h w h' w' o,
  (h = Closed \/ h = Writing n \/ h = Dangling) -> m (h, w) = ((h', w'), o) ->
  (h' = Closed \/ h' = Writing n \/ h' = Dangling) /\ same_except [n] w w'.
Lemma only_bind {A B} n (m : SM (handle * world) A) (f : A -> SM (handle * world) B) :
  only_writes n m -> (forall a, only_writes n (f a)) -> only_writes n (sbind m f).
Proof.
  intros X Y h w h' w' o H. unfold sbind. destruct (m (h, w)) as [[h1 w1] r] eqn:M1.
  destruct (X _ _ _ _ _ H M1) as [H1 S1]. destruct r; intros Z; try (inversion Z; subst; auto).
  destruct (Y _ _ _ _ _ _ H1 Z) as [HH S2]. split; auto. intros k K. rewrite S2, S1; auto.
Qed.
Lemma only_ret {A} n (a : outcome A) : only_writes n (sfail a).
Proof. intros h w h' w' o H X. inversion X; subst. split; auto. red; auto. Qed.
Lemma upd_out fs n c m : ~ In m [n] -> upd fs n c m = fs m.
Proof. intros N. apply upd_neq. intros ->. apply N. left; auto. Qed.
Ltac chew_only := intros h w h' w' o H X; destruct H as [-> | [-> | ->]]; cbn in X;
  repeat match type of X with context[match fault ?e ?k with _ => _ end] => destruct (fault e k) end;
  inversion X; subst; (split; [tauto|]); intros k K; cbn; rewrite ?upd_out by auto; reflexivity.
Lemma only_open e n : only_writes n (posix_open e n W). Proof. chew_only. Qed.
Lemma only_close e n : only_writes n (posix_close e). Proof. chew_only. Qed.
Lemma only_write e n d : only_writes n (posix_write e d). Proof. chew_only. Qed.
Lemma only_record e n d : only_writes n (record_write e d).
Proof. unfold record_write. destruct (_ <=? _). apply only_ret. apply only_write. Qed.
Lemma only_each {A} n (f : A -> SM (handle * world) unit) l : (forall a, only_writes n (f a)) -> only_writes n (each f l).
Proof. intros X. induction l; cbn [each]. apply (only_ret n (Ok tt)). apply only_bind; auto. Qed.
Lemma only_scoped {A} e n (m : SM (handle * world) A) w w' o : only_writes n m -> scoped e m w = (w', o) -> same_except [n] w w'.
Proof.
  intros X Y. unfold scoped in Y. destruct (m (Closed, w)) as [[h w1] r] eqn:M1.
  destruct (X _ _ _ _ _ (or_introl eq_refl) M1) as [H1 S1].
  destruct r; try (inversion Y; subst; exact S1);
    (destruct H1 as [-> | [-> | ->]]; cbn in Y; try (destruct (fault e (tick w1))); inversion Y; subst; auto;
     intros k K; cbn; rewrite ?upd_out by auto; apply S1; auto).
Qed.

(** ** what was written *)
Lemma write_records_Ok {T} e (ser : T -> bytes) name l w w1 : write_records_to_file e ser name l w = (w1, Ok tt) ->
  Forall short (map ser l) /\ files w1 name = Some (file_of (map ser l)).
Proof.
  intros X. apply scoped_Ok in X as (h & w' & X & C).
  apply sbind_Ok in X as ([h1 v1] & [] & X1 & X). apply open_w_Ok in X1 as (-> & F1).
  apply sbind_Ok in X as ([h2 v2] & [] & X2 & X). apply each_write_Ok in X2 as (-> & S & F2 & _).
  apply close_Ok in X as (-> & F3). rewrite (C eq_refl), F3. split; auto. apply (F2 []). rewrite F1. apply upd_eq.
Qed.
Lemma write_proto_Ok {T} e (ser : T -> bytes) name t w w1 : write_proto_to_file e ser t name w = (w1, Ok tt) ->
  short (ser t) /\ files w1 name = Some (frame (ser t)).
Proof.
  intros X. apply scoped_Ok in X as (h & w' & X & C).
  apply sbind_Ok in X as ([h1 v1] & [] & X1 & X). apply open_w_Ok in X1 as (-> & F1).
  apply sbind_Ok in X as ([h2 v2] & [] & X2 & X). apply record_write_Ok in X2 as (-> & S & F2).
  apply close_Ok in X as (-> & F3). rewrite (C eq_refl), F3, F2, upd_eq. split; auto. unfold content. rewrite F1, upd_eq. reflexivity.
Qed.
Lemma read_protos_file {T} e (parse : bytes -> T) name recs w : reliable e -> Forall short recs -> files w name = Some (file_of recs) ->
  exists t, read_protos_from_file e parse name w = (mkWorld (files w) t, Ok (map parse recs)).
Proof.
  intros RE S F. unfold read_protos_from_file.
  destruct (open_r e RE name _ w F) as [t1 X1]. destruct (has_more_calm e RE (file_of recs) (mkWorld (files w) t1)) as [t2 X2].
  destruct (read_all_file e RE recs (Datatypes.S (length (file_of recs))) (mkWorld (files w) t2) S) as [t3 X3]; [lia|].
  destruct (close_r e RE [] false (mkWorld (files w) t3)) as [t4 X4]. cbn [files] in *.
  exists t4. apply scoped_closed. rewrite (sbind_run _ _ _ _ _ X1), (sbind_run _ _ _ _ _ X2).
  unfold sbind at 1. cbn [handle_size]. rewrite X3. rewrite (sbind_run _ _ _ _ _ X4). reflexivity.
Qed.
Lemma read_protos_calm {T} e (parse : bytes -> T) name w w2 out : read_protos_from_file e parse name w = (w2, Ok out) ->
  read_protos_from_file (calm e) parse name w = (w2, Ok out).
Proof.
  intros X. apply scoped_Ok in X as (h & w' & X & C).
  assert (h = Closed) as ->.
  { apply sbind_Ok in X as (s1 & ? & _ & X). apply sbind_Ok in X as (s2 & ? & _ & X). apply sbind_Ok in X as (s3 & ? & _ & X).
    apply sbind_Ok in X as ([h4 w4] & ? & Y & X). destruct s3 as [h3 w3]. apply close_Ok in Y as (-> & _). inversion X; auto. }
  rewrite (C eq_refl). apply scoped_closed. revert X. generalize (Closed, w). intros s X. revert X.
  assert (forall m m0 : SM (handle * world) (list T), okle m m0 -> m s = (Closed, w', Ok out) -> m0 s = (Closed, w', Ok out)) as K by (intros m m0 Q; apply Q).
  apply K. apply okle_bind; [apply okle_open|]. intros _. apply okle_bind; [apply okle_has_more|]. intros hm.
  apply okle_bind. { intros [h0 w0] s' a. apply okle_read_all. }
  intros ds. apply okle_bind; [apply okle_close|]. intros; apply okle_refl.
Qed.
Lemma read_proto_calm {T} e (parse : bytes -> T) name w w2 out : read_proto_from_file e parse name w = (w2, Ok out) ->
  read_proto_from_file (calm e) parse name w = (w2, Ok out).
Proof.
  intros X. apply scoped_Ok in X as (h & w' & X & C).
  assert (h = Closed) as ->.
  { apply sbind_Ok in X as (s1 & ? & _ & X). apply sbind_Ok in X as (s3 & ? & _ & X).
    apply sbind_Ok in X as ([h4 w4] & ? & Y & X). destruct s3 as [h3 w3]. apply close_Ok in Y as (-> & _). inversion X; auto. }
  rewrite (C eq_refl). apply scoped_closed. revert X. generalize (Closed, w). intros s X. revert X.
  assert (forall m m0 : SM (handle * world) T, okle m m0 -> m s = (Closed, w', Ok out) -> m0 s = (Closed, w', Ok out)) as K by (intros m m0 Q; apply Q).
  apply K. apply okle_bind; [apply okle_open|]. intros _. apply okle_bind; [apply okle_record_read|]. intros d.
  apply okle_bind; [apply okle_close|]. intros; apply okle_refl.
Qed.
Lemma read_proto_frame {T} e (parse : bytes -> T) name d c w : reliable e -> short d -> files w name = Some (frame d ++ c) ->
  exists t, read_proto_from_file e parse name w = (mkWorld (files w) t, Ok (parse d)).
Proof.
  intros RE S F. unfold read_proto_from_file.
  destruct (open_r e RE name _ w F) as [t1 X1].
  destruct (record_read_frame e RE d c (mkWorld (files w) t1)) as [t3 X3]; [unfold short in *; lia|].
  destruct (close_r e RE c false (mkWorld (files w) t3)) as [t4 X4]. cbn [files] in *.
  exists t4. apply scoped_closed. rewrite (sbind_run _ _ _ _ _ X1), (sbind_run _ _ _ _ _ X3), (sbind_run _ _ _ _ _ X4). reflexivity.
Qed.
Lemma calm_reliable e : reliable (calm e). Proof. red; reflexivity. Qed.

(** C44: what WriteRecordsToFile reported as written, ReadProtosFromFile gives
    back, in order and nothing else, whatever I/O failures ([e1], [e2]) there
    are and whatever happens to other files in between, if it reports success. *)
Theorem C44_roundtrip {T} (ser : T -> bytes) (parse : bytes -> T) e1 e2 name l w w1 w1' w2 out :
  write_records_to_file e1 ser name l w = (w1, Ok tt) ->
  files w1' name = files w1 name ->
  read_protos_from_file e2 parse name w1' = (w2, Ok out) ->
  out = map (fun t => parse (ser t)) l /\ forall n, files w2 n = files w1' n.
Proof.
  intros X E Y. apply write_records_Ok in X as (S & F). apply read_protos_calm in Y. rewrite F in E.
  destruct (read_protos_file (calm e2) parse name (map ser l) w1' (calm_reliable e2) S E) as [t Z]. rewrite Z in Y. inversion Y; subst.
  rewrite map_map. auto.
Qed.
(** C44: without I/O failures both succeed, if every record is shorter than 2^31 bytes. *)
Theorem C44_succeeds {T} (ser : T -> bytes) (parse : bytes -> T) e name l w :
  reliable e -> Forall (fun t => short (ser t)) l ->
  exists w1 w2, write_records_to_file e ser name l w = (w1, Ok tt) /\
                read_protos_from_file e parse name w1 = (w2, Ok (map (fun t => parse (ser t)) l)).
Proof.
  intros RE S. assert (Forall short (map ser l)) as S' by (rewrite Forall_map; auto).
  assert (exists w1, write_records_to_file e ser name l w = (w1, Ok tt)) as [w1 X].
  { unfold write_records_to_file. destruct (open_w e RE name w) as [t1 X1].
    destruct (each_write_calm e ser name RE l (mkWorld (upd (files w) name (Some [])) t1) S') as [w2 X2].
    destruct (close_w e RE name w2) as [t3 X3]. eexists. apply scoped_closed.
    rewrite (sbind_run _ _ _ _ _ X1), (sbind_run _ _ _ _ _ X2), X3. reflexivity. }
  destruct (write_records_Ok _ _ _ _ _ _ X) as [_ F].
  destruct (read_protos_file e parse name (map ser l) w1 RE S' F) as [t Y]. rewrite map_map in Y. eauto.
Qed.
(** C44: the same for the one-record files that hold keys and trees. *)
Theorem C44_single {T} (ser : T -> bytes) (parse : bytes -> T) e1 e2 name t w w1 w1' w2 out :
  write_proto_to_file e1 ser t name w = (w1, Ok tt) ->
  files w1' name = files w1 name ->
  read_proto_from_file e2 parse name w1' = (w2, Ok out) ->
  out = parse (ser t) /\ forall n, files w2 n = files w1' n.
Proof.
  intros X E Y. apply write_proto_Ok in X as (S & F). apply read_proto_calm in Y. rewrite F in E.
  rewrite <- (app_nil_r (frame (ser t))) in E.
  destruct (read_proto_frame (calm e2) parse name (ser t) [] w1' (calm_reliable e2) S E) as [k Z]. rewrite Z in Y. inversion Y; subst. auto.
Qed.
Theorem C44_single_succeeds {T} (ser : T -> bytes) (parse : bytes -> T) e name t w :
  reliable e -> short (ser t) ->
  exists w1 w2, write_proto_to_file e ser t name w = (w1, Ok tt) /\
                read_proto_from_file e parse name w1 = (w2, Ok (parse (ser t))).
Proof.
  intros RE S. assert (exists w1, write_proto_to_file e ser t name w = (w1, Ok tt)) as [w1 X].
  { unfold write_proto_to_file. destruct (open_w e RE name w) as [t1 X1].
    destruct (record_write_calm e RE name (ser t) (mkWorld (upd (files w) name (Some [])) t1) S) as [t2 X2].
    destruct (close_w e RE name (mkWorld (upd (upd (files w) name (Some [])) name (Some (content (mkWorld (upd (files w) name (Some [])) t1) name ++ frame (ser t)))) t2)) as [t3 X3].
    eexists. apply scoped_closed. rewrite (sbind_run _ _ _ _ _ X1), (sbind_run _ _ _ _ _ X2). exact X3. }
  destruct (write_proto_Ok _ _ _ _ _ _ X) as [_ F]. rewrite <- (app_nil_r (frame (ser t))) in F.
  destruct (read_proto_frame e parse name (ser t) [] w1 RE S F) as [k Y]. eauto.
Qed.
(** C44: writing changes no other file, whether it succeeds or not. *)
Theorem C44_only_that_file {T} (ser : T -> bytes) e name l w w1 o :
  write_records_to_file e ser name l w = (w1, o) -> same_except [name] w w1.
Proof.
  apply only_scoped. apply only_bind; [apply only_open|]. intros _. apply only_bind; [|intros; apply only_close].
  apply only_each. intros; apply only_record.
Qed.

(** ** damaged files *)
Lemma extract_over e : reliable e -> forall bs k acc c w, Forall (fun b => 128 <= b) bs -> length bs = k -> (0 < k)%nat ->
  exists t, extract_loop e k acc true (Reading (bs ++ c) false, w) = ((Reading c false, mkWorld (files w) t), Err InvalidArgument).
Proof.
  intros RE. induction bs as [|b bs IH]; intros k acc c w F L P; [cbn in L; lia|]. inversion F; subst. cbn [length extract_loop].
  destruct (read_calm e RE [b] (bs ++ c) false 1 w eq_refl) as [t X]. cbn [app] in X |- *. rewrite (sbind_run _ _ _ _ _ X), last_last.
  destruct (Z.ltb_spec b 128); [lia|]. destruct bs as [|b' bs]. { eexists; reflexivity. }
  cbn [length]. destruct (has_more_calm e RE ((b' :: bs) ++ c) (mkWorld (files w) t)) as [t1 X1]. rewrite (sbind_run _ _ _ _ _ X1).
  destruct (IH (length (b' :: bs)) (acc ++ [b]) c (mkWorld (files w) t1)) as [t2 X2]; auto; [cbn; lia|].
  cbn [files app length] in *. rewrite X2. eauto.
Qed.
Lemma extract_cut e : reliable e -> forall bs k acc w, Forall (fun b => 128 <= b) bs -> (length bs < k)%nat ->
  exists t, extract_loop e k acc (match bs with [] => false | _ => true end) (Reading bs false, w) = ((Reading [] false, mkWorld (files w) t), Ok (acc ++ bs)).
Proof.
  intros RE. induction bs as [|b bs IH]; intros k acc w F L.
  - destruct k; [lia|]. cbn [extract_loop]. rewrite app_nil_r. destruct w as [fs t]. exists t. reflexivity.
  - inversion F; subst. destruct k; [lia|]. cbn [extract_loop].
    destruct (read_calm e RE [b] bs false 1 w eq_refl) as [t X]. cbn [app] in X |- *. rewrite (sbind_run _ _ _ _ _ X), last_last.
    destruct (Z.ltb_spec b 128); [lia|]. destruct k as [|k]; [cbn in L; lia|].
    destruct (has_more_calm e RE bs (mkWorld (files w) t)) as [t1 X1]. rewrite (sbind_run _ _ _ _ _ X1).
    destruct (IH (S k) (acc ++ [b]) (mkWorld (files w) t1)) as [t2 X2]; auto; [cbn in *; lia|].
    cbn [files] in *. rewrite X2, <- app_assoc. eexists; reflexivity.
Qed.
Lemma value_cut bs : Forall (fun b => 128 <= b) bs -> varint_value bs = None.
Proof. induction 1 as [|b bs B F IH]; cbn; auto. destruct (Z.ltb_spec b 128); [lia|]. rewrite IH; auto. Qed.
Lemma prefix_cut bs : prefix_ok bs -> forall k, (k < length bs)%nat -> Forall (fun b => 128 <= b) (firstn k bs).
Proof.
  induction 1 as [b B|b r B P IH]; intros k L; cbn in L.
  - destruct k; [constructor|lia].
  - destruct k; cbn [firstn]; constructor; auto. apply IH; lia.
Qed.
(** reading what is left of a record after its end was cut off *)
Lemma record_read_cut e d k w : reliable e -> short d -> (0 < k < length (frame d))%nat ->
  exists t o, record_read e (Reading (firstn k (frame d)) false, w) = ((Reading [] false, mkWorld (files w) t), o) /\
    (o = Err Internal \/ (o = Ok [] /\ junk e mod 2 ^ 32 = 0 /\ Forall (fun b => 128 <= b) (firstn k (frame d)))).
Proof.
  intros RE S L. unfold frame in *. set (n := Z.of_nat (length d)) in *. unfold short in S. fold n in S.
  assert (0 <= n < 128 ^ (Z.of_nat 4 + 1)) as B. { split; [lia|]. change (128 ^ (Z.of_nat 4 + 1)) with (2 ^ 35). lia. }
  destruct (varint_prefix_ok 4 n B) as [P PL]. set (v := varint 4 n) in *. rewrite app_length in L.
  unfold record_read, extract_varint32.
  destruct (Nat.lt_ge_cases k (length v)) as [C|C].
  - assert (firstn k (v ++ d) = firstn k v) as EQ. { rewrite firstn_app. replace (k - length v)%nat with O by lia. cbn. apply app_nil_r. }
    rewrite EQ. pose proof (prefix_cut v P k C) as F. set (c := firstn k v) in *.
    assert (length c = k) as LC by (apply firstn_length_le; lia).
    destruct (has_more_calm e RE c w) as [t1 X1]. destruct (extract_cut e RE c 5 [] (mkWorld (files w) t1) F) as [t2 X2]; [lia|].
    cbn [files app] in X2.
    destruct (Z.eq_dec (junk e mod 2 ^ 32) 0) as [J|J].
    + destruct (read_calm e RE [] [] false 0 (mkWorld (files w) t2) eq_refl) as [t3 X3]. cbn [files app] in X3.
      exists t3, (Ok []). split; [|auto]. unfold sbind at 1 2 3. rewrite X1, X2. cbn [sret]. unfold read_varint32. rewrite value_cut by auto. rewrite J. exact X3.
    + destruct (read_short e RE [] false (junk e mod 2 ^ 32) (mkWorld (files w) t2)) as [t3 X3].
      { change (Z.of_nat (length (@nil Z))) with 0. pose proof (Z.mod_pos_bound (junk e) (2 ^ 32) eq_refl). lia. }
      cbn [files] in X3.
      exists t3, (Err Internal). split; [|auto]. unfold sbind at 1 2 3. rewrite X1, X2. cbn [sret]. unfold read_varint32. rewrite value_cut by auto. exact X3.
  - assert (firstn k (v ++ d) = v ++ firstn (k - length v) d) as EQ. { rewrite firstn_app, firstn_all2 by lia. auto. }
    rewrite EQ. set (c := firstn (k - length v) d).
    assert (Z.of_nat (length c) < n) as LC. { unfold c. rewrite firstn_length. lia. }
    destruct (has_more_calm e RE (v ++ c) w) as [t1 X1].
    replace (match v ++ c with [] => false | _ => true end) with true in X1 by (destruct v; [inversion P|reflexivity]).
    destruct (extract_loop_ok e RE _ P 5 [] c (mkWorld (files w) t1)) as [t2 X2]; [lia|]. cbn [files app] in X2.
    destruct (read_short e RE c false n (mkWorld (files w) t2) LC) as [t3 X3]. cbn [files] in X3.
    exists t3, (Err Internal). split; [|auto]. unfold sbind at 1 2 3. rewrite X1, X2. cbn [sret]. unfold read_varint32.
    unfold v. rewrite varint_value_varint by auto. rewrite Z.mod_small by lia. exact X3.
Qed.
Definition nonempty {A} (l : list A) : bool := match l with [] => false | _ => true end.
Lemma read_all_cut e : reliable e -> forall recs k fuel w, Forall short recs -> (length (firstn k (file_of recs)) < fuel)%nat ->
  exists t o, read_all e fuel (nonempty (firstn k (file_of recs))) (Reading (firstn k (file_of recs)) false, w)
            = ((Reading [] false, mkWorld (files w) t), o) /\
  (o = Err Internal \/ exists n, (o = Ok (firstn n recs) /\ firstn k (file_of recs) = file_of (firstn n recs)) \/
                                 (o = Ok (firstn n recs ++ [[]]) /\ junk e mod 2 ^ 32 = 0)).
Proof.
  intros RE. induction recs as [|d recs IH]; intros k fuel w S L.
  - cbn. rewrite firstn_nil. cbn. destruct w as [fs t]. exists t, (Ok []). split; [destruct fuel; reflexivity|]. right. exists O. left. auto.
  - inversion S; subst. unfold file_of in L |- *. cbn [flat_map] in L |- *. fold (file_of recs) in L |- *.
    destruct (Nat.lt_ge_cases k (length (frame d))) as [C|C].
    + assert (firstn k (frame d ++ file_of recs) = firstn k (frame d)) as EQ.
      { rewrite firstn_app. replace (k - length (frame d))%nat with O by lia. cbn. apply app_nil_r. }
      rewrite EQ in *. destruct k as [|k].
      { cbn. destruct w as [fs t]. exists t, (Ok []). split; [destruct fuel; reflexivity|]. right. exists O. left. auto. }
      destruct (record_read_cut e d (Datatypes.S k) w RE ltac:(auto) ltac:(lia)) as (t & o & X & Y).
      assert (nonempty (firstn (Datatypes.S k) (frame d)) = true) as -> by (pose proof (frame_nonempty d); destruct (frame d); auto; congruence).
      destruct fuel as [|fuel]; [lia|]. cbn [read_all]. destruct Y as [->|(-> & J & _)].
      * exists t, (Err Internal). unfold sbind at 1. rewrite X. auto.
      * rewrite (sbind_run _ _ _ _ _ X). destruct (has_more_calm e RE [] (mkWorld (files w) t)) as [t1 X1]. cbn [files] in X1.
        rewrite (sbind_run _ _ _ _ _ X1). exists t1, (Ok [[]]). split; [destruct fuel; reflexivity|]. right. exists O. right. auto.
    + assert (firstn k (frame d ++ file_of recs) = frame d ++ firstn (k - length (frame d)) (file_of recs)) as EQ.
      { rewrite firstn_app, firstn_all2 by lia. auto. }
      rewrite EQ in *. set (c := firstn (k - length (frame d)) (file_of recs)) in *.
      assert (nonempty (frame d ++ c) = true) as -> by (pose proof (frame_nonempty d); destruct (frame d); auto; congruence).
      rewrite app_length in L. destruct fuel as [|fuel]; [lia|]. cbn [read_all].
      destruct (record_read_frame e RE d c w) as [t1 X1]; [unfold short in *; lia|].
      rewrite (sbind_run _ _ _ _ _ X1). destruct (has_more_calm e RE c (mkWorld (files w) t1)) as [t2 X2].
      rewrite (sbind_run _ _ _ _ _ X2).
      destruct (IH (k - length (frame d))%nat fuel (mkWorld (files w) t2)) as (t3 & o & X3 & Y); auto.
      { pose proof (frame_nonempty d). destruct (frame d); [congruence|cbn in L; fold c; lia]. }
      fold c in X3, Y. cbn [files] in *. destruct Y as [->|(n & [(-> & Q)|(-> & J)])].
      * exists t3, (Err Internal). split; auto. unfold sbind at 1. change (match c with [] => false | _ => true end) with (nonempty c). rewrite X3. reflexivity.
      * rewrite (sbind_run _ _ _ _ _ X3). exists t3, (Ok (d :: firstn n recs)). split; [reflexivity|]. right. exists (Datatypes.S n). left. split; auto.
        rewrite Q. reflexivity.
      * rewrite (sbind_run _ _ _ _ _ X3). exists t3, (Ok ((d :: firstn n recs) ++ [[]])). split; [reflexivity|]. right. exists (Datatypes.S n). right. split; auto.
Qed.
(** what ReadProtosFromFile does, given what its loop does *)
Lemma read_protos_step {T} e (parse : bytes -> T) name c w (P : outcome (list bytes) -> Prop) : reliable e -> files w name = Some c ->
  (forall t, exists c' b' t' o, read_all e (S (length c)) (nonempty c) (Reading c false, mkWorld (files w) t) = ((Reading c' b', mkWorld (files w) t'), o) /\ P o) ->
  exists t o, read_protos_from_file e parse name w =
    (mkWorld (files w) t, match o with Ok ds => Ok (map parse ds) | Err c => Err c | Abort => Abort | UB => UB end) /\ P o.
Proof.
  intros RE F H. unfold read_protos_from_file.
  destruct (open_r e RE name _ w F) as [t1 X1]. destruct (has_more_calm e RE c (mkWorld (files w) t1)) as [t2 X2].
  destruct (H t2) as (c' & b' & t3 & o & X3 & PO). cbn [files] in X2.
  unfold scoped. rewrite (sbind_run _ _ _ _ _ X1), (sbind_run _ _ _ _ _ X2).
  destruct o as [ds|er| |]; unfold sbind at 1; cbn [handle_size]; unfold nonempty in X3; rewrite X3.
  - destruct (close_r e RE c' b' (mkWorld (files w) t3)) as [t4 X4]. rewrite (sbind_run _ _ _ _ _ X4). eexists; exists (Ok ds). split; [reflexivity|auto].
  - cbn. rewrite RE. eexists; exists (Err er). split; [reflexivity|auto].
  - eexists; exists Abort. split; [reflexivity|auto].
  - eexists; exists UB. split; [reflexivity|auto].
Qed.
(** C44: of a record file whose end was cut off, the records that are complete
    are given back if the cut is between two records; otherwise the result is an
    error, or (if the cut is inside a length) the complete records and one empty
    record - the latter only if protobuf stores 0 when it fails to read a number. *)
Theorem C44_truncated {T} (ser : T -> bytes) (parse : bytes -> T) e1 e name l k w0 w1 c w : reliable e ->
  write_records_to_file e1 ser name l w0 = (w1, Ok tt) ->
  files w1 name = Some c -> files w name = Some (firstn k c) ->
  exists w' o, read_protos_from_file e parse name w = (w', o) /\
  (forall n, files w' n = files w n) /\
  (o = Err Internal \/
   (exists n, firstn k c = file_of (map ser (firstn n l)) /\ o = Ok (map (fun t => parse (ser t)) (firstn n l))) \/
   (exists n, junk e mod 2 ^ 32 = 0 /\ o = Ok (map (fun t => parse (ser t)) (firstn n l) ++ [parse []]))).
Proof.
  intros RE X FC F. apply write_records_Ok in X as (S & F1). rewrite F1 in FC. inversion FC; subst c. clear FC.
  set (recs := map ser l) in *. set (c := firstn k (file_of recs)) in *.
  destruct (read_protos_step e parse name c w (fun o => o = Err Internal \/ exists n, (o = Ok (firstn n recs) /\ c = file_of (firstn n recs)) \/
                                 (o = Ok (firstn n recs ++ [[]]) /\ junk e mod 2 ^ 32 = 0)) RE F) as (t & o & Z & Y).
  { intros t. destruct (read_all_cut e RE recs k (Datatypes.S (length c)) (mkWorld (files w) t) S) as (t' & o & X & Y); [fold c; lia|].
    fold c in X, Y. cbn [files] in X. do 4 eexists. split; [exact X|exact Y]. }
  do 2 eexists. split; [exact Z|]. split; [reflexivity|].
  assert (forall n, firstn n recs = map ser (firstn n l)) as FM by (intros; unfold recs; apply firstn_map).
  destruct Y as [->|(n & [(-> & Q)|(-> & J)])]; [left; reflexivity|right; left; exists n|right; right; exists n]; split; auto.
  - rewrite <- FM; auto.
  - rewrite FM, map_map; auto.
  - rewrite map_app, FM, map_map; auto.
Qed.
(** C44: a length of five bytes that all have the top bit is refused. *)
Lemma read_all_bad e er c : reliable e -> c <> [] ->
  (forall w, exists c' t, record_read e (Reading c false, w) = ((Reading c' false, mkWorld (files w) t), Err er)) ->
  forall recs fuel w, Forall short recs -> (length (file_of recs ++ c) < fuel)%nat ->
  exists c' t, read_all e fuel true (Reading (file_of recs ++ c) false, w) = ((Reading c' false, mkWorld (files w) t), Err er).
Proof.
  intros RE NE H. induction recs as [|d recs IH]; intros fuel w S L; (destruct fuel as [|fuel]; [lia|]); cbn [read_all].
  - destruct (H w) as (c' & t & X). cbn [file_of flat_map app]. exists c', t. unfold sbind at 1. rewrite X. reflexivity.
  - inversion S; subst. unfold file_of in L |- *. cbn [flat_map] in L |- *. fold (file_of recs) in L |- *. rewrite <- app_assoc in L |- *.
    destruct (record_read_frame e RE d (file_of recs ++ c) w) as [t1 X1]; [unfold short in *; lia|].
    rewrite (sbind_run _ _ _ _ _ X1). destruct (has_more_calm e RE (file_of recs ++ c) (mkWorld (files w) t1)) as [t2 X2].
    rewrite (sbind_run _ _ _ _ _ X2).
    replace (match file_of recs ++ c with [] => false | _ => true end) with true by (destruct (file_of recs); [destruct c; auto; congruence|auto]).
    destruct (IH fuel (mkWorld (files w) t2)) as (c' & t3 & X3); auto.
    { rewrite app_length in L. pose proof (frame_nonempty d). destruct (frame d); [congruence|cbn in L; lia]. }
    cbn [files] in *. exists c', t3. unfold sbind. rewrite X3. reflexivity.
Qed.
Theorem C44_overlong {T} (ser : T -> bytes) (parse : bytes -> T) e1 e name l w0 w1 c bs rest w : reliable e ->
  write_records_to_file e1 ser name l w0 = (w1, Ok tt) -> files w1 name = Some c ->
  length bs = 5%nat -> Forall (fun b => 128 <= b) bs ->
  files w name = Some (c ++ bs ++ rest) ->
  exists w', read_protos_from_file e parse name w = (w', Err InvalidArgument) /\ forall n, files w' n = files w n.
Proof.
  intros RE X FC LB FB F. apply write_records_Ok in X as (S & F1). rewrite F1 in FC. inversion FC; subst c. clear FC.
  assert (bs ++ rest <> []) as NE by (destruct bs; cbn in LB; [lia|discriminate]).
  destruct (read_protos_step e parse name _ w (fun o => o = Err InvalidArgument) RE F) as (t & o & Z & ->).
  { intros t. destruct (read_all_bad e InvalidArgument (bs ++ rest) RE NE) with (recs := map ser l)
      (fuel := Datatypes.S (length (file_of (map ser l) ++ bs ++ rest))) (w := mkWorld (files w) t) as (c' & t' & Y); auto.
    - intros w2. unfold record_read, extract_varint32. destruct (has_more_calm e RE (bs ++ rest) w2) as [t1 X1].
      destruct (extract_over e RE bs 5 [] rest (mkWorld (files w2) t1) FB LB) as [t2 X2]; [lia|].
      exists rest, t2. unfold sbind. rewrite X1. replace (match bs ++ rest with [] => false | _ => true end) with true by (destruct (bs ++ rest); congruence).
      rewrite X2. reflexivity.
    - cbn [files] in Y. replace (nonempty (file_of (map ser l) ++ bs ++ rest)) with true.
      2:{ destruct (file_of (map ser l)); [destruct (bs ++ rest); auto; congruence|auto]. }
      do 4 eexists. split; [exact Y|reflexivity]. }
  eexists. split; [exact Z|]. reflexivity.
Qed.
(** C44: whatever is in a file, reading it returns records or an error. *)
Theorem C44_any_content {T} (parse : bytes -> T) e name w : reliable e ->
  exists w' o, read_protos_from_file e parse name w = (w', o) /\ returned o /\ forall n, files w' n = files w n.
Proof.
  intros RE. destruct (files w name) as [c|] eqn:F.
  - destruct (read_protos_step e parse name c w returned RE F) as (t & o & Z & Y).
    2:{ do 2 eexists. split; [exact Z|]. split; [destruct o; auto|reflexivity]. }
    assert (forall fuel c w, (length c < fuel)%nat -> exists c' b' t' o, read_all e fuel (nonempty c) (Reading c false, w) = ((Reading c' b', mkWorld (files w) t'), o) /\ returned o) as K.
    { clear F c w. induction fuel as [|fuel IH]; intros c w L; [lia|]. destruct c as [|b c].
      { destruct w as [fs t]. do 4 eexists. split; [reflexivity|exact Logic.I]. }
      cbn [nonempty read_all]. destruct (record_read_shape e (b :: c) false w) as (c1 & b1 & t1 & o1 & X1 & L1 & Y1).
      destruct o1 as [d|er| |]; try tauto.
      2:{ do 4 eexists. unfold sbind at 1. rewrite X1. split; [reflexivity|exact Logic.I]. }
      destruct Y1 as (_ & -> & LT). specialize (LT ltac:(discriminate)). rewrite (sbind_run _ _ _ _ _ X1).
      destruct (has_more_calm e RE c1 (mkWorld (files w) t1)) as [t2 X2]. rewrite (sbind_run _ _ _ _ _ X2).
      destruct (IH c1 (mkWorld (files w) t2)) as (c3 & b3 & t3 & o3 & X3 & Y3); [lia|]. cbn [files] in *.
      change (match c1 with [] => false | _ => true end) with (nonempty c1).
      unfold sbind at 1. rewrite X3. destruct o3; cbn in Y3; try tauto; (do 4 eexists; split; [reflexivity|exact Logic.I]). }
    intros t. apply (K (S (length c)) c (mkWorld (files w) t)). lia.
  - unfold read_protos_from_file, scoped, sbind. cbn. rewrite RE, F. do 2 eexists. split; [reflexivity|]. split; [exact Logic.I|reflexivity].
Qed.

(** ** concrete runs *)
Definition ex_env : env := mkEnv (fun _ => None) (fun n => n) (-1) (fun _ => []).
Definition ex_fs : world := mkWorld (fun _ => None) O.
Definition bytes_list_eqb (a b : list bytes) : bool := if list_eq_dec (list_eq_dec Z.eq_dec) a b then true else false.
Definition ex_recs : list bytes := [[1;2;3]; []; repeat 200 130; [255]].
Definition ex_name : bytes := [114; 101].
(** three of them longer and shorter than one byte of length; all come back *)
Example ex_C44_roundtrip :
  match write_records_to_file ex_env (fun d : bytes => d) ex_name ex_recs ex_fs with
  | (w1, Ok _) => match read_protos_from_file ex_env (fun d => d) ex_name w1 with
                  | (_, Ok out) => bytes_list_eqb out ex_recs | _ => false end
  | _ => false
  end = true.
Proof. vm_cast_no_check (eq_refl true). Qed.
(** cut in the middle of the length of the third record: an error, or one more
    (empty) record if protobuf stores 0 *)
Example ex_C44_truncated :
  let cut j := match write_records_to_file ex_env (fun d : bytes => d) ex_name ex_recs ex_fs with
  | (w1, Ok _) => snd (read_protos_from_file (mkEnv (fun _ => None) (fun n => n) j (fun _ => [])) (fun d => d) ex_name
                    (mkWorld (upd (files w1) ex_name (Some (firstn 6 (content w1 ex_name)))) O))
  | _ => UB
  end in
  (match cut (-1) with Err Internal => true | _ => false end) &&
  (match cut 0 with Ok out => bytes_list_eqb out [[1;2;3]; []; []] | _ => false end) = true.
Proof. vm_cast_no_check (eq_refl true). Qed.
(** the disk is full: the third write fails *)
Example ex_C44_failure :
  match write_records_to_file (mkEnv (fun n => if Nat.eqb n 3 then Some 1%nat else None) (fun n => n) 0 (fun _ => [])) (fun d : bytes => d) ex_name ex_recs ex_fs with
  | (_, Err Internal) => true | _ => false end = true.
Proof. vm_cast_no_check (eq_refl true). Qed.
(** closing fails: the stream is released but its pointer kept, so the
    destructor closes it a second time *)
Example ex_C44_close_failure :
  match write_records_to_file (mkEnv (fun n => if Nat.eqb n 5 then Some 1%nat else None) (fun n => n) 0 (fun _ => [])) (fun d : bytes => d) ex_name ex_recs ex_fs with
  | (_, UB) => true | _ => false end = true.
Proof. vm_cast_no_check (eq_refl true). Qed.
