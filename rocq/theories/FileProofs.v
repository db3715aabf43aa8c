(** * Record files: the reader and the writer. *)
Require Import List Arith Lia ZArith Bool Permutation.
Import ListNotations.
From Verif Require Import Prelude BytesModel FileModel FileSpec.
Local Open Scope Z_scope.

(** ** computations without failures *)
Definition calm (e : env) : env := mkEnv (fun _ => None) (tie e) (junk e) (sched e).
(** what succeeds in spite of failures does the same without them *)
Definition okle {S A} (m m0 : SM S A) : Prop := forall s s' a, m s = (s', Ok a) -> m0 s = (s', Ok a).

Lemma okle_refl {S A} (m : SM S A) : okle m m. Proof. red; auto. Qed.
Lemma sbind_Ok {S A B} (m : SM S A) (f : A -> SM S B) s s' b :
  sbind m f s = (s', Ok b) -> exists s1 a, m s = (s1, Ok a) /\ f a s1 = (s', Ok b).
Proof. unfold sbind. destruct (m s) as [s1 [a|c| |]] eqn:X; intros Y; try discriminate. eauto. Qed.
Lemma sbind_run {S A B} (m : SM S A) (f : A -> SM S B) s s1 a : m s = (s1, Ok a) -> sbind m f s = f a s1.
Proof. unfold sbind. intros ->. reflexivity. Qed.
Lemma okle_bind {S A B} (m m0 : SM S A) (f f0 : A -> SM S B) :
  okle m m0 -> (forall a, okle (f a) (f0 a)) -> okle (sbind m f) (sbind m0 f0).
Proof.
  intros X Y s s' b Z. apply sbind_Ok in Z as (s1 & a & Z1 & Z2).
  rewrite (sbind_run _ _ _ _ _ (X _ _ _ Z1)). apply Y, Z2.
Qed.
Lemma okle_each {S A} (f f0 : A -> SM S unit) l : (forall a, okle (f a) (f0 a)) -> okle (each f l) (each f0 l).
Proof. intros X. induction l as [|a l IH]; cbn [each]. apply okle_refl. apply okle_bind; auto. Qed.

Section Okle.
Context (e : env).
Ltac chew := intros [h w] s' a; cbn; destruct h; cbn; try discriminate; auto;
  repeat match goal with |- context[match fault e ?n with _ => _ end] => destruct (fault e n); try discriminate; auto end.
Lemma okle_open n m : okle (posix_open e n m) (posix_open (calm e) n m).
Proof. chew. Qed.
Lemma okle_close : okle (posix_close e) (posix_close (calm e)).
Proof. chew. Qed.
Lemma okle_has_more : okle (posix_has_more e) (posix_has_more (calm e)).
Proof. chew; destruct bad; auto; discriminate. Qed.
Lemma okle_read n : okle (posix_read e n) (posix_read (calm e) n).
Proof. chew. Qed.
Lemma okle_read_line : okle (posix_read_line e) (posix_read_line (calm e)).
Proof. chew. Qed.
Lemma okle_write d : okle (posix_write e d) (posix_write (calm e) d).
Proof. chew. Qed.
Lemma okle_record_write d : okle (record_write e d) (record_write (calm e) d).
Proof. unfold record_write. destruct (2 ^ 31 <=? Z.of_nat (length d)). apply okle_refl. apply okle_write. Qed.
Lemma okle_extract_loop : forall k acc hm, okle (extract_loop e k acc hm) (extract_loop (calm e) k acc hm).
Proof.
  induction k as [|k IH]; intros acc hm; cbn [extract_loop]; [apply okle_refl|].
  destruct hm; [|apply okle_refl]. apply okle_bind; [apply okle_read|]. intros b.
  destruct (last (acc ++ b) 0 <? 128); [apply okle_refl|]. destruct k; [apply okle_refl|].
  apply okle_bind; [apply okle_has_more|]. intros; apply IH.
Qed.
Lemma okle_record_read : okle (record_read e) (record_read (calm e)).
Proof.
  unfold record_read, extract_varint32. apply okle_bind; [|intros; apply okle_read].
  apply okle_bind; [apply okle_has_more|]. intros hm. apply okle_bind; [apply okle_extract_loop|]. intros; apply okle_refl.
Qed.
Lemma okle_read_all : forall k hm, okle (read_all e k hm) (read_all (calm e) k hm).
Proof.
  induction k as [|k IH]; intros hm; cbn [read_all]; destruct hm; try apply okle_refl.
  apply okle_bind; [apply okle_record_read|]. intros d. apply okle_bind; [apply okle_has_more|]. intros hm.
  apply okle_bind; [apply IH|]. intros; apply okle_refl.
Qed.
Lemma okle_delete n : okle (delete_file e n) (delete_file (calm e) n).
Proof. intros w s' a; unfold delete_file; cbn [calm fault]. destruct (fault e (tick w)), (files w n); intros X; try discriminate; exact X. Qed.
End Okle.

(** ** shape of readers: any environment *)
Section Shape.
Context (e : env).
Lemma has_more_shape c b w : exists b' t o, posix_has_more e (Reading c b, w) = ((Reading c b', mkWorld (files w) t), o) /\
  match o with Ok hm => b = false /\ b' = false /\ hm = (match c with [] => false | _ => true end) | Err _ => b' = true | _ => False end.
Proof.
  cbn. destruct b. { destruct w as [fs t]. exists true, t, (Err Internal). split; auto. }
  destruct (fault e (tick w)).
  - exists true, (S (tick w)), (Err Internal). split; auto.
  - exists false, (S (tick w)), (Ok (match c with [] => false | _ => true end)). repeat split.
Qed.
Lemma read_shape c b n w : 0 <= n -> exists c' b' t o, posix_read e n (Reading c b, w) = ((Reading c' b', mkWorld (files w) t), o) /\
  (length c' <= length c)%nat /\
  match o with Ok d => b' = b /\ Z.of_nat (length d) = n /\ c = d ++ c' | Err _ => True | _ => False end.
Proof.
  intros N. cbn. destruct (fault e (tick w)) as [k|].
  - exists (skipn k c), true, (S (tick w)), (Err Internal). repeat split. rewrite skipn_length; lia.
  - destruct (Z.leb_spec n (Z.of_nat (length c))).
    + exists (skipn (Z.to_nat n) c), b, (S (tick w)), (Ok (firstn (Z.to_nat n) c)). repeat split.
      * rewrite skipn_length; lia.
      * rewrite firstn_length; lia.
      * symmetry; apply firstn_skipn.
    + exists [], b, (S (tick w)), (Err Internal). repeat split. cbn; lia.
Qed.
Lemma extract_loop_shape : forall k acc hm c b w, (hm = true -> c <> []) ->
  exists c' b' t o, extract_loop e k acc hm (Reading c b, w) = ((Reading c' b', mkWorld (files w) t), o) /\
  (length c' <= length c)%nat /\
  match o with Ok _ => (k <> O -> hm = true -> (length c' < length c)%nat) | Err _ => True | _ => False end.
Proof.
  induction k as [|k IH]; intros acc hm c b w HM; cbn [extract_loop].
  - destruct w as [fs t]. exists c, b, t, (Ok acc). repeat split; auto. lia.
  - destruct hm. 2:{ destruct w as [fs t]. exists c, b, t, (Ok acc). repeat split; auto. discriminate. }
    destruct (read_shape c b 1 w ltac:(lia)) as (c1 & b1 & t1 & o & X & L & Y).
    destruct o as [d|er| |]; try tauto.
    2:{ exists c1, b1, t1, (Err er). unfold sbind. rewrite X. auto. }
    destruct Y as (-> & LD & ->). rewrite (sbind_run _ _ _ _ _ X). rewrite app_length.
    destruct (last (acc ++ d) 0 <? 128).
    { exists c1, b, t1, (Ok (acc ++ d)). repeat split; try lia. }
    destruct k as [|k]. { exists c1, b, t1, (Err InvalidArgument). repeat split; try lia. }
    destruct (has_more_shape c1 b (mkWorld (files w) t1)) as (b2 & t2 & o & X2 & Y2).
    destruct o as [hm|er| |]; try tauto.
    2:{ exists c1, b2, t2, (Err er). unfold sbind at 1. rewrite X2. repeat split; lia. }
    rewrite (sbind_run _ _ _ _ _ X2). destruct Y2 as (-> & -> & ->).
    destruct (IH (acc ++ d) (match c1 with [] => false | _ => true end) c1 false (mkWorld (files w) t2)) as (c3 & b3 & t3 & o & X3 & L3 & Y3).
    { destruct c1; congruence. }
    cbn [files] in X3. exists c3, b3, t3, o. split; [exact X3|]. split; [lia|]. destruct o; auto. intros; lia.
Qed.
Lemma read_varint32_nonneg bs : 0 <= read_varint32 e bs.
Proof. unfold read_varint32. destruct (varint_value bs); apply Z.mod_pos_bound; lia. Qed.
Lemma record_read_shape c b w : exists c' b' t o, record_read e (Reading c b, w) = ((Reading c' b', mkWorld (files w) t), o) /\
  (length c' <= length c)%nat /\
  match o with Ok _ => b = false /\ b' = false /\ (c <> [] -> (length c' < length c)%nat) | Err _ => True | _ => False end.
Proof.
  unfold record_read, extract_varint32.
  destruct (has_more_shape c b w) as (b2 & t2 & o & X2 & Y2).
  destruct o as [hm|er| |]; try tauto.
  2:{ exists c, b2, t2, (Err er). unfold sbind. rewrite X2. auto. }
  destruct Y2 as (-> & -> & ->).
  destruct (extract_loop_shape 5 [] (match c with [] => false | _ => true end) c false (mkWorld (files w) t2)) as (c3 & b3 & t3 & o & X3 & L3 & Y3).
  { destruct c; congruence. }
  cbn [files] in X3. destruct o as [bs|er| |]; try tauto.
  2:{ exists c3, b3, t3, (Err er). unfold sbind at 1 2 3. rewrite X2, X3. auto. }
  assert (b3 = false) as ->.
  { pose proof (okle_extract_loop e _ _ _ _ _ _ X3) as Q. clear - Q.
    revert Q. generalize 5%nat. intros n. generalize (@nil Z) at 1. generalize (match c with [] => false | _ => true end).
    generalize (mkWorld (files w) t2). revert c.
    induction n as [|n IH]; intros c w0 hm acc; cbn [extract_loop]. { intros Q; inversion Q; auto. }
    destruct hm. 2:{ intros Q; inversion Q; auto. }
    intros Q. apply sbind_Ok in Q as (s1 & d & Q1 & Q2). cbn in Q1.
    destruct (1 <=? Z.of_nat (length c)); inversion Q1; subst. clear Q1.
    match type of Q2 with (if ?x then _ else _) _ = _ => destruct x end; [inversion Q2; auto|].
    destruct n; [discriminate Q2|]. apply sbind_Ok in Q2 as (s1 & hm & Q1 & Q2). cbn in Q1. inversion Q1; subst. eauto. }
  destruct (read_shape c3 false (read_varint32 e bs) (mkWorld (files w) t3) (read_varint32_nonneg _)) as (c4 & b4 & t4 & o & X4 & L4 & Y4).
  cbn [files] in X4.
  exists c4, b4, t4, o. split. { unfold sbind at 1 2 3. rewrite X2, X3. cbn [sret]. exact X4. }
  split; [lia|]. destruct o; auto. split; auto. split; [tauto|]. intros N.
  assert (length c3 < length c)%nat; [|lia]. apply Y3; auto. destruct c; congruence.
Qed.
End Shape.

(** ** exact behaviour without failures *)
Section Calm.
Context (e : env).
Hypothesis reliable : forall n, fault e n = None.

Lemma open_r n c w : files w n = Some c -> exists t, posix_open e n R (Closed, w) = ((Reading c false, mkWorld (files w) t), Ok tt).
Proof. intros X. cbn. rewrite reliable, X. eexists; reflexivity. Qed.
Lemma open_w n w : exists t, posix_open e n W (Closed, w) = ((Writing n, mkWorld (upd (files w) n (Some [])) t), Ok tt).
Proof. cbn. rewrite reliable. eexists; reflexivity. Qed.
Lemma close_r c b w : exists t, posix_close e (Reading c b, w) = ((Closed, mkWorld (files w) t), Ok tt).
Proof. cbn. rewrite reliable. eexists; reflexivity. Qed.
Lemma close_w n w : exists t, posix_close e (Writing n, w) = ((Closed, mkWorld (files w) t), Ok tt).
Proof. cbn. rewrite reliable. eexists; reflexivity. Qed.
Lemma has_more_calm c w : exists t, posix_has_more e (Reading c false, w) = ((Reading c false, mkWorld (files w) t), Ok (match c with [] => false | _ => true end)).
Proof. cbn. rewrite reliable. eexists; reflexivity. Qed.
Lemma read_calm d c b n w : Z.of_nat (length d) = n -> exists t, posix_read e n (Reading (d ++ c) b, w) = ((Reading c b, mkWorld (files w) t), Ok d).
Proof.
  intros <-. cbn. rewrite reliable. rewrite app_length. destruct (Z.leb_spec (Z.of_nat (length d)) (Z.of_nat (length d + length c))); [|lia].
  rewrite Nat2Z.id, skipn_app, skipn_all, Nat.sub_diag, firstn_app, firstn_all, Nat.sub_diag. cbn. rewrite app_nil_r. eexists; reflexivity.
Qed.
Lemma read_short c b n w : Z.of_nat (length c) < n -> exists t, posix_read e n (Reading c b, w) = ((Reading [] b, mkWorld (files w) t), Err Internal).
Proof. intros L. cbn. rewrite reliable. destruct (Z.leb_spec n (Z.of_nat (length c))); [lia|]. eexists; reflexivity. Qed.
Lemma write_calm n d w : exists t, posix_write e d (Writing n, w) = ((Writing n, mkWorld (upd (files w) n (Some (content w n ++ d))) t), Ok tt).
Proof. cbn. rewrite reliable. eexists; reflexivity. Qed.
Lemma record_write_calm n d w : Z.of_nat (length d) < 2 ^ 31 ->
  exists t, record_write e d (Writing n, w) = ((Writing n, mkWorld (upd (files w) n (Some (content w n ++ frame d))) t), Ok tt).
Proof. intros L. unfold record_write. destruct (Z.leb_spec (2 ^ 31) (Z.of_nat (length d))); [lia|]. apply write_calm. Qed.

(** the length prefix *)
Lemma varint_value_varint : forall fuel n, 0 <= n < 128 ^ (Z.of_nat fuel + 1) -> varint_value (varint fuel n) = Some n.
Proof.
  induction fuel as [|f IH]; intros n B; cbn [varint].
  - cbn. change (128 ^ (Z.of_nat 0 + 1)) with 128 in B. destruct (Z.ltb_spec n 128); auto; lia.
  - destruct (Z.ltb_spec n 128) as [L|L]. { cbn. destruct (Z.ltb_spec n 128); auto; lia. }
    cbn [varint_value]. pose proof (Z.mod_pos_bound n 128 ltac:(lia)) as MB.
    destruct (Z.ltb_spec (n mod 128 + 128) 128); [lia|]. rewrite IH.
    + f_equal. pose proof (Z.div_mod n 128 ltac:(lia)). lia.
    + split. apply Z.div_pos; lia. replace (Z.of_nat (S f) + 1) with (Z.of_nat f + 1 + 1) in B by lia.
      rewrite Z.pow_add_r in B by lia. change (128 ^ 1) with 128 in B. apply Z.div_lt_upper_bound; lia.
Qed.
(** all bytes but the last have the top bit *)
Inductive prefix_ok : bytes -> Prop :=
| prefix_last b : b < 128 -> prefix_ok [b]
| prefix_more b r : 128 <= b -> prefix_ok r -> prefix_ok (b :: r).
Lemma varint_prefix_ok : forall fuel n, 0 <= n < 128 ^ (Z.of_nat fuel + 1) -> prefix_ok (varint fuel n) /\ (length (varint fuel n) <= S fuel)%nat.
Proof.
  induction fuel as [|f IH]; intros n B; cbn [varint].
  - change (128 ^ (Z.of_nat 0 + 1)) with 128 in B. split; [constructor; lia|auto].
  - destruct (Z.ltb_spec n 128). { split; [constructor; lia|cbn; lia]. }
    pose proof (Z.mod_pos_bound n 128 ltac:(lia)) as MB.
    destruct (IH (n / 128)) as [A L].
    + split. apply Z.div_pos; lia. replace (Z.of_nat (S f) + 1) with (Z.of_nat f + 1 + 1) in B by lia.
      rewrite Z.pow_add_r in B by lia. change (128 ^ 1) with 128 in B. apply Z.div_lt_upper_bound; lia.
    + split. constructor; [lia|auto]. cbn; lia.
Qed.
Lemma extract_loop_ok : forall bs, prefix_ok bs -> forall k acc c w, (length bs <= k)%nat ->
  exists t, extract_loop e k acc true (Reading (bs ++ c) false, w) = ((Reading c false, mkWorld (files w) t), Ok (acc ++ bs)).
Proof.
  induction 1 as [b B|b r B P IH]; intros k acc c w L; (destruct k as [|k]; [cbn in L; lia|]); cbn [extract_loop].
  - destruct (read_calm [b] c false 1 w eq_refl) as [t X]. rewrite (sbind_run _ _ _ _ _ X). rewrite last_last.
    destruct (Z.ltb_spec b 128); [|lia]. eexists; reflexivity.
  - destruct (read_calm [b] (r ++ c) false 1 w eq_refl) as [t X]. cbn [app] in X |- *. rewrite (sbind_run _ _ _ _ _ X). rewrite last_last.
    destruct (Z.ltb_spec b 128); [lia|].
    destruct k as [|k]. { inversion P; subst; cbn in L; lia. }
    destruct (has_more_calm (r ++ c) (mkWorld (files w) t)) as [t1 X1]. rewrite (sbind_run _ _ _ _ _ X1).
    replace (match r ++ c with [] => false | _ => true end) with true by (inversion P; reflexivity).
    destruct (IH (S k) (acc ++ [b]) c (mkWorld (files w) t1)) as [t2 X2]. { cbn in L |- *; lia. }
    cbn [files] in *. rewrite X2, <- app_assoc. eexists; reflexivity.
Qed.
Lemma record_read_frame d c w : Z.of_nat (length d) < 2 ^ 32 ->
  exists t, record_read e (Reading (frame d ++ c) false, w) = ((Reading c false, mkWorld (files w) t), Ok d).
Proof.
  intros L. unfold record_read, extract_varint32, frame. set (n := Z.of_nat (length d)) in *.
  assert (0 <= n < 128 ^ (Z.of_nat 4 + 1)) as B. { split; [lia|]. change (128 ^ (Z.of_nat 4 + 1)) with (2 ^ 35). lia. }
  destruct (varint_prefix_ok 4 n B) as [P PL]. rewrite <- app_assoc.
  destruct (has_more_calm (varint 4 n ++ d ++ c) w) as [t1 X1].
  replace (match varint 4 n ++ d ++ c with [] => false | _ => true end) with true in X1
    by (destruct (varint 4 n); [inversion P|reflexivity]).
  destruct (extract_loop_ok _ P 5 [] (d ++ c) (mkWorld (files w) t1)) as [t2 X2]; [lia|]. cbn [files app] in X2.
  destruct (read_calm d c false n (mkWorld (files w) t2) eq_refl) as [t3 X3]. cbn [files] in X3.
  exists t3. unfold sbind at 1 2 3. rewrite X1, X2. cbn [sret]. unfold read_varint32. rewrite varint_value_varint by auto.
  rewrite Z.mod_small by lia. exact X3.
Qed.
End Calm.

(** ** the bytes of a record file *)
Definition file_of (recs : list bytes) : bytes := flat_map frame recs.
Lemma file_of_app a b : file_of (a ++ b) = file_of a ++ file_of b. Proof. apply flat_map_app. Qed.
Lemma frame_nonempty d : frame d <> [].
Proof. unfold frame. cbn [varint]. destruct (Z.of_nat (length d) <? 128); discriminate. Qed.


Lemma name_eqb_refl n : name_eqb n n = true.
Proof. unfold name_eqb. destruct (list_eq_dec Z.eq_dec n n); congruence. Qed.
Lemma name_eqb_neq a b : a <> b -> name_eqb a b = false.
Proof. unfold name_eqb. destruct (list_eq_dec Z.eq_dec a b); congruence. Qed.
Lemma upd_eq fs n c : upd fs n c n = c. Proof. unfold upd. rewrite name_eqb_refl. auto. Qed.
Lemma upd_neq fs n c m : m <> n -> upd fs n c m = fs m. Proof. intros. unfold upd. rewrite name_eqb_neq; auto. Qed.

(** the writer appends *)
Lemma record_write_Ok e n d w h' w' u : record_write e d (Writing n, w) = ((h', w'), Ok u) ->
  h' = Writing n /\ short d /\ files w' = upd (files w) n (Some (content w n ++ frame d)).
Proof.
  unfold record_write, short. destruct (Z.leb_spec (2 ^ 31) (Z.of_nat (length d))) as [L|L]; [discriminate|].
  cbn. destruct (fault e (tick w)); intros X; inversion X; subst. auto.
Qed.
Lemma each_write_Ok {T} e (ser : T -> bytes) n : forall l w h' w' u, each (fun t => record_write e (ser t)) l (Writing n, w) = ((h', w'), Ok u) ->
  h' = Writing n /\ Forall short (map ser l) /\ (forall c, files w n = Some c -> files w' n = Some (c ++ file_of (map ser l))) /\
  (forall m, m <> n -> files w' m = files w m).
Proof.
  induction l as [|x l IH]; intros w h' w' u X; cbn [each] in X.
  - inversion X; subst. split; [auto|split; [constructor|split; [|auto]]]. intros c Y. cbn. rewrite app_nil_r; auto.
  - apply sbind_Ok in X as ([h1 w1] & [] & X1 & X2). apply record_write_Ok in X1 as (-> & S & F).
    apply IH in X2 as (-> & SS & A & B). split; [auto|split; [cbn [map]; constructor; auto|split]].
    + intros c Y. rewrite (A (c ++ frame (ser x))). { cbn [map]. unfold file_of. cbn [flat_map]. rewrite app_assoc. auto. }
      rewrite F, upd_eq. unfold content. rewrite Y. auto.
    + intros m N. rewrite B, F, upd_neq; auto.
Qed.
Lemma each_write_calm {T} e (ser : T -> bytes) n : (forall k, fault e k = None) -> forall l w, Forall short (map ser l) ->
  exists w', each (fun t => record_write e (ser t)) l (Writing n, w) = ((Writing n, w'), Ok tt).
Proof.
  intros RE. induction l as [|x l IH]; intros w S; cbn [each].
  - eexists; reflexivity.
  - cbn [map] in S. inversion S; subst. destruct (record_write_calm e RE n (ser x) w) as [t X]; [auto|].
    rewrite (sbind_run _ _ _ _ _ X). apply IH; auto.
Qed.
Lemma close_Ok e h w h' w' u : posix_close e (h, w) = ((h', w'), Ok u) -> h' = Closed /\ files w' = files w.
Proof. cbn. destruct h; try discriminate; destruct (fault e (tick w)); intros X; inversion X; subst; auto. Qed.
Lemma open_w_Ok e n h w h' w' u : posix_open e n W (h, w) = ((h', w'), Ok u) -> h' = Writing n /\ files w' = upd (files w) n (Some []).
Proof. cbn. destruct h; try discriminate; destruct (fault e (tick w)); intros X; inversion X; subst; auto. Qed.
Lemma open_r_Ok e n h w h' w' u : posix_open e n R (h, w) = ((h', w'), Ok u) -> exists c, files w n = Some c /\ h' = Reading c false /\ files w' = files w.
Proof.
  cbn. destruct h; try discriminate; destruct (fault e (tick w)); try discriminate. destruct (files w n) eqn:X; try discriminate.
  intros Y; inversion Y; subst; eauto.
Qed.

(** the reader takes off frames *)
Lemma read_all_file e : (forall k, fault e k = None) -> forall recs fuel w, Forall short recs -> (length (file_of recs) < fuel)%nat ->
  exists t, read_all e fuel (match file_of recs with [] => false | _ => true end) (Reading (file_of recs) false, w)
            = ((Reading [] false, mkWorld (files w) t), Ok recs).
Proof.
  intros RE. induction recs as [|d recs IH]; intros fuel w S L.
  - cbn. destruct fuel; destruct w as [fs t]; exists t; reflexivity.
  - inversion S; subst. unfold file_of in L |- *. cbn [flat_map] in L |- *. fold (file_of recs) in L |- *.
    rewrite app_length in L. pose proof (frame_nonempty d) as FN.
    assert ((match frame d ++ file_of recs with [] => false | _ => true end) = true) as -> by (destruct (frame d); auto; congruence).
    destruct fuel as [|fuel]; [lia|]. cbn [read_all].
    destruct (record_read_frame e RE d (file_of recs) w) as [t1 X1]; [unfold short in *; lia|].
    rewrite (sbind_run _ _ _ _ _ X1). destruct (has_more_calm e RE (file_of recs) (mkWorld (files w) t1)) as [t2 X2].
    rewrite (sbind_run _ _ _ _ _ X2).
    destruct (IH fuel (mkWorld (files w) t2)) as [t3 X3]; auto. { destruct (frame d); [congruence|cbn in L; lia]. }
    cbn [files] in *. rewrite (sbind_run _ _ _ _ _ X3). eexists; reflexivity.
Qed.
