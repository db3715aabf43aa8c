(** * ProcessRecordFile. *)
Require Import List Arith Lia ZArith Bool Permutation Sorted.
Import ListNotations.
From Verif Require Import Prelude BytesModel CsvModel CsvProofs FileModel FileSpec RecordModel FileProofs RecordProofs RecordRun RecordShard PropsFile PropsRecord ProcessThreads.
Local Open Scope Z_scope.

Section Process.
Context {I T : Type} (parse : bytes -> I) (f : I -> outcome T) (ser : T -> bytes) (key : bytes -> bytes).
Context (chunk_size threads : nat).

Definition gives (x : I) (y : T) : Prop := f x = Ok y.
Lemma work_Ok : forall l ys, fst (work f l) = Ok ys -> Forall2 gives l ys /\ snd (work f l) = l.
Proof.
  induction l as [|x l IH]; intros ys X; cbn [work] in *. { cbn in X. inversion X. split; [constructor|auto]. }
  unfold gives. destruct (f x) as [y|c| |] eqn:F; cbn [fst snd] in *; try discriminate.
  destruct (fst (work f l)) as [zs|c| |]; try discriminate. inversion X; subst. destruct (IH zs eq_refl) as [A B]. rewrite B. split; auto.
Qed.
Lemma Ok_work : forall l ys, Forall2 gives l ys -> fst (work f l) = Ok ys.
Proof. induction 1 as [|x y l ys X F IH]; [reflexivity|]. cbn [work]. unfold gives in X. rewrite X. cbn [fst]. rewrite IH. reflexivity. Qed.
Lemma work_Err : forall l c, fst (work f l) = Err c -> exists a x b ys, l = a ++ x :: b /\ Forall2 gives a ys /\ f x = Err c.
Proof.
  induction l as [|x l IH]; intros c X; cbn [work] in *; [discriminate|].
  destruct (f x) as [y|d| |] eqn:F; cbn [fst] in X; try discriminate.
  - destruct (fst (work f l)) as [zs|d| |] eqn:W; try discriminate. inversion X; subst. destruct (IH c eq_refl) as (a & x1 & b & ys & -> & A & B).
    exists (x :: a), x1, b, (y :: ys). split; auto.
  - inversion X; subst. exists [], x, l, []. split; auto.
Qed.
Lemma work_prefix l : exists r, l = snd (work f l) ++ r.
Proof.
  induction l as [|x l [r IH]]; cbn [work]. { exists []. reflexivity. }
  destruct (f x); cbn [snd]; try (exists l; reflexivity). exists r. cbn. congruence.
Qed.
Lemma work_returned : (forall x, returned (f x)) -> forall l, returned (fst (work f l)).
Proof.
  intros R. induction l as [|x l IH]; cbn [work]; [exact Logic.I|]. specialize (R x). destruct (f x); cbn in R |- *; auto; try tauto.
  destruct (fst (work f l)); auto.
Qed.
Lemma work_slices g (js : list nat) yss : map (fun j => fst (work f (g j))) js = map Ok yss ->
  Forall2 gives (concat (map g js)) (concat yss) /\ concat (map (fun j => snd (work f (g j))) js) = concat (map g js).
Proof.
  revert yss. induction js as [|j js IH]; intros [|ys yss] X; cbn [map concat] in *; try discriminate.
  - split; constructor.
  - inversion X as [[A B]]. destruct (IH yss B) as [C D]. destruct (work_Ok _ _ A) as [E F]. rewrite D, F. split; auto. apply Forall2_app; auto.
Qed.
Lemma calls_prefix g (js : list nat) : exists rest, Permutation (concat (map (fun j => snd (work f (g j))) js) ++ rest) (concat (map g js)).
Proof.
  induction js as [|j js [r IH]]; cbn [map concat]. { exists []. auto. }
  destruct (work_prefix (g j)) as [r0 E]. exists (r0 ++ r). rewrite E at 2. rewrite <- IH. rewrite <- !app_assoc. apply Permutation_app_head.
  rewrite !app_assoc. apply Permutation_app_tail. apply Permutation_app_comm.
Qed.

Section Run.
Context (e : env).
Hypothesis RE : reliable e.
Context (out : bytes) (max : Z) (w0 : world).
Lemma each_shard_map ys st : each (fun y => shard_write e string_ltb key (ser y)) ys st = each (shard_write e string_ltb key) (map ser ys) st.
Proof.
  revert st. induction ys as [|y ys IH]; intros st; [reflexivity|]. cbn [each map]. unfold sbind. destruct (shard_write e string_ltb key (ser y) st) as [s1 [u|c| |]]; auto.
Qed.
Lemma write_results_calm : forall rs groups cache b w, stored string_ltb key out w0 w groups ->
  match write_results e ser key rs (state_of out max groups cache b, w) with
  | ((s', w'), Ok _) => exists yss groups' cache' b', rs = map Ok yss /\ s' = state_of out max groups' cache' b' /\ stored string_ltb key out w0 w' groups' /\
        concat groups' ++ cache' = (concat groups ++ cache) ++ map ser (concat yss)
  | ((s', w'), Err c) => exists yss r groups' cache' b', rs = map Ok yss ++ Err c :: r /\ s' = state_of out max groups' cache' b' /\ stored string_ltb key out w0 w' groups'
  | (_, UB) => (exists yss r, rs = map Ok yss ++ r /\ ~ fits ((concat groups ++ cache) ++ map ser (concat yss))) \/ In UB rs
  | (_, Abort) => In Abort rs
  end.
Proof.
  unfold write_results. induction rs as [|r rs IH]; intros groups cache b w ST; cbn [each].
  - cbn. exists [], groups, cache, b. cbn. rewrite app_nil_r. auto.
  - unfold sbind at 1. destruct r as [ys|c| |]; cbn [sfail].
    + rewrite each_shard_map. pose proof (shard_writes_calm string_ltb key e RE out max w0 (map ser ys) groups cache b w ST) as W.
      destruct (each (shard_write e string_ltb key) (map ser ys) _) as [[s1 w1] [u|c| |]]; try tauto.
      * destruct W as (g1 & c1 & b1 & -> & ST1 & E1). specialize (IH g1 c1 b1 w1 ST1).
        destruct (each _ rs _) as [[s2 w2] [u2|c| |]].
        -- destruct IH as (yss & g2 & c2 & b2 & -> & -> & ST2 & E2). exists (ys :: yss), g2, c2, b2. split; auto. split; auto. split; auto.
           rewrite E2, E1. cbn [concat]. rewrite map_app, <- !app_assoc. auto.
        -- destruct IH as (yss & r & g2 & c2 & b2 & -> & -> & ST2). exists (ys :: yss), r, g2, c2, b2. auto.
        -- right; auto.
        -- destruct IH as [(yss & r & -> & NF)|IH]; [left|right; right; auto]. exists (ys :: yss), r. split; auto. cbn [concat]. rewrite map_app, app_assoc, <- E1. exact NF.
      * left. exists [ys], rs. split; auto. cbn [concat]. rewrite app_nil_r. auto.
    + exists [], rs, groups, cache, b. auto.
    + left; auto.
    + right; left; auto.
Qed.
Lemma stored_same w w' groups : files w' = files w -> stored string_ltb key out w0 w groups -> stored string_ltb key out w0 w' groups.
Proof. intros E [A B C D]. constructor; auto. - rewrite E; auto. - red. rewrite E. exact D. Qed.
Definition nonempty {A} (l : list A) : bool := match l with [] => false | _ => true end.
Lemma nonempty_file' r : nonempty (file_of r) = nonempty r. Proof. apply nonempty_file. Qed.
Lemma read_chunk_calm : forall n rem w, Forall short rem ->
  exists t, read_chunk e parse n (nonempty rem) (Reading (file_of rem) false, w) =
    ((Reading (file_of (skipn n rem)) false, mkWorld (files w) t), Ok (map parse (firstn n rem), nonempty (skipn n rem))).
Proof.
  induction n as [|n IH]; intros rem w S; cbn [read_chunk].
  - destruct w as [fs t]. exists t. reflexivity.
  - destruct rem as [|d rem]. { destruct w as [fs t]. exists t. cbn. reflexivity. }
    inversion S; subst. cbn [nonempty].
    destruct (record_read_frame e RE d (file_of rem) w) as [t1 X1]. { red in H1. lia. }
    change (file_of (d :: rem)) with (frame d ++ file_of rem). rewrite (sbind_run _ _ _ _ _ X1).
    destruct (has_more_calm e RE (file_of rem) (mkWorld (files w) t1)) as [t2 X2]. rewrite (sbind_run _ _ _ _ _ X2).
    change (match file_of rem with [] => false | _ => true end) with (nonempty (file_of rem)). rewrite nonempty_file'.
    destruct (IH rem (mkWorld (files w) t2)) as [t3 X3]; auto. cbn [files] in *. rewrite (sbind_run _ _ _ _ _ X3). exists t3. reflexivity.
Qed.
Definition failed_at (c : code) (recs : list bytes) : Prop :=
  exists a x b ys, recs = a ++ x :: b /\ Forall2 gives (map parse a) ys /\ f (parse x) = Err c.
Definition too_much (recs : list bytes) : Prop :=
  exists a b ys, recs = a ++ b /\ Forall2 gives (map parse a) ys /\ ~ fits (map ser ys).
Lemma map_app_inv {A B} (g : A -> B) : forall l a b, map g l = a ++ b -> exists a' b', l = a' ++ b' /\ map g a' = a /\ map g b' = b.
Proof.
  induction l as [|x l IH]; intros [|y a] b E; cbn in *; try discriminate.
  - exists [], []. auto.
  - exists [], (x :: l). auto.
  - inversion E as [[E1 E2]]. destruct (IH a b E2) as (a' & b' & -> & <- & <-). exists (x :: a'), b'. auto.
Qed.
Lemma chunk_loop_calm : forall fuel done rem groups cache b ys calls k w, Forall short rem ->
  stored string_ltb key out w0 w groups -> concat groups ++ cache = map ser ys -> Forall2 gives (map parse done) ys ->
  Permutation calls (map parse done) -> (chunk_size <> O -> (length rem < fuel)%nat) ->
  match chunk_loop e parse f ser key chunk_size threads fuel out (nonempty rem) (mkLocals (Reading (file_of rem) false) (state_of out max groups cache b) k calls, w) with
  | ((l', w'), Ok _) => exists groups' cache' b' ys', l_reader l' = Reading [] false /\ l_writer l' = state_of out max groups' cache' b' /\ stored string_ltb key out w0 w' groups' /\
       concat groups' ++ cache' = map ser ys' /\ Forall2 gives (map parse (done ++ rem)) ys' /\ Permutation (l_calls l') (map parse (done ++ rem))
  | ((l', w'), Err c) => failed_at c (done ++ rem) /\ (exists c', l_reader l' = Reading c' false) /\ (exists groups' cache' b', l_writer l' = state_of out max groups' cache' b' /\
       stored string_ltb key out w0 w' groups') /\ exists rest, Permutation (l_calls l' ++ rest) (map parse (done ++ rem))
  | (_, UB) => too_much (done ++ rem) \/ chunk_size = O \/ threads = O \/ ~ (forall x, returned (f x))
  | (_, Abort) => ~ (forall x, returned (f x))
  end.
Proof.
  induction fuel as [|fuel IH]; intros done rem groups cache b ys calls k w SH ST EG FY PC FU.
  { destruct rem as [|d rem]; cbn [chunk_loop nonempty].
    - cbn. exists groups, cache, b, ys. rewrite app_nil_r. split; auto.
    - cbn. right; left. destruct (Nat.eq_dec chunk_size 0) as [Z|NZ]; auto. specialize (FU NZ). cbn in FU. lia. }
  destruct rem as [|d rem]; cbn [chunk_loop nonempty].
  { cbn. exists groups, cache, b, ys. rewrite app_nil_r. split; auto. }
  set (all := d :: rem) in *. destruct (read_chunk_calm chunk_size all w SH) as [t1 X1].
  unfold sbind at 1, in_reader at 1. cbn [l_reader l_writer l_chunk l_calls]. change (nonempty all) with true in X1. rewrite X1. cbn [fst snd].
  destruct (Nat.eqb_spec threads 0) as [Z|NZ]; [cbn; auto|].
  unfold sbind at 1. cbv beta iota. cbn [l_reader l_writer l_chunk l_calls].
  set (chunk := map parse (firstn chunk_size all)) in *. set (sl := slice (per_thread threads chunk) chunk).
  destruct (parallel_spec f threads (sched e k) chunk) as (cs & X2 & PP). rewrite X2. fold sl in X2, PP. fold sl.
  set (rs := map (fun j => fst (work f (sl j))) (seq 0 threads)) in *.
  assert (concat (map sl (seq 0 threads)) = chunk) as CC by (apply slices_all; auto).
  unfold sbind at 1, in_sharder at 1. cbn [l_reader l_writer l_chunk l_calls].
  unfold sbind at 1, set_prefix. rewrite state_of_prefix. cbv beta iota.
  pose proof (write_results_calm rs groups cache b (mkWorld (files w) t1) (stored_same w (mkWorld (files w) t1) groups eq_refl ST)) as WR.
  assert (done ++ all = (done ++ firstn chunk_size all) ++ skipn chunk_size all) as DA by (rewrite <- app_assoc, firstn_skipn; auto).
  assert (map parse (done ++ firstn chunk_size all) = map parse done ++ chunk) as MD by (rewrite map_app; auto).
  destruct (write_results e ser key rs _) as [[s2 w2] [u|c| |]].
  - destruct WR as (yss & g2 & c2 & b2 & ER & -> & ST2 & E2). destruct (work_slices sl (seq 0 threads) yss ER) as [G1 G2].
    rewrite CC in G1, G2. rewrite G2 in PP.
    specialize (IH (done ++ firstn chunk_size all) (skipn chunk_size all) g2 c2 b2 (ys ++ concat yss) (calls ++ cs) (S k) w2).
    rewrite <- DA in IH. rewrite MD in IH. apply IH; auto.
    + rewrite <- (firstn_skipn chunk_size all) in SH. rewrite Forall_app in SH. tauto.
    + rewrite E2, EG, map_app. auto.
    + apply Forall2_app; auto.
    + rewrite PC, PP. auto.
    + intros NC. specialize (FU NC). rewrite skipn_length. subst all. cbn [length] in *. lia.
  - destruct WR as (yss & r & g2 & c2 & b2 & ER & -> & ST2). cbn [l_reader l_writer l_calls].
    apply map_app_inv in ER as (ja & jb & EJ & EA & EB). destruct jb as [|j jb]; [discriminate|]. cbn [map] in EB. inversion EB as [[E1 E3]].
    destruct (work_slices sl ja yss EA) as [G1 _]. destruct (work_Err _ _ E1) as (a & x & z & ys1 & EX & GA & FX).
    split; [|split; [eauto|split; [eauto|]]].
    + assert (map parse (firstn chunk_size all) = (concat (map sl ja) ++ a) ++ x :: z ++ concat (map sl jb)) as EQ.
      { fold chunk. rewrite <- CC, EJ, map_app, concat_app. cbn [map concat]. rewrite EX. rewrite <- !app_assoc. auto. }
      apply map_app_inv in EQ as (a' & b' & EQ & MA & MB). destruct b' as [|x' b']; [discriminate|]. cbn [map] in MB. inversion MB as [[MX MZ]].
      exists (done ++ a'), x', (b' ++ skipn chunk_size all), (ys ++ concat yss ++ ys1). split.
      { rewrite DA, EQ. rewrite <- !app_assoc. auto. } split; [|congruence].
      rewrite map_app, MA. apply Forall2_app; auto. apply Forall2_app; auto.
    + destruct (calls_prefix sl (seq 0 threads)) as [rest PR]. rewrite CC in PR. exists (rest ++ map parse (skipn chunk_size all)).
      rewrite PP, PC. rewrite DA, map_app, MD. rewrite <- PR. rewrite <- !app_assoc. auto.
  - intros R. pose proof (work_returned R) as Q. unfold rs in WR. apply in_map_iff in WR as (j & E1 & _). specialize (Q (sl j)). rewrite E1 in Q. exact Q.
  - destruct WR as [(yss & r & ER & NF)|WR].
    + left. apply map_app_inv in ER as (ja & jb & EJ & EA & EB). destruct (work_slices sl ja yss EA) as [G1 _].
      assert (map parse (firstn chunk_size all) = concat (map sl ja) ++ concat (map sl jb)) as EQ by (fold chunk; rewrite <- CC, EJ, map_app, concat_app; auto).
      apply map_app_inv in EQ as (a' & b' & EQ & MA & MB). exists (done ++ a'), (b' ++ skipn chunk_size all), (ys ++ concat yss).
      split. { rewrite DA, EQ, <- !app_assoc. auto. } split; [rewrite map_app, MA; apply Forall2_app; auto|]. rewrite map_app, <- EG. exact NF.
    + right; right; right. intros R. pose proof (work_returned R) as Q. unfold rs in WR. apply in_map_iff in WR as (j & E1 & _). specialize (Q (sl j)). rewrite E1 in Q. exact Q.
Qed.
End Run.
End Process.
