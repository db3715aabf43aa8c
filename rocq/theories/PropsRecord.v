(** * C45: sharded sort and merge. *)
Require Import List Arith Lia ZArith Bool Permutation Sorted.
Import ListNotations.
From Verif Require Import Prelude BytesModel CsvModel CsvProofs FileModel FileSpec RecordModel FileProofs RecordProofs RecordRun RecordShard PropsFile.
Local Open Scope Z_scope.

(** the file holds exactly these records: whoever reads it afterwards, with or
    without I/O failures, gets them or an error, and gets them without failures *)
Definition holds (w : world) (name : bytes) (l : list bytes) : Prop :=
  forall w', files w' name = files w name ->
  (forall e w'' got, read_protos_from_file e (fun d => d) name w' = (w'', Ok got) -> got = l) /\
  (forall e, reliable e -> exists w'', read_protos_from_file e (fun d => d) name w' = (w'', Ok l)).
(** the records of several threads, those of one thread in its order *)
Inductive interleaving {A} : list (list A) -> list A -> Prop :=
| inter_done ls : Forall (fun l => l = []) ls -> interleaving ls []
| inter_step ls1 x l ls2 r : interleaving (ls1 ++ l :: ls2) r -> interleaving (ls1 ++ (x :: l) :: ls2) (x :: r).
(** the name of a shard: the prefix and a decimal number *)
Definition is_shard (p n : bytes) : Prop := exists i, 0 <= i /\ n = p ++ dec_nat i.

Lemma file_of_holds w name l : Forall short l -> files w name = Some (file_of l) -> holds w name l.
Proof.
  intros S F w' E. rewrite F in E. split.
  - intros e w'' got X. apply read_protos_calm in X.
    destruct (read_protos_file (calm e) (fun d => d) name l w' (calm_reliable e) S E) as [t Y]. rewrite X in Y. rewrite map_id in Y. congruence.
  - intros e RE. destruct (read_protos_file e (fun d => d) name l w' RE S E) as [t Y]. rewrite map_id in Y. eauto.
Qed.
Lemma interleaving_perm {A} (ls : list (list A)) l : interleaving ls l -> Permutation l (concat ls).
Proof.
  induction 1 as [ls F|ls1 x l ls2 r I IH].
  - induction F; cbn; auto. subst. auto.
  - rewrite concat_app. cbn. rewrite concat_app in IH. cbn in IH. rewrite IH. apply Permutation_middle.
Qed.
Lemma shard_names_are p n : Forall (is_shard p) (shard_names p n).
Proof. apply Forall_forall. intros k I. apply in_map_iff in I as (i & <- & _). exists (Z.of_nat i). split; [lia|reflexivity]. Qed.
Lemma sorted_groups {K} (ltb : K -> K -> bool) key : strict_order ltb -> forall groups, Forall (sorted_by ltb key) (map (key_sort ltb key) groups).
Proof. intros SO groups. apply Forall_map, Forall_forall. intros g _. apply key_sort_sorted; auto. Qed.
Lemma concat_groups {K} (ltb : K -> K -> bool) key groups : Permutation (concat (map (key_sort ltb key) groups)) (concat groups).
Proof. induction groups; cbn; auto. apply Permutation_app; auto. apply key_sort_perm. Qed.
Lemma short_groups {K} (ltb : K -> K -> bool) key groups : Forall (Forall short) groups -> Forall (Forall short) (map (key_sort ltb key) groups).
Proof. intros F. apply Forall_map. eapply Forall_impl; [|exact F]. cbn. intros g G. rewrite key_sort_perm. exact G. Qed.
Lemma short_concat groups : Forall (Forall short) groups -> Forall short (concat groups).
Proof. induction 1; cbn; auto. apply Forall_app; auto. Qed.
Lemma stored_files {K} (ltb : K -> K -> bool) key p w0 w groups : stored ltb key p w0 w groups ->
  Forall2 (fun n r => files w n = Some (file_of r)) (shard_names p (length groups)) (map (key_sort ltb key) groups).
Proof. intros [F _ _ _]. induction F; constructor; auto. Qed.

(** C45: whenever writing the records of any threads, in any interleaving, and
    merging the shards succeed, with any cache limit, the output holds a sorted
    permutation of all records.  The shards are named after the prefix, and
    besides them and the output no file changes. *)
Theorem C45_sorted {K} (ltb : K -> K -> bool) (key : bytes -> K) e1 e2 max p ls recs out w s1 w1 s2 w2 shards w2' s3 h3 w3 :
  strict_order ltb -> interleaving ls recs ->
  each (shard_write e1 ltb key) recs (set_shard_prefix p (sharder_new max), w) = ((s1, w1), Ok tt) ->
  shard_close e1 ltb key (s1, w1) = ((s2, w2), Ok shards) ->
  (forall n, In n shards -> files w2' n = files w2 n) -> ~ In out shards ->
  merge e2 ltb key shards out (multi_new, Closed, w2') = ((s3, h3, w3), Ok tt) ->
  exists l, Permutation l (concat ls) /\ sorted_by ltb key l /\ holds w3 out l /\
            NoDup shards /\ Forall (is_shard p) shards /\ (recs <> [] -> shards <> []) /\
            same_except shards w w2 /\ same_except [out] w2' w3.
Proof.
  intros SO IL X1 X2 SF NO X3.
  apply (okle_each _ _ recs (okle_shard_write ltb key e1)) in X1. apply (okle_shard_close ltb key e1) in X2. apply (okle_merge ltb key e2) in X3.
  rewrite state_of_new in X1.
  pose proof (shard_writes_calm ltb key (calm e1) (calm_reliable e1) p max w recs [] [] 0 w (stored_nil ltb key p w)) as A.
  rewrite X1 in A. destruct A as (g1 & c1 & b1 & -> & ST1 & E1). cbn [concat app] in E1.
  pose proof (shard_close_calm ltb key (calm e1) (calm_reliable e1) p max g1 c1 b1 w w1 ST1) as A.
  rewrite X2 in A. destruct A as (_ & _ & groups & -> & ST2 & E2). rewrite E1 in E2.
  destruct (merge_calm ltb key SO (calm e2) (calm_reliable e2) (shard_names p (length groups)) (map (key_sort ltb key) groups) out w2')
    as (outl & w' & X & F & SE & PE & SS); auto.
  - pose proof (stored_files _ _ _ _ _ _ ST2) as Q. apply (Forall2_files (fun r => file_of r) w2 w2'); auto.
  - apply short_groups. apply (st_short _ _ _ _ _ _ ST2).
  - apply sorted_groups; auto.
  - rewrite X in X3. inversion X3; subst. exists outl. split; [rewrite PE, concat_groups, E2; apply interleaving_perm; auto|]. split; [exact SS|]. split.
    { apply file_of_holds; auto. rewrite PE. rewrite concat_groups. apply short_concat. apply (st_short _ _ _ _ _ _ ST2). }
    split; [apply shard_names_NoDup|]. split; [apply shard_names_are|]. split.
    { intros NE EQ. destruct groups; [cbn in E2; congruence|]. cbn in EQ. discriminate. }
    split; [apply (st_same _ _ _ _ _ _ ST2)|auto].
Qed.

Lemma delete_calm e n w : reliable e -> files w n <> None -> exists t, delete_file e n w = (mkWorld (upd (files w) n None) t, Ok tt).
Proof. intros RE X. unfold delete_file. rewrite RE. destruct (files w n); [|congruence]. eexists. reflexivity. Qed.
(** C45: without I/O failures everything succeeds, for records shorter than 2^31
    bytes and fewer than 2^31 of them, and deleting the shards leaves no file but
    the output changed that is not named as a shard. *)
Theorem C45_succeeds {K} (ltb : K -> K -> bool) (key : bytes -> K) e max p recs out w :
  strict_order ltb -> reliable e -> Forall short recs -> Z.of_nat (length recs) + 1 < 2 ^ 31 -> ~ is_shard p out ->
  exists s1 w1 s2 w2 shards s3 h3 w3 w4,
  each (shard_write e ltb key) recs (set_shard_prefix p (sharder_new max), w) = ((s1, w1), Ok tt) /\
  shard_close e ltb key (s1, w1) = ((s2, w2), Ok shards) /\
  merge e ltb key shards out (multi_new, Closed, w2) = ((s3, h3, w3), Ok tt) /\
  delete_shards e shards w3 = (w4, Ok tt) /\
  files w4 out = files w3 out /\ Forall (fun n => files w4 n = None) shards /\ same_except (out :: shards) w w4.
Proof.
  intros SO RE SH LN NO.
  pose proof (shard_writes_calm ltb key e RE p max w recs [] [] 0 w (stored_nil ltb key p w)) as A. rewrite <- state_of_new in A.
  destruct (each (shard_write e ltb key) recs _) as [[s1 w1] [[]|c| |]] eqn:X1; try tauto.
  2:{ exfalso. apply A. split; auto. }
  destruct A as (g1 & c1 & b1 & -> & ST1 & E1). cbn [concat app] in E1.
  pose proof (shard_close_calm ltb key e RE p max g1 c1 b1 w w1 ST1) as A. rewrite E1 in A.
  destruct (shard_close e ltb key _) as [[s2 w2] [shards|c| |]] eqn:X2; try tauto.
  2:{ exfalso. apply A. split; auto. }
  destruct A as (_ & _ & groups & -> & ST2 & E2).
  destruct (merge_calm ltb key SO e RE (shard_names p (length groups)) (map (key_sort ltb key) groups) out w2)
    as (outl & w3 & X3 & F & SE & PE & SS).
  { apply stored_files with (1 := ST2). }
  { intros I. apply NO. pose proof (shard_names_are p (length groups)) as Q. rewrite Forall_forall in Q. auto. }
  { apply short_groups. apply (st_short _ _ _ _ _ _ ST2). }
  { apply sorted_groups; auto. }
  exists (state_of p max g1 c1 b1), w1, s2, w2, (shard_names p (length groups)), multi_new, Closed, w3.
  assert (forall ns w, NoDup ns -> (forall n, In n ns -> files w n <> None) -> exists w', delete_shards e ns w = (w', Ok tt) /\
     Forall (fun n => files w' n = None) ns /\ same_except ns w w') as D.
  { clear - RE. induction ns as [|n ns IH]; intros w ND EX.
    - exists w. split; [reflexivity|]. split; auto. red; auto.
    - unfold delete_shards in *. cbn [each]. destruct (delete_calm e n w RE) as [t X]; [apply EX; left; auto|]. rewrite (sbind_run _ _ _ _ _ X).
      apply NoDup_cons_iff in ND as [NI ND].
      destruct (IH (mkWorld (upd (files w) n None) t) ND) as (w' & Y & FN & SE).
      { intros m I. cbn [files]. rewrite upd_neq; [apply EX; right; auto|]. intros ->. auto. }
      exists w'. split; [exact Y|]. split.
      + constructor; auto. rewrite SE by auto. cbn [files]. apply upd_eq.
      + intros k NK. rewrite SE by (intros I; apply NK; right; auto). cbn [files]. apply upd_neq. intros ->. apply NK; left; auto. }
  assert (forall k, In k (shard_names p (length groups)) -> k <> out) as KO.
  { intros k I ->. apply NO. pose proof (shard_names_are p (length groups)) as Q. rewrite Forall_forall in Q. auto. }
  destruct (D (shard_names p (length groups)) w3) as (w4 & X4 & FN & S4).
  { apply shard_names_NoDup. }
  { intros n I. rewrite SE by (intros [<-|[]]; eapply KO; eauto).
    pose proof (stored_files _ _ _ _ _ _ ST2) as Q. clear - Q I. induction Q; [destruct I|]. destruct I as [<-|I]; auto. congruence. }
  exists w4. split; [reflexivity|]. split; [exact X2|]. split; [exact X3|]. split; [exact X4|]. split.
  { apply S4. intros I. eapply KO; eauto. } split; auto.
  intros k NK. rewrite S4 by (intros I; apply NK; right; auto). rewrite SE by (intros [<-|[]]; apply NK; left; auto).
  apply (st_same _ _ _ _ _ _ ST2). intros I; apply NK; right; auto.
Qed.

(** the two orders the code uses *)
Lemma string_order : strict_order string_ltb.
Proof.
  assert (forall a b : Z, (a <? b) = true -> (b <? a) = false) as AS by (intros; apply Z.ltb_nlt; apply Z.ltb_lt in H; lia).
  constructor.
  - induction a as [|x a IH]; auto. cbn. rewrite Z.ltb_irrefl, Z.eqb_refl, IH. auto.
  - induction a as [|x a IH]; intros [|y b] [|z c]; cbn; auto; try discriminate. rewrite !orb_true_iff, !andb_true_iff, !Z.ltb_lt, !Z.eqb_eq.
    intros [L|[-> L]] [M|[-> M]]; try (left; lia). right. split; auto. eapply IH; eauto.
  - induction a as [|x a IH]; intros [|y b]; cbn; auto; try discriminate. rewrite !orb_false_iff, !andb_false_iff, !Z.ltb_nlt, !Z.eqb_neq.
    intros [L [N|N]] [M [N'|N']]; try lia; f_equal; try lia; auto.
Qed.
Lemma int64_order : strict_order Z.ltb.
Proof.
  constructor; intros.
  - apply Z.ltb_irrefl.
  - rewrite Z.ltb_lt in *. lia.
  - rewrite Z.ltb_nlt in *. lia.
Qed.

(** Five records of two threads with a cache limit of 3 bytes: three shards. *)
Definition ex_p : bytes := [111]. (* "o" *)
Definition ex_threads : list (list bytes) := [[[5;1]; [3;2]; [5;3]]; [[1;4]; [3;5]]].
Definition ex_written : list bytes := [[5;1]; [1;4]; [3;2]; [3;5]; [5;3]].
Example ex_interleaving : interleaving ex_threads ex_written.
Proof.
  apply (inter_step [] [5;1] [[3;2]; [5;3]] [[[1;4]; [3;5]]]). apply (inter_step [[[3;2]; [5;3]]] [1;4] [[3;5]] []).
  apply (inter_step [] [3;2] [[5;3]] [[[3;5]]]). apply (inter_step [[[5;3]]] [3;5] [] []). apply (inter_step [] [5;3] [] [[]]).
  apply inter_done. repeat constructor.
Qed.
Example ex_C45 :
  match each (shard_write ex_env Z.ltb (fun d => nth 0 d 0)) ex_written (set_shard_prefix ex_p (sharder_new 3), ex_fs) with
  | ((s1, w1), Ok _) =>
      match shard_close ex_env Z.ltb (fun d => nth 0 d 0) (s1, w1) with
      | ((_, w2), Ok shards) =>
          match merge ex_env Z.ltb (fun d => nth 0 d 0) shards ex_p (multi_new, Closed, w2) with
          | ((_, _, w3), Ok _) =>
              bytes_list_eqb shards [[111;48]; [111;49]; [111;50]] &&
              match read_protos_from_file ex_env (fun d => d) ex_p w3 with
              | (_, Ok l) => bytes_list_eqb l [[1;4]; [3;2]; [3;5]; [5;3]; [5;1]] | _ => false end
          | _ => false end
      | _ => false end
  | _ => false
  end = true.
Proof. vm_cast_no_check (eq_refl true). Qed.
