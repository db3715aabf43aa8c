(** * The sharding writer without I/O failures. *)
Require Import List Arith Lia ZArith Bool Permutation Sorted.
Import ListNotations.
From Verif Require Import Prelude BytesModel CsvModel CsvProofs FileModel FileSpec RecordModel FileProofs RecordProofs RecordRun.
Local Open Scope Z_scope.

Lemma dec_nat_injective a b : 0 <= a -> 0 <= b -> dec_nat a = dec_nat b -> a = b.
Proof. intros A B E. destruct (dec_nat_ok a A) as (_ & _ & X). destruct (dec_nat_ok b B) as (_ & _ & Y). rewrite E in X. congruence. Qed.
Lemma shard_name_injective p a b : 0 <= a -> 0 <= b -> shard_name p a = shard_name p b -> a = b.
Proof. intros A B E. apply app_inv_head in E. apply dec_nat_injective; auto. Qed.
Lemma shard_name_neq p a : 0 <= a -> shard_name p a <> p.
Proof.
  intros A E. destruct (dec_nat_ok a A) as (_ & N & _). unfold shard_name in E. apply N.
  apply (app_inv_head p). rewrite app_nil_r. exact E.
Qed.
Definition shard_names (p : bytes) (n : nat) : list bytes := map (fun i => shard_name p (Z.of_nat i)) (seq 0 n).
Lemma shard_names_S p n : shard_names p (S n) = shard_names p n ++ [shard_name p (Z.of_nat n)].
Proof. unfold shard_names. rewrite seq_S, map_app. reflexivity. Qed.
Lemma shard_names_next p n m : (n <= m)%nat -> ~ In (shard_name p (Z.of_nat m)) (shard_names p n).
Proof.
  intros L I. apply in_map_iff in I as (i & E & J). apply in_seq in J. apply shard_name_injective in E; lia.
Qed.
Lemma shard_names_neq p n : ~ In p (shard_names p n).
Proof. intros I. apply in_map_iff in I as (i & E & _). apply shard_name_neq in E; auto. lia. Qed.
Lemma shard_names_NoDup p n : NoDup (shard_names p n).
Proof.
  induction n; [constructor|]. rewrite shard_names_S. apply NoDup_rev in IHn. rewrite <- (rev_involutive (_ ++ _)). apply NoDup_rev.
  rewrite rev_app_distr. cbn. constructor; auto. rewrite <- in_rev. apply shard_names_next. auto.
Qed.

Section Keyed.
Context {K : Type} (ltb : K -> K -> bool) (key : bytes -> K).
Context (e : env).
Hypothesis RE : reliable e.

Definition state_of (p : bytes) (max : Z) (groups : list (list bytes)) (cache : list bytes) (b : Z) : sharder :=
  mkSharder Closed p max cache b (Z.of_nat (length groups)) (shard_name p (Z.of_nat (length groups)))
            (shard_names p (length groups)) true true.
Record stored (p : bytes) (w0 w : world) (groups : list (list bytes)) : Prop := {
  st_files : Forall2 (fun n g => files w n = Some (file_of (key_sort ltb key g))) (shard_names p (length groups)) groups;
  st_short : Forall (Forall short) groups;
  st_ne : Forall (fun g => g <> []) groups;
  st_same : same_except (shard_names p (length groups)) w0 w
}.
Lemma set_handle_id s : set_handle (sw_handle s) s = s. Proof. destruct s; reflexivity. Qed.
Lemma write_shard_calm n : forall l s w, sw_handle s = Writing n ->
  match write_shard e l (s, w) with
  | ((s', w'), Ok _) => s' = s /\ Forall short l /\ (forall c, files w n = Some c -> files w' n = Some (c ++ file_of l)) /\ same_except [n] w w'
  | (_, UB) => ~ Forall short l
  | _ => False
  end.
Proof.
  induction l as [|d l IH]; intros s w HH; cbn [write_shard].
  - cbn. split; auto. split; auto. split; [|red; auto]. intros c X. rewrite app_nil_r; auto.
  - unfold sbind at 1, scatch, on_writer. rewrite HH. unfold record_write.
    destruct (Z.leb_spec (2 ^ 31) (Z.of_nat (length d))) as [L|L].
    { cbn. intros F. inversion F; subst. unfold short in *. lia. }
    destruct (write_calm e RE n (frame d) w) as [t X]. rewrite X. rewrite <- HH, set_handle_id.
    specialize (IH s (mkWorld (upd (files w) n (Some (content w n ++ frame d))) t) HH).
    destruct (write_shard e l _) as [[s1 w1] [u|c| |]]; auto.
    + destruct IH as (-> & F & A & S). split; auto. split; [constructor; auto|]. split.
      * intros c X1. unfold file_of. cbn [flat_map]. rewrite app_assoc. apply A. cbn [files]. rewrite upd_eq. unfold content. rewrite X1. auto.
      * intros k NK. rewrite S by auto. cbn [files]. apply upd_neq. intros ->. apply NK; left; auto.
    + intros F. apply IH. inversion F; auto.
Qed.
Lemma Forall2_files {A} (c : A -> bytes) w w' ns (l : list A) : Forall2 (fun n g => files w n = Some (c g)) ns l ->
  (forall k, In k ns -> files w' k = files w k) -> Forall2 (fun n g => files w' n = Some (c g)) ns l.
Proof. induction 1; intros F; constructor; [rewrite F; [auto|left; auto]|apply IHForall2; intros; apply F; right; auto]. Qed.
Lemma write_cache_calm p max groups cache b w0 w : stored p w0 w groups ->
  match write_cache_to_file e ltb key (state_of p max groups cache b, w) with
  | ((s', w'), Ok _) => (cache = [] /\ s' = state_of p max groups cache b /\ w' = w) \/
                        (cache <> [] /\ Forall short cache /\ s' = state_of p max (groups ++ [cache]) [] 0 /\ stored p w0 w' (groups ++ [cache]))
  | (_, UB) => ~ (Forall short cache /\ Z.of_nat (length groups) + 1 < 2 ^ 31)
  | _ => False
  end.
Proof.
  intros ST. unfold write_cache_to_file. cbn [state_of sw_healthy sw_cache negb].
  destruct cache as [|d cache]; [left; auto|]. set (c := d :: cache) in *.
  set (n := length groups). set (nm := shard_name p (Z.of_nat n)).
  unfold sbind at 1, scatch, on_writer at 1. cbn [set_cache state_of sw_handle sw_name].
  destruct (open_w e RE nm w) as [t1 X1]. fold n. fold nm. rewrite X1. cbv beta iota.
  unfold sbind at 1. cbv beta iota. match goal with |- context[write_shard e _ (?s, _)] => set (s1 := s) end.
  pose proof (write_shard_calm nm (key_sort ltb key c) s1 (mkWorld (upd (files w) nm (Some [])) t1) eq_refl) as WS.
  destruct (write_shard e (key_sort ltb key c) _) as [[s2 w2] [u|er| |]]; try tauto.
  2:{ intros [F _]. apply WS. rewrite key_sort_perm. exact F. }
  destruct WS as (-> & F & A & S). unfold sbind at 1, on_writer at 1. destruct (close_w e RE nm w2) as [t3 X3]. cbv beta iota. change (sw_handle s1) with (Writing nm). rewrite X3. unfold s1.
  cbv beta iota. cbn [sw_idx set_handle sw_prefix sw_max sw_shards sw_name sw_healthy sw_open].
  cbn [set_cache state_of sw_idx sw_handle sw_prefix sw_max sw_shards sw_name sw_healthy sw_open set_handle]. fold n. fold nm.
  destruct (Z.ltb_spec (Z.of_nat n + 1) (2 ^ 31)) as [LT|LT]. 2:{ intros [_ Q]. unfold n in LT. lia. }
  right. split; [discriminate|]. split; [rewrite <- (key_sort_perm ltb key c); exact F|].
  destruct ST as [SF SS SN SE]. split.
  - unfold state_of. rewrite app_length. cbn [length]. fold n. replace (n + 1)%nat with (Datatypes.S n) by lia. rewrite shard_names_S.
    rewrite Nat2Z.inj_succ. unfold Z.succ. reflexivity.
  - assert (files w2 nm = Some (file_of (key_sort ltb key c))) as FN. { rewrite (A []); auto. cbn [files]. apply upd_eq. }
    assert (forall k, k <> nm -> files w2 k = files w k) as FO.
    { intros k NK. rewrite S by (intros [<-|[]]; congruence). cbn [files]. apply upd_neq; auto. }
    constructor; cbn [files].
    + rewrite app_length. cbn [length]. replace (length groups + 1)%nat with (Datatypes.S n) by (unfold n; lia). rewrite shard_names_S.
      apply Forall2_app; [|repeat constructor; auto].
      fold n in SF. assert (forall k, In k (shard_names p n) -> k <> nm) as NI by (intros k I ->; revert I; apply shard_names_next; lia).
      eapply Forall2_files; [exact SF|]. intros k I. apply FO. apply NI; auto.
    + rewrite Forall_app. split; auto. constructor; auto. rewrite <- (key_sort_perm ltb key c). exact F.
    + rewrite Forall_app. split; auto. repeat constructor. discriminate.
    + rewrite app_length. cbn [length]. replace (length groups + 1)%nat with (Datatypes.S n) by (unfold n; lia). rewrite shard_names_S.
      intros k NK. cbn [files]. rewrite FO. { apply SE. intros I; apply NK, in_app_iff; auto. } intros ->. apply NK, in_app_iff; right; left; auto.
Qed.
Lemma groups_length groups : Forall (fun g : list bytes => g <> []) groups -> (length groups <= length (concat groups))%nat.
Proof. induction 1; cbn; auto. rewrite app_length. destruct x; [congruence|cbn; lia]. Qed.
Lemma shard_write_calm p max groups cache b w0 w d : stored p w0 w groups ->
  match shard_write e ltb key d (state_of p max groups cache b, w) with
  | ((s', w'), Ok _) => exists groups' cache' b', s' = state_of p max groups' cache' b' /\ stored p w0 w' groups' /\
                        concat groups' ++ cache' = concat groups ++ cache ++ [d]
  | (_, UB) => ~ (Forall short cache /\ Z.of_nat (length groups) + 1 < 2 ^ 31)
  | _ => False
  end.
Proof.
  intros ST. unfold shard_write. cbn [state_of sw_open sw_healthy negb]. unfold sbind at 1. cbv beta iota.
  change (sw_max (state_of p max groups cache b) <? sw_bytes (state_of p max groups cache b)) with (max <? b).
  destruct (max <? b).
  - pose proof (write_cache_calm p max groups cache b w0 w ST) as WC.
    destruct (write_cache_to_file e ltb key _) as [[s1 w1] [u|c| |]]; try tauto.
    destruct WC as [(-> & -> & ->)|(NE & F & -> & ST1)].
    + exists groups, [d], (wrap32 (b + Z.of_nat (length d))). split; [reflexivity|]. auto.
    + exists (groups ++ [cache]), [d], (wrap32 (0 + Z.of_nat (length d))). split; [reflexivity|]. split; auto.
      rewrite concat_app. cbn. rewrite app_nil_r, app_assoc. auto.
  - exists groups, (cache ++ [d]), (wrap32 (b + Z.of_nat (length d))). split; [reflexivity|]. auto.
Qed.
Definition fits (l : list bytes) : Prop := Forall short l /\ Z.of_nat (length l) + 1 < 2 ^ 31.
Lemma shard_writes_calm p max w0 : forall l groups cache b w, stored p w0 w groups ->
  match each (shard_write e ltb key) l (state_of p max groups cache b, w) with
  | ((s', w'), Ok _) => exists groups' cache' b', s' = state_of p max groups' cache' b' /\ stored p w0 w' groups' /\
                        concat groups' ++ cache' = (concat groups ++ cache) ++ l
  | (_, UB) => ~ fits ((concat groups ++ cache) ++ l)
  | _ => False
  end.
Proof.
  induction l as [|d l IH]; intros groups cache b w ST; cbn [each].
  - cbn. exists groups, cache, b. rewrite app_nil_r. auto.
  - unfold sbind at 1. pose proof (shard_write_calm p max groups cache b w0 w d ST) as W.
    destruct (shard_write e ltb key d _) as [[s1 w1] [u|c| |]]; try tauto.
    + destruct W as (groups1 & cache1 & b1 & -> & ST1 & E1). specialize (IH groups1 cache1 b1 w1 ST1).
      assert ((concat groups1 ++ cache1) ++ l = (concat groups ++ cache) ++ d :: l) as EE.
      { rewrite E1, <- !app_assoc. reflexivity. }
      destruct (each (shard_write e ltb key) l _) as [[s2 w2] [u2|c| |]]; try tauto.
      * destruct IH as (groups2 & cache2 & b2 & -> & ST2 & E2). exists groups2, cache2, b2. split; auto. split; auto. congruence.
      * rewrite <- EE. exact IH.
    + intros [F L]. apply W. rewrite !Forall_app in F. split; [tauto|]. pose proof (groups_length _ (st_ne _ _ _ _ ST)). rewrite !app_length in L. lia.
Qed.
Lemma stored_nil p w : stored p w w [].
Proof. constructor; cbn; auto. red; auto. Qed.
Lemma state_of_new p max : set_shard_prefix p (sharder_new max) = state_of p max [] [] 0. Proof. reflexivity. Qed.
Lemma state_of_prefix p max g c b : set_shard_prefix p (state_of p max g c b) = state_of p max g c b. Proof. reflexivity. Qed.
Lemma shard_close_calm p max groups cache b w0 w : stored p w0 w groups ->
  match shard_close e ltb key (state_of p max groups cache b, w) with
  | ((s', w'), Ok shards) => sw_handle s' = Closed /\ s' = sharder_new max /\ exists groups', shards = shard_names p (length groups') /\ stored p w0 w' groups' /\ concat groups' = concat groups ++ cache
  | (_, UB) => ~ fits (concat groups ++ cache)
  | _ => False
  end.
Proof.
  intros ST. unfold shard_close. cbn [state_of sw_open negb]. pose proof (write_cache_calm p max groups cache b w0 w ST) as WC.
  destruct (write_cache_to_file e ltb key _) as [[s1 w1] [u|c| |]]; try tauto.
  - destruct WC as [(-> & -> & ->)|(NE & F & -> & ST1)].
    + split; [reflexivity|]. split; [reflexivity|]. exists groups. split; [reflexivity|]. rewrite app_nil_r. auto.
    + split; [reflexivity|]. split; [reflexivity|]. exists (groups ++ [cache]). split; [reflexivity|]. rewrite concat_app. cbn. rewrite app_nil_r. auto.
  - intros [F L]. apply WC. rewrite !Forall_app in F. split; [tauto|]. pose proof (groups_length _ (st_ne _ _ _ _ ST)). rewrite !app_length in L. lia.
Qed.
End Keyed.
