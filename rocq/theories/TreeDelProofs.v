(** * Proofs about InsertWithDeletions. *)
Require Import List Arith Lia ZArith Permutation Bool Sorted.
Import ListNotations.
From Verif Require Import Prelude TreeModel TreeSpec TreeIndex TreeProofs TreeHistory TreeDelModel TreeDelSpec.

Lemma NoDup_app_disj {T} (l1 l2 : list T) : NoDup l1 -> NoDup l2 ->
  (forall k, In k l1 -> ~ In k l2) -> NoDup (l1 ++ l2).
Proof.
  intros N1 N2. induction l1 as [|k l IH]; intros DJ; simpl; auto. inversion N1; subst. constructor.
  - rewrite in_app_iff. intros [H|H]; [contradiction|]. apply (DJ k); simpl; auto.
  - apply IH; auto. intros k' Hk'. apply DJ. right; auto.
Qed.

Lemma net_app x l1 l2 : net x (l1 ++ l2) = (net x l1 + net x l2)%Z.
Proof.
  unfold net. rewrite filter_app, map_app, fold_right_app.
  assert (G : forall l a, fold_right Z.add a l = (fold_right Z.add 0 l + a)%Z).
  { induction l; intros a'; simpl; [|rewrite IHl]; lia. }
  apply G.
Qed.
Lemma net_cons x e l : net x (e :: l) = ((if Z.eqb (fst e) x then snd e else 0) + net x l)%Z.
Proof. unfold net. simpl. destruct (Z.eqb (fst e) x); simpl; lia. Qed.
Lemma net_perm x l l' : Permutation l l' -> net x l = net x l'.
Proof. induction 1; rewrite ?net_cons; lia. Qed.

Lemma insert_entry_perm x l : Permutation (insert_entry x l) (x :: l).
Proof. induction l as [|y l IH]; simpl; auto. destruct (entry_leb x y); auto. rewrite IH. apply perm_swap. Qed.
Lemma sort_entries_perm l : Permutation (sort_entries l) l.
Proof. induction l; simpl; auto. rewrite insert_entry_perm. auto. Qed.

Definition key_le (a b : entry) : Prop := (fst a <= fst b)%Z.
Lemma insert_entry_sorted x l : StronglySorted key_le l -> StronglySorted key_le (insert_entry x l).
Proof.
  induction 1 as [|y l S IH F]; simpl; [repeat constructor|].
  assert (Q1 : (fst x <= fst y)%Z -> StronglySorted key_le (x :: y :: l)).
  { intros H. constructor; [constructor; auto|]. constructor; [exact H|].
    eapply Forall_impl; [|exact F]. unfold key_le; simpl; lia. }
  assert (Q2 : (fst y <= fst x)%Z -> StronglySorted key_le (y :: insert_entry x l)).
  { intros H. constructor; auto. eapply Permutation_Forall; [symmetry; apply insert_entry_perm|]. constructor; auto. }
  unfold entry_leb. destruct (Z.ltb_spec (fst x) (fst y)); simpl; [apply Q1; lia|].
  destruct (Z.eqb_spec (fst x) (fst y)); simpl; [|apply Q2; lia].
  destruct (snd x <=? snd y)%Z; [apply Q1|apply Q2]; lia.
Qed.
Lemma sort_entries_sorted l : StronglySorted key_le (sort_entries l).
Proof. induction l; simpl; [constructor|]. apply insert_entry_sorted; auto. Qed.

Lemma net_emit x e v : net x (emit e v) = if Z.eqb e x then v else 0%Z.
Proof.
  unfold emit. destruct (Z.eqb_spec v 0); rewrite ?net_cons; simpl; destruct (Z.eqb e x); simpl; unfold net; simpl; lia.
Qed.
Lemma merge_run_net x l : forall cur val, net x (merge_run cur val l) = net x ((cur, val) :: l).
Proof.
  induction l as [|[e p] l IH]; intros cur val; simpl merge_run.
  - rewrite net_emit, net_cons. simpl. unfold net; simpl. lia.
  - destruct (Z.eqb_spec e cur) as [->|N].
    + rewrite IH, !net_cons. simpl. destruct (Z.eqb cur x); lia.
    + rewrite net_app, IH, net_emit, !net_cons. simpl. lia.
Qed.
Lemma merge_sorted_net x l : net x (merge_sorted l) = net x l.
Proof. destruct l as [|[e p] l]; auto. apply merge_run_net. Qed.

Lemma merge_run_keys l : forall cur val y, In y (merge_run cur val l) ->
  (fst y = cur \/ exists z, In z l /\ fst z = fst y) /\ snd y <> 0%Z.
Proof.
  assert (EM : forall cur val y, In y (emit cur val) -> fst y = cur /\ snd y <> 0%Z).
  { intros cur val y. unfold emit. destruct (Z.eqb_spec val 0); simpl; [tauto|]. intros [<-|[]]. auto. }
  induction l as [|[e p] l IH]; intros cur val y H; simpl in H.
  - apply EM in H as [-> H]. auto.
  - destruct (Z.eqb_spec e cur) as [->|N].
    + apply IH in H as [[H|(z & Hz & E)] H']; split; auto. right. exists z. simpl; auto.
    + apply in_app_or in H as [H|H].
      * apply EM in H as [-> H]. auto.
      * apply IH in H as [[H|(z & Hz & E)] H']; split; auto.
        -- right. exists (e, p). simpl; auto.
        -- right. exists z. simpl; auto.
Qed.
Lemma merge_run_NoDup l : forall cur val,
  StronglySorted key_le l -> Forall (fun z => (cur <= fst z)%Z) l -> NoDup (map fst (merge_run cur val l)).
Proof.
  assert (EM : forall cur val, NoDup (map fst (emit cur val))).
  { intros. unfold emit. destruct (val =? 0)%Z; simpl; repeat constructor. simpl; tauto. }
  induction l as [|[e p] l IH]; intros cur val S F; simpl.
  - apply EM.
  - inversion S; subst. inversion F; subst. simpl in *. destruct (Z.eqb_spec e cur) as [->|N].
    + apply IH; auto.
    + rewrite map_app. assert (NoDup (map fst (merge_run e p l))).
      { apply IH; auto. }
      unfold emit. destruct (Z.eqb_spec val 0); simpl; auto. constructor; auto.
      intro I. apply in_map_iff in I as (y & E & I). apply merge_run_keys in I as [[I|(z & Hz & I)] _].
      * lia.
      * rewrite Forall_forall in H2. specialize (H2 z Hz). unfold key_le in H2. simpl in H2. lia.
Qed.
Lemma merge_bucket_spec b :
  (forall x, net x (merge_bucket b) = net x b) /\
  NoDup (map fst (merge_bucket b)) /\
  Forall (fun y => snd y <> 0%Z) (merge_bucket b) /\
  (forall y, In y (merge_bucket b) -> exists z, In z b /\ fst z = fst y).
Proof.
  unfold merge_bucket. pose proof (sort_entries_perm (rev b)) as P.
  pose proof (sort_entries_sorted (rev b)) as S. set (l := sort_entries (rev b)) in *.
  split.
  { intros x. rewrite (net_perm x _ (merge_sorted l)) by (symmetry; apply Permutation_rev).
    rewrite merge_sorted_net. apply net_perm. rewrite P. symmetry. apply Permutation_rev. }
  assert (K : forall y, In y (merge_sorted l) -> (exists z, In z l /\ fst z = fst y) /\ snd y <> 0%Z).
  { intros y. unfold merge_sorted. destruct l as [|[e p] l']; [simpl; tauto|].
    intros H. apply merge_run_keys in H as [[H|(z & Hz & H)] H']; split; auto.
    - exists (e, p). simpl; auto. - exists z. simpl; auto. }
  split.
  { rewrite map_rev. apply NoDup_rev. unfold merge_sorted. destruct l as [|[e p] l']; [constructor|].
    inversion S; subst. apply merge_run_NoDup; auto. }
  split.
  { apply Forall_forall. intros y Hy. apply in_rev in Hy. apply K; auto. }
  intros y Hy. apply in_rev in Hy. apply K in Hy as [(z & Hz & E) _]. exists z. split; auto.
  apply (Permutation_in _ P) in Hz. apply in_rev; auto.
Qed.

Lemma net_concat_merge x bs : net x (concat (map merge_bucket bs)) = net x (concat bs).
Proof.
  induction bs; simpl; auto. rewrite !net_app, IHbs. destruct (merge_bucket_spec a) as [-> _]. auto.
Qed.

Section H.
Variable hash : Z -> list bool.
Notation hashe := (hash_entry hash).
Notation nodeAt := (@nodeAt entry).

Lemma insert_one_del_spec d e leaf ns ns' st lost :
  long_enough hashe d -> 2 ^ d <= leaf < 2 ^ (d + 1) -> length ns = 2 ^ (d + 1) ->
  insert_one_del hash d e leaf ns = (ns', (st, lost)) ->
  length ns' = length ns /\
  (forall u, node_cap (nodeAt ns' u) = node_cap (nodeAt ns u)) /\
  (forall u, ~ In u (path_up leaf) -> nodeAt ns' u = nodeAt ns u) /\
  (forall x, net x (stored ns' ++ lost) = net x (e :: stored ns)) /\
  (placed hashe d ns -> placed hashe d ns') /\
  (caps_ok ns -> caps_ok ns') /\
  (st <= d <-> lost <> []) /\
  (* C12: what is left on the path *)
  (let on_path := flat_map (fun u => elems (nodeAt ns' u)) (path_up leaf) in
   Forall (fun y => snd y <> 0%Z) (on_path ++ lost) /\ NoDup (map fst (on_path ++ lost))
   /\ (forall x, net x (on_path ++ lost) = net x (e :: flat_map (fun u => elems (nodeAt ns u)) (path_up leaf)))).
Proof.
  intros HL Hleaf Hlen E. unfold insert_one_del in E.
  set (path := path_up leaf) in *.
  set (key := fun x : entry => steps_of (compute_index d (hashe x)) leaf).
  assert (Kle : forall x, key x <= d).
  { intros x. apply steps_of_le; auto. apply compute_index_bounds. apply HL. }
  assert (Kfst : forall x y, fst x = fst y -> key x = key y).
  { intros x y Hxy. unfold key, hash_entry. rewrite Hxy. auto. }
  assert (ND : NoDup path) by (apply (path_up_NoDup d); auto).
  assert (R : forall u, In u path -> u < length ns).
  { intros u Hu. rewrite Hlen. apply (path_up_lt d leaf); auto. }
  set (es := gather_elems ns e path) in *.
  unfold bucketize in E.
  destruct (bucket_fold key es (repeat [] (d + 2))) as (B & BL & BP).
  { intros i x Hx. exfalso. assert (HN : forall n i, nth i (repeat (@nil entry) n) [] = []).
    { induction n; intros [|j]; simpl; auto. } rewrite HN in Hx. inversion Hx. }
  { intros x _. rewrite repeat_length. specialize (Kle x). lia. }
  change (fun bs x => push (steps_of (compute_index d (hashe x)) leaf) x bs)
    with (fun bs x => push (key x) x bs) in E.
  set (bs0 := fold_left (fun bs x => push (key x) x bs) es (repeat [] (d + 2))) in *.
  set (bs := map merge_bucket bs0) in *.
  assert (NTH : forall i, nth i bs [] = merge_bucket (nth i bs0 [])).
  { intros i. unfold bs. change (@nil entry) with (merge_bucket []) at 1. apply map_nth. }
  assert (B' : bucket_ok key 0 bs).
  { intros i y Hy. rewrite NTH in Hy.
    destruct (merge_bucket_spec (nth i bs0 [])) as (_ & _ & _ & MK). apply MK in Hy as (z & Hz & Ez).
    rewrite <- (Kfst z y Ez). apply B. auto. }
  destruct (fill_path path 0 0 bs (clear_path path ns)) as [ns1 [st1 bs1]] eqn:F.
  inversion E; subst ns1 st1. clear E.
  destruct (fill_path_spec key path 0 0 bs (clear_path path ns) ns' st bs1 F B' ND) as (L & O & C & K & CA & P & B1 & SL & FIN).
  { intros u Hu. rewrite clear_path_length. auto. }
  destruct (clear_path_spec path ns ND R) as [CN CP].
  rewrite clear_path_length in L.
  assert (CC : concat (repeat (@nil entry) (d + 2)) = []).
  { clear. induction (d + 2); auto. }
  rewrite CC, app_nil_r in BP. rewrite repeat_length in BL.
  assert (BL' : length bs = d + 2) by (unfold bs; rewrite map_length; auto).
  assert (Hpl : length path = d + 2) by (apply path_up_length; auto).
  assert (GP : Permutation es (e :: flat_map (fun u => elems (nodeAt ns u)) path)).
  { apply gather_perm; auto. apply (path_up_0 d); auto. }
  split; auto. split.
  { intros u. rewrite C, CN. destruct (in_dec Nat.eq_dec u path); auto. }
  split.
  { intros u Hu. rewrite O by auto. rewrite CN. destruct (in_dec Nat.eq_dec u path); auto. contradiction. }
  split.
  { intros x. rewrite (net_perm x _ _ P), net_app. unfold bs. rewrite net_concat_merge.
    rewrite (net_perm x _ _ BP), (net_perm x _ _ GP), !net_cons.
    rewrite <- (net_perm x _ _ CP), net_app. lia. }
  split.
  { intros PL v x Hx. destruct (in_dec Nat.eq_dec v path) as [Hv|Hv].
    - apply (In_nth _ _ 0) in Hv as (k & Hk & <-). destruct (K k Hk) as (t & K1 & K2).
      rewrite K1 in Hx. rewrite CN in Hx.
      destruct (in_dec Nat.eq_dec (nth k path 0) path) as [_|N]; [|exfalso; apply N, nth_In; auto].
      simpl in Hx. rewrite Forall_forall in K2. specialize (K2 x Hx). simpl in K2.
      apply steps_of_spec in K2. exists k. rewrite K2. unfold path. apply (path_up_nth d); auto. lia.
    - rewrite O in Hx by auto. rewrite CN in Hx. destruct (in_dec Nat.eq_dec v path); [contradiction|]. auto. }
  split.
  { intros CO v. rewrite C. apply CA. rewrite CN. destruct (in_dec Nat.eq_dec v path); auto. simpl. lia. }
  rewrite Nat.add_0_l, BL' in SL.
  assert (Hpne : path <> []) by (intros Z; rewrite Z in Hpl; simpl in Hpl; lia).
  specialize (FIN Hpne).
  split.
  { split.
    { intros Hst. destruct FIN as [->|[FIN|(b & r & -> & Hb)]].
      - simpl in SL. lia.
      - lia.
      - simpl. destruct b; [congruence|]. discriminate. }
    { intros Hne. destruct (le_lt_dec st d) as [|Hgt]; auto. exfalso. apply Hne.
      destruct bs1 as [|b [|b2 r]]; auto; simpl in SL; [|lia].
      simpl. destruct b as [|x b]; auto. exfalso.
      assert (key x = st + 0) by (apply B1; simpl; auto). specialize (Kle x). lia. } }
  (* everything on the path comes from the merged buckets *)
  cbv zeta.
  assert (PP : Permutation (flat_map (fun u => elems (nodeAt ns' u)) path ++ concat bs1) (concat bs)).
  { destruct (clear_path_spec path ns' ND) as [CN' CP']. { rewrite L. auto. }
    assert (SE : stored (clear_path path ns') = stored (clear_path path ns)).
    { unfold stored. f_equal. apply nth_ext with (node_new 0) (node_new 0).
      { rewrite !clear_path_length; auto. }
      intros i _. fold (nodeAt (clear_path path ns') i). fold (nodeAt (clear_path path ns) i).
      rewrite CN'. rewrite CN. destruct (in_dec Nat.eq_dec i path) as [I|I].
      - unfold node_clear. rewrite C, CN. destruct (in_dec Nat.eq_dec i path); auto.
      - rewrite O by auto. rewrite CN. destruct (in_dec Nat.eq_dec i path); auto. contradiction. }
    rewrite SE in CP'. apply (Permutation_app_inv_l (stored (clear_path path ns))).
    rewrite app_assoc, CP'. exact P. }
  split.
  { eapply Permutation_Forall; [symmetry; exact PP|]. apply Forall_concat. unfold bs.
    apply Forall_forall. intros b Hb. apply in_map_iff in Hb as (b0 & <- & _). apply merge_bucket_spec. }
  split.
  { eapply Permutation_NoDup; [apply Permutation_map; symmetry; exact PP|].
    (* keys of different buckets differ *)
    clear - B' NTH Kfst. assert (NB : forall i, NoDup (map fst (nth i bs []))).
    { intros i. rewrite NTH. apply merge_bucket_spec. }
    clear NTH. revert B' NB. generalize 0 at 1. clear -Kfst. revert bs. intros bs; induction bs as [|b bs IH]; intros s B NB; simpl.
    - constructor.
    - rewrite map_app.
      assert (N1 : NoDup (map fst b)) by (apply (NB 0)).
      assert (N2 : NoDup (map fst (concat bs))).
      { apply (IH (S s)). { intros i x Hx. rewrite (B (S i) x) by exact Hx. lia. } intros i. apply (NB (S i)). }
      assert (DJ : forall k, In k (map fst b) -> ~ In k (map fst (concat bs))).
      { intros k Hk Hk'. apply in_map_iff in Hk as (x & <- & Hx). apply in_map_iff in Hk' as (y & Ey & Hy).
        apply in_concat in Hy as (b' & Hb' & Hy). apply (In_nth _ _ []) in Hb' as (i & _ & <-).
        pose proof (B 0 x Hx) as E1. pose proof (B (S i) y Hy) as E2.
        rewrite (Kfst y x Ey) in E2. lia. }
      apply NoDup_app_disj; auto. }
  intros x. rewrite (net_perm x _ _ PP). unfold bs. rewrite net_concat_merge.
  rewrite (net_perm x _ _ BP). apply net_perm; auto.
Qed.

Lemma insert_loop_del_spec d es : forall leaves ns,
  length leaves = length es ->
  long_enough hashe d -> length ns = 2 ^ (d + 1) ->
  (forall l, In l leaves -> 2 ^ d <= l < 2 ^ (d + 1)) ->
  let ns' := insert_loop_del hash d es leaves ns in
  length ns' = length ns /\
  (forall u, node_cap (nodeAt ns' u) = node_cap (nodeAt ns u)) /\
  (forall u, (forall l, In l leaves -> ~ In u (path_up l)) -> nodeAt ns' u = nodeAt ns u) /\
  (forall x, net x (stored ns' ++ insert_del_lost hash d es leaves ns) = net x (es ++ stored ns)) /\
  (placed hashe d ns -> placed hashe d ns') /\
  (caps_ok ns -> caps_ok ns') /\
  (insert_loop_del_dbg hash d es leaves ns =
     if insert_del_lost hash d es leaves ns then Ok ns' else Abort).
Proof.
  induction es as [|e es IH]; intros [|l leaves] ns Hlen HL Hn HR; simpl in Hlen; try lia; simpl.
  - repeat split; auto. intros x. rewrite app_nil_r. auto.
  - destruct (insert_one_del hash d e l ns) as [ns1 [st lost]] eqn:E.
    destruct (insert_one_del_spec d e l ns ns1 st lost HL (HR l (or_introl eq_refl)) Hn E)
      as (I1 & I2 & I2b & I3 & I4 & I5 & I6 & _).
    destruct (IH leaves ns1) as (J1 & J2 & J2b & J3 & J4 & J5 & J6); auto; try lia.
    { intros l' Hl'. apply HR. right; auto. }
    simpl fst. split; [congruence|]. split; [intros u; rewrite J2; auto|].
    split. { intros u Hu. rewrite J2b by (intros; apply Hu; auto). apply I2b, Hu. auto. }
    split.
    { intros x. specialize (I3 x). specialize (J3 x). rewrite ?net_app, ?net_cons, ?net_app in *. lia. }
    split; auto. split; auto.
    destruct (Nat.leb_spec st d) as [Hs|Hs].
    + apply I6 in Hs. destruct lost; [congruence|]. reflexivity.
    + destruct lost as [|y lost]. { simpl. exact J6. }
      exfalso. assert (st <= d) by (apply I6; discriminate). lia.
Qed.

Definition lost_by_del (es : list entry) (hsh : list (list bool)) (t : tree entry) : list entry :=
  let t1 := grow (length es) t in
  insert_del_lost hash (t_depth t1) es (path_leaves (t_depth t1) hsh) (t_nodes t1).

Lemma insert_del_spec es hsh t t' out :
  wf hashe t -> length hsh = length es ->
  let d := t_depth (grow (length es) t) in
  (forall x : entry, d <= length (hashe x)) -> (forall h, In h hsh -> d <= length h) ->
  insert_del hash es hsh t = (t', out) ->
  wf hashe t' /\ t_depth t' = d /\ t_actual t' = t_actual t + length es /\
  t_stash_size t' = t_stash_size t /\ t_node_size t' = t_node_size t /\
  (forall x, net x (contents t' ++ lost_by_del es hsh t) = net x (es ++ contents t)) /\
  out = map (fun i => node_copy (nodeAt (t_nodes t') i)) (path_indices d hsh) /\
  (forall u, ~ In u (path_indices d hsh) -> elems (nodeAt (t_nodes t') u) = elems (nodeAt (t_nodes t) u)) /\
  insert_del_dbg hash es hsh t = if lost_by_del es hsh t then Ok (t', out) else Abort.
Proof.
  intros W Hlen d HL HH E.
  destruct (grow_spec hashe (length es) t) as (G1 & G2 & G3 & G4 & G5 & G6 & G7 & G7b & G8).
  fold d in G1, G2, G3, G8. specialize (G8 W HL). destruct G8 as [L C CO P]. fold d in L, P.
  set (t1 := grow (length es) t) in *.
  destruct (insert_loop_del_spec d es (path_leaves d hsh) (t_nodes t1)) as (I1 & I2 & I2b & I3 & I4 & I5 & I6); auto.
  { unfold path_leaves. rewrite map_length. auto. }
  { apply path_leaves_range; auto. }
  unfold insert_del, finish_insert in E. fold t1 in E. fold d in E. inversion E; subst t' out. clear E.
  split.
  { constructor; simpl.
    - rewrite I1. fold d. auto.
    - intros v Hv. rewrite I2. rewrite I1 in Hv. apply C; auto.
    - auto.
    - auto. }
  simpl. split; auto. split; auto. split; auto. split; auto. split.
  { intros x. unfold contents, lost_by_del. simpl. fold t1. fold d. fold (stored (t_nodes t)).
    change (flat_map elems ?x) with (stored x). rewrite <- G7. apply I3. }
  split; auto. split.
  { intros u Hu. rewrite I2b; auto. intros l Hl Hin. apply Hu. unfold path_indices.
    apply (extract_path_indices_spec d). { apply path_leaves_range; auto. }
    exists l. split; auto. apply (path_up_In d) in Hin; auto. eapply path_leaves_range; eauto. }
  unfold insert_del_dbg, lost_by_del. fold t1. fold d. rewrite I6.
  destruct (insert_del_lost hash d es (path_leaves d hsh) (t_nodes t1)); reflexivity.
Qed.

Lemma reach_step_del t n b t' out :
  (forall x, length (hash x) = 256) -> reach hashe t n -> valid_batch b ->
  int_range (n + length (fst b)) -> insert_del hash (fst b) (snd b) t = (t', out) ->
  let d := t_depth (grow (length (fst b)) t) in
  d < 30 /\
  reach hashe t' (n + length (fst b)) /\
  t_depth t' = d /\ t_stash_size t' = t_stash_size t /\ t_node_size t' = t_node_size t /\
  (forall x, net x (contents t' ++ lost_by_del (fst b) (snd b) t) = net x (fst b ++ contents t)) /\
  out = map (fun i => node_copy (nodeAt (t_nodes t') i)) (path_indices d (snd b)) /\
  (forall u, ~ In u (path_indices d (snd b)) -> elems (nodeAt (t_nodes t') u) = elems (nodeAt (t_nodes t) u)) /\
  insert_del_dbg hash (fst b) (snd b) t = if lost_by_del (fst b) (snd b) t then Ok (t', out) else Abort.
Proof.
  intros HH [W RA RL RM] [V1 V2] IR E d.
  destruct (grow_spec hashe (length (fst b)) t) as (G1 & G2 & G3 & G4 & _).
  fold d in G1, G2, G3. rewrite RA in *. rewrite Nat.add_comm in G2, G3.
  assert (DM : d = 0 \/ 2 ^ d <= n + length (fst b)).
  { destruct G3 as [G3|G3]; auto. rewrite G3. destruct RM; auto. right. lia. }
  pose proof (depth_bound _ _ DM IR) as DB.
  destruct (insert_del_spec (fst b) (snd b) t t' out) as (I1 & I2 & I3 & I4 & I5 & I6 & I7 & I8 & I9); auto.
  { intros x. unfold hash_entry. rewrite HH. fold d. lia. }
  { intros h Hh. rewrite Forall_forall in V2. rewrite (V2 h Hh). fold d. lia. }
  fold d in I2, I7, I8. split; auto. split.
  { constructor; auto; rewrite ?I2; auto. rewrite I3, RA. auto. }
  do 6 (split; [auto|]). auto.
Qed.

Lemma run_del_release_reach bs : forall t n,
  (forall x, length (hash x) = 256) -> reach hashe t n -> Forall valid_batch bs ->
  int_range (n + length (history_elems bs)) ->
  let t' := run_del_release hash bs t in
  reach hashe t' (n + length (history_elems bs)) /\ t_stash_size t' = t_stash_size t /\ t_node_size t' = t_node_size t.
Proof.
  induction bs as [|b bs IH]; intros t n HH R V IR.
  - cbn. rewrite Nat.add_0_r. auto.
  - change (history_elems (b :: bs)) with (fst b ++ history_elems bs) in *.
    inversion V; subst. assert (IR1 : int_range (n + length (fst b))).
    { unfold int_range in *. rewrite app_length in IR. lia. }
    destruct (insert_del hash (fst b) (snd b) t) as [t1 out] eqn:EI.
    destruct (reach_step_del t n b t1 out HH R H1 IR1 EI) as (_ & R1 & D1 & S1 & N1 & _).
    unfold run_del_release. cbn [fold_left]. rewrite EI. cbn [fst]. fold (run_del_release hash bs t1).
    destruct (IH t1 _ HH R1 H2) as (R2 & S2 & N2).
    { unfold int_range in *. rewrite app_length in IR. lia. }
    rewrite app_length, Nat.add_assoc. split; auto. split; congruence.
Qed.

Lemma run_del_debug_spec bs : forall t n t',
  (forall x, length (hash x) = 256) -> reach hashe t n -> Forall valid_batch bs ->
  int_range (n + length (history_elems bs)) ->
  run_del_debug hash bs t = Ok t' ->
  run_del_release hash bs t = t' /\
  (forall x, net x (contents t') = net x (history_elems bs) + net x (contents t))%Z.
Proof.
  induction bs as [|b bs IH]; intros t n t' HH R V IR E; cbn [run_del_debug] in *.
  - inversion E; subst. cbn. auto.
  - change (history_elems (b :: bs)) with (fst b ++ history_elems bs) in *.
    inversion V; subst. apply obind_Ok in E as ([t1 out] & E1 & E2). simpl in E2.
    assert (IR1 : int_range (n + length (fst b))).
    { unfold int_range in *. rewrite app_length in IR. lia. }
    destruct (insert_del hash (fst b) (snd b) t) as [t1' out'] eqn:EI.
    destruct (reach_step_del t n b t1' out' HH R H1 IR1 EI) as (_ & R1 & D1 & S1 & N1 & P1 & _ & _ & DBG).
    rewrite DBG in E1. destruct (lost_by_del (fst b) (snd b) t) eqn:EL; [|discriminate].
    inversion E1; subst t1' out'. 
    destruct (IH t1 _ t' HH R1 H2) as (RR & P2); auto.
    { unfold int_range in *. rewrite app_length in IR. lia. }
    split. { unfold run_del_release in *. cbn [fold_left]. rewrite EI. exact RR. }
    intros x. rewrite P2. specialize (P1 x). rewrite !net_app in *. unfold net in P1 at 2. simpl in P1. lia.
Qed.

Lemma sum_perm (l l' : list Z) : Permutation l l' -> fold_right Z.add 0%Z l = fold_right Z.add 0%Z l'.
Proof. intros P. induction P; simpl; lia. Qed.

Lemma NoDup_app_left {X} (l l' : list X) : NoDup (l ++ l') -> NoDup l.
Proof.
  induction l as [|x l IH]; simpl; intros H; [constructor|]. inversion H as [|? ? H1 H2]; subst.
  constructor; auto. intro Hx. apply H1. apply in_or_app; auto.
Qed.

Lemma signed_updates s n days t :
  (forall x, length (hash x) = 256) -> Forall valid_batch days ->
  int_range (length (history_elems days)) ->
  run_del_debug hash days (tree_new s n) = Ok t ->
  t_actual t = length (history_elems days) /\
  run_del_release hash days (tree_new s n) = t /\
  forall x, net x (contents t) = net x (history_elems days)
    /\ net x (get_path (hash x) t) = net x (history_elems days).
Proof.
  intros HH V IR E.
  destruct (run_del_debug_spec days (tree_new s n) 0 t HH (reach_new hashe s n) V IR E) as (RR & P).
  destruct (run_del_release_reach days (tree_new s n) 0 HH (reach_new hashe s n) V IR) as (R & _).
  rewrite RR in R. split; [apply (r_actual _ _ _ R)|]. split; auto. intros x.
  assert (E1 : net x (contents t) = net x (history_elems days)).
  { rewrite P. change (contents (tree_new s n)) with (@nil entry). unfold net at 2. simpl. lia. }
  split; auto. rewrite <- E1. unfold net.
  apply sum_perm. apply Permutation_map.
  apply (placed_filter_path hashe).
  - apply R.
  - intros y. unfold hash_entry. rewrite HH. pose proof (depth_bound _ _ (r_min _ _ _ R) IR). lia.
  - intros y Hy. apply Z.eqb_eq in Hy. unfold hash_entry. congruence.
Qed.

Lemma del_capacities s n days v :
  (forall x, length (hash x) = 256) -> Forall valid_batch days ->
  int_range (length (history_elems days)) ->
  let t := run_del_release hash days (tree_new s n) in
  v < length (t_nodes t) ->
  length (elems (nth v (t_nodes t) (node_new 0))) <= (if v =? 0 then s else n).
Proof.
  intros HH V R t Hv.
  destruct (run_del_release_reach days (tree_new s n) 0 HH (reach_new hashe s n) V R) as (R' & S & N).
  fold t in R', S, N. destruct R' as [[_ C CO _] _ _ _].
  pose proof (CO v) as H. rewrite (C v Hv) in H. unfold cap_at in H. rewrite S, N in H. exact H.
Qed.

(** one insertion along the path given by [h] into a reachable tree *)
Lemma cancelled_vanish s n days (e : entry) (h : list bool) :
  (forall x, length (hash x) = 256) -> Forall valid_batch days -> length h = 256 ->
  int_range (length (history_elems days) + 1) ->
  let t := run_del_release hash days (tree_new s n) in
  let t' := fst (insert_del hash [e] [h] t) in
  Forall (fun y => snd y <> 0%Z) (get_path h t')
  /\ NoDup (map fst (get_path h t'))
  /\ (forall x, net x (e :: get_path h (grow 1 t)) = 0%Z -> ~ In x (map fst (get_path h t'))).
Proof.
  intros HH V Hh IR t t'.
  destruct (run_del_release_reach days (tree_new s n) 0 HH (reach_new hashe s n) V) as (R & S & N).
  { unfold int_range in *. simpl. lia. }
  fold t in R, S, N.
  set (d := t_depth (grow 1 t)).
  destruct (grow_spec hashe 1 t) as (G1 & G2 & G3 & G4 & G5 & G6 & G7 & G7b & G8). fold d in G1, G2, G3, G8.
  pose proof R as [W RA RL RM]. rewrite RA in *. simpl in RA, RL, RM, G2, G3.
  assert (DB : d < 30).
  { apply (depth_bound _ (length (history_elems days) + 1)); auto.
    destruct G3 as [->|G3]; [|right; lia]. destruct RM; [auto|right; lia]. }
  assert (HL : forall x : entry, d <= length (hashe x)) by (intros x; unfold hash_entry; rewrite HH; lia).
  specialize (G8 W HL). destruct G8 as [L C CO P]. fold d in L.
  destruct (insert_one_del hash d e (compute_index d h) (t_nodes (grow 1 t))) as [ns1 [st lost]] eqn:E.
  destruct (insert_one_del_spec d e (compute_index d h) (t_nodes (grow 1 t)) ns1 st lost HL) as (_ & _ & _ & _ & _ & _ & _ & Q1 & Q2 & Q3); auto.
  { apply compute_index_bounds. lia. }
  assert (EP : get_path h t' = flat_map (fun u => elems (nodeAt ns1 u)) (path_up (compute_index d h))).
  { unfold t', insert_del, finish_insert, get_path. cbn [fst t_depth t_nodes length]. fold d.
    cbn [path_leaves map insert_loop_del]. rewrite E. reflexivity. }
  rewrite EP. rewrite map_app in Q2. apply Forall_app in Q1 as [Q1 _].
  split; auto.
  assert (ND : NoDup (map fst (flat_map (fun u => elems (nodeAt ns1 u)) (path_up (compute_index d h))))).
  { exact (NoDup_app_left _ _ Q2). }
  split; auto.
  intros x Hx Hin. specialize (Q3 x). unfold get_path in Hx. fold d in Hx.
  rewrite Hx in Q3. rewrite <- map_app in Q2.
  apply in_map_iff in Hin as (y & <- & Hy).
  assert (Hy' : In y (flat_map (fun u => elems (nodeAt ns1 u)) (path_up (compute_index d h)) ++ lost)) by (apply in_or_app; auto).
  rewrite Forall_forall in Q1. specialize (Q1 y Hy). apply Q1.
  clear -Q2 Q3 Hy'. revert Q2 Q3 Hy'. generalize (flat_map (fun u => elems (nodeAt ns1 u)) (path_up (compute_index d h)) ++ lost).
  intros l. induction l as [|z l IH]; simpl; intros ND E Hy; [tauto|]. inversion ND; subst.
  rewrite net_cons in E. destruct Hy as [->|Hy].
  - rewrite Z.eqb_refl in E. assert (NZ : net (fst y) l = 0%Z); [|lia].
    unfold net. replace (filter (fun e => (fst e =? fst y)%Z) l) with (@nil entry); auto.
    symmetry. clear -H1. induction l as [|w l IH]; simpl; auto. simpl in H1.
    destruct (Z.eqb_spec (fst w) (fst y)); [exfalso; apply H1; auto|]. apply IH. tauto.
  - apply IH; auto. destruct (Z.eqb_spec (fst z) (fst y)) as [Ez|Ez]; [|lia].
    exfalso. apply H1. rewrite Ez. apply in_map. auto.
Qed.
Lemma overflow_deletions s n (days : list (@batch entry)) (b : @batch entry) :
    (forall x, length (hash x) = 256) ->
    Forall valid_batch (days ++ [b]) ->
    int_range (length (history_elems (days ++ [b]))) ->
    let t := run_del_release hash days (tree_new s n) in
    let r := insert_del hash (fst b) (snd b) t in
    exists lost,
      (forall x, (net x (contents (fst r)) + net x lost = net x (fst b) + net x (contents t))%Z)
      /\ (insert_del_dbg hash (fst b) (snd b) t = Abort <-> lost <> [])
      /\ (lost = [] -> insert_del_dbg hash (fst b) (snd b) t = Ok r).
Proof.
  intros HH V R t r. apply Forall_app in V as [V VB]. inversion VB as [|? ? VB1 _]; subst.
  unfold history_elems in R. rewrite flat_map_app in R. simpl in R. rewrite app_nil_r, app_length in R.
  destruct (run_del_release_reach days (tree_new s n) 0 HH (reach_new hashe s n) V) as (R0 & _).
  { unfold int_range in *. eapply Z.le_lt_trans; [|exact R]. apply inj_le. apply Nat.le_add_r. }
  fold t in R0. simpl in R0. destruct r as [t1 out] eqn:E. unfold r in E.
  destruct (reach_step_del t _ b t1 out HH R0 VB1 R E) as (_ & _ & _ & _ & _ & P & _ & _ & DBG).
  exists (lost_by_del (fst b) (snd b) t).
  split. { intros x. specialize (P x). rewrite !net_app in P. exact P. }
  rewrite DBG.
  destruct (lost_by_del (fst b) (snd b) t); split; try split; auto; try congruence; intros; discriminate.
Qed.
End H.
