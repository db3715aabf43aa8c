(** * Proofs of the statements in PropsTree.v. *)
Require Import List Arith Lia ZArith Permutation Bool Sorted.
Import ListNotations.
From Verif Require Import Prelude TreeModel TreeSpec TreeIndex TreeProofs TreeHistory TreeOverflow.

Lemma insert_conserves (A : Type) (hash : A -> list bool) s n (days : list batch) t :
    (forall x, length (hash x) = 256) ->
    Forall valid_batch days ->
    int_range (length (history_elems days)) ->
    run_debug hash days (tree_new s n) = Ok t ->
    Permutation (contents t) (history_elems days)
    /\ t_actual t = length (history_elems days)
    /\ run_release hash days (tree_new s n) = t.
Proof.
  intros HH V R E.
  destruct (run_debug_spec hash days (tree_new s n) 0 t HH (reach_new hash s n) V R E) as (R' & _ & _ & RR & P).
  split. { rewrite P. change (contents (tree_new s n)) with (@nil A). rewrite app_nil_r. auto. }
  split; auto. apply (r_actual _ _ _ R').
Qed.

Lemma grow_reach (A : Type) (hash : A -> list bool) t n k :
  (forall x, length (hash x) = 256) -> reach hash t n -> int_range (n + k) ->
  wf hash (grow k t) /\ t_depth (grow k t) < 30 /\ contents (grow k t) = contents t.
Proof.
  intros HH [W RA RL RM] IR.
  destruct (grow_spec hash k t) as (G1 & G2 & G3 & G4 & G5 & G6 & G7 & G8 & G9).
  rewrite RA in *.
  assert (t_depth (grow k t) < 30).
  { apply (depth_bound _ (n + k)); auto. destruct G3 as [->|G3]; [|right; lia].
    destruct RM; auto. right; lia. }
  split; auto. apply G9; auto. intros x. rewrite HH. lia.
Qed.

Lemma lookup_complete (A : Type) (hash : A -> list bool) (same : A -> A -> bool)
         s n (days : list batch) (k : nat) (x : A) :
    (forall x, length (hash x) = 256) ->
    (forall x y, same x y = true -> hash y = hash x) ->
    Forall valid_batch days ->
    int_range (length (history_elems days) + k) ->
    let t := run_release hash days (tree_new s n) in
    let t' := grow k t in
    contents t' = contents t
    /\ Permutation (filter (same x) (get_path (hash x) t)) (filter (same x) (contents t))
    /\ Permutation (filter (same x) (get_path (hash x) t')) (filter (same x) (contents t)).
Proof.
  intros HH HS V R t t'.
  destruct (run_release_reach hash days (tree_new s n) 0 HH (reach_new hash s n) V) as (R' & _).
  { unfold int_range in *. simpl. lia. }
  fold t in R'.
  destruct (grow_reach A hash t _ k HH R' R) as (W & DB & C). fold t' in W, DB, C.
  split; auto. split.
  - apply (placed_filter_path hash); [apply R'| |intros y; apply HS].
    intros y. rewrite HH. destruct R' as [_ _ _ RM].
    assert (t_depth t < 30); [|lia]. eapply depth_bound; [exact RM|].
    unfold int_range in *. simpl. lia.
  - rewrite <- C. apply (placed_filter_path hash); [exact W| |intros y; apply HS].
    intros y. rewrite HH. lia.
Qed.

Lemma lookup_finds_inserted (A : Type) (hash : A -> list bool) (same : A -> A -> bool)
         s n (days : list batch) (x : A) t :
    (forall x, length (hash x) = 256) ->
    (forall x y, same x y = true -> hash y = hash x) ->
    Forall valid_batch days ->
    int_range (length (history_elems days)) ->
    run_debug hash days (tree_new s n) = Ok t ->
    Permutation (filter (same x) (get_path (hash x) t)) (filter (same x) (history_elems days)).
Proof.
  intros HH HS V R E. destruct (insert_conserves A hash s n days t HH V R E) as (P & _ & RR).
  destruct (lookup_complete A hash same s n days 0 x HH HS V) as (_ & P' & _).
  { rewrite Nat.add_0_r; auto. }
  rewrite RR in P'. rewrite P'. apply filter_perm; auto.
Qed.

Lemma capacities (A : Type) (hash : A -> list bool) s n (days : list batch) v :
    (forall x, length (hash x) = 256) ->
    Forall valid_batch days ->
    int_range (length (history_elems days)) ->
    let t := run_release hash days (tree_new s n) in
    v < length (t_nodes t) ->
    length (elems (nth v (t_nodes t) (node_new 0))) <= (if v =? 0 then s else n).
Proof.
  intros HH V R t Hv.
  destruct (run_release_reach hash days (tree_new s n) 0 HH (reach_new hash s n) V R) as (R' & S & N & _).
  fold t in R', S, N. destruct R' as [[_ C CO _] _ _ _].
  pose proof (CO v) as H. rewrite (C v Hv) in H. unfold cap_at in H. rewrite S, N in H. exact H.
Qed.

Lemma run_release_snoc (A : Type) (hash : A -> list bool) days b t :
  run_release hash (days ++ [b]) t = fst (insert hash (fst b) (snd b) (run_release hash days t)).
Proof. unfold run_release. rewrite fold_left_app. reflexivity. Qed.

Lemma history_elems_app (A : Type) (d1 d2 : list (@batch A)) :
  history_elems (d1 ++ d2) = history_elems d1 ++ history_elems d2.
Proof. unfold history_elems. apply flat_map_app. Qed.

Lemma reach_days (A : Type) (hash : A -> list bool) s n (days : list batch) (b : batch) :
    (forall x, length (hash x) = 256) ->
    Forall valid_batch (days ++ [b]) ->
    int_range (length (history_elems (days ++ [b]))) ->
    reach hash (run_release hash days (tree_new s n)) (length (history_elems days))
    /\ valid_batch b /\ int_range (length (history_elems days) + length (fst b))
    /\ length (history_elems (days ++ [b])) = length (history_elems days) + length (fst b).
Proof.
  intros HH V R. apply Forall_app in V as [V1 V2]. inversion V2; subst.
  rewrite history_elems_app in *. unfold history_elems at 2 in R. unfold history_elems at 4. simpl in *.
  rewrite app_nil_r, app_length in *.
  split; [|auto]. apply (run_release_reach hash days (tree_new s n) 0); auto.
  apply reach_new. unfold int_range in *. simpl. lia.
Qed.

Lemma growth (A : Type) (hash : A -> list bool) s n (days : list batch) (b : batch) :
    (forall x, length (hash x) = 256) ->
    Forall valid_batch (days ++ [b]) ->
    int_range (length (history_elems (days ++ [b]))) ->
    let t := run_release hash days (tree_new s n) in
    let t' := fst (insert hash (fst b) (snd b) t) in
    let total := length (history_elems (days ++ [b])) in
    t_actual t' = total
    /\ length (t_nodes t') = 2 ^ (t_depth t' + 1)
    /\ total < 2 ^ (t_depth t' + 1)
    /\ t_depth t <= t_depth t'
    /\ (forall d, t_depth t <= d -> total < 2 ^ (d + 1) -> t_depth t' <= d)
    /\ (Z.of_nat (length (t_nodes t')) < 2 ^ 31)%Z.
Proof.
  intros HH V R t t' total.
  destruct (reach_days A hash s n days b HH V R) as (R0 & VB & IR & EL). fold t in R0. fold total in EL.
  destruct (insert hash (fst b) (snd b) t) as [t1 out] eqn:E. simpl in t'. subst t'.
  destruct (reach_step hash t _ b t1 out HH R0 VB IR E) as (DB & R1 & D & _).
  rewrite EL. rewrite D. destruct R1 as [[L _ _ _] RA RL RM]. rewrite D in *.
  destruct (grow_spec hash (length (fst b)) t) as (G1 & _ & G3 & _).
  pose proof (r_actual _ _ _ R0) as RA0. rewrite RA0 in G3.
  split; auto. split; auto. split; auto. split; auto. split.
  - intros d Hd Ht. destruct G3 as [G3|G3]; [lia|].
    destruct (le_lt_dec (t_depth (grow (length (fst b)) t)) d) as [|C]; auto. exfalso.
    assert (2 ^ (d + 1) <= 2 ^ t_depth (grow (length (fst b)) t)) by (apply Nat.pow_le_mono_r; lia). lia.
  - rewrite L, Nat2Z.inj_pow. change (Z.of_nat 2) with 2%Z. apply Z.pow_lt_mono_r; lia.
Qed.

Lemma overflow_abort_iff_loss (A : Type) (hash : A -> list bool) s n (days : list batch) (b : batch) :
    (forall x, length (hash x) = 256) ->
    Forall valid_batch (days ++ [b]) ->
    int_range (length (history_elems (days ++ [b]))) ->
    let t := run_release hash days (tree_new s n) in
    let r := insert hash (fst b) (snd b) t in
    exists lost,
      Permutation (contents (fst r) ++ lost) (fst b ++ contents t)
      /\ (insert_dbg hash (fst b) (snd b) t = Abort <-> lost <> [])
      /\ (lost = [] -> insert_dbg hash (fst b) (snd b) t = Ok r).
Proof.
  intros HH V R t r.
  destruct (reach_days A hash s n days b HH V R) as (R0 & VB & IR & EL). fold t in R0.
  destruct r as [t1 out] eqn:E. unfold r in E.
  destruct (reach_step hash t _ b t1 out HH R0 VB IR E) as (_ & _ & _ & _ & _ & P & _ & _ & DBG).
  exists (lost_by hash (fst b) (snd b) t). split; auto. rewrite DBG.
  destruct (lost_by hash (fst b) (snd b) t); split; try split; auto; try congruence; intros; discriminate.
Qed.

Lemma release_build_loses_element (A : Type) (hash : A -> list bool) (f : nat -> A) s n :
    (forall x, length (hash x) = 256) ->
    (forall i j, f i = f j -> i = j) ->
    int_range (s + n + 1) ->
    exists es hsh,
      NoDup es /\ valid_batch (es, hsh) /\ length es = s + n + 1
      /\ exists x, In x es
           /\ ~ In x (contents (fst (insert hash es hsh (tree_new s n)))).
Proof. intros. apply (overflow_exists hash) with f; auto. Qed.

Lemma path_indices_exact (depth : nat) (leaves : list nat) :
    (forall l, In l leaves -> 2 ^ depth <= l < 2 ^ (depth + 1)) ->
    StronglySorted gt (extract_path_indices leaves)
    /\ (forall v, In v (extract_path_indices leaves) <->
                  exists l, In l leaves /\ ancestor v l)
    /\ (leaves = [] -> extract_path_indices leaves = [])
    /\ (leaves <> [] -> In 0 (extract_path_indices leaves) /\ In 1 (extract_path_indices leaves)).
Proof.
  intros H. destruct (extract_path_indices_spec depth leaves H) as [S I].
  split; auto. split; auto. split. { intros ->. apply extract_path_indices_empty. }
  intros N. destruct leaves as [|l r]; [congruence|]. assert (Hl := H l (or_introl eq_refl)).
  split; apply I; exists l; (split; [left; auto|]).
  - exists (depth + 1). symmetry. apply Nat.div_small. lia.
  - exists depth. apply Nat.div_unique with (l - 2 ^ depth); rewrite ?pow2_add1 in Hl; lia.
Qed.

Lemma idx_inj l : forall l', length l = length l' -> idx l = idx l' -> l = l'.
Proof.
  induction l as [|b l IH] using rev_ind; intros l' L E.
  - destruct l'; auto; discriminate.
  - destruct l' as [|b' l' _] using rev_ind; [rewrite app_length in L; simpl in L; lia|].
    rewrite !app_length in L. simpl in L. rewrite !idx_snoc in E.
    assert (idx l = idx l' /\ b = b') as [E1 ->] by (destruct b, b'; split; auto; lia).
    rewrite (IH l'); auto. lia.
Qed.

Lemma leaf_index (depth : nat) (h h' : list bool) :
    depth < length h ->
    2 ^ depth <= compute_index depth h < 2 ^ (depth + 1)
    /\ (compute_index (depth + 1) h = 2 * compute_index depth h
        \/ compute_index (depth + 1) h = 2 * compute_index depth h + 1)
    /\ (firstn depth h = firstn depth h' -> compute_index depth h' = compute_index depth h)
    /\ (length h' = length h -> compute_index depth h' = compute_index depth h ->
        firstn depth h' = firstn depth h).
Proof.
  intros H. split; [apply compute_index_bounds; lia|]. split.
  { rewrite !compute_index_idx, Nat.add_1_r, (firstn_S_snoc depth h false), idx_snoc by lia.
    destruct (nth depth h false); lia. }
  split. { intros E. rewrite !compute_index_idx, E. auto. }
  intros L E. rewrite !compute_index_idx in E. apply idx_inj; auto.
  rewrite !firstn_length. lia.
Qed.

(** ** naturality: a map that preserves hashes commutes with everything *)
Section Nat.
Context {A B : Type} (f : A -> B) (hA : A -> list bool) (hB : B -> list bool).
Hypothesis Hf : forall x, hB (f x) = hA x.

Definition nmap (n : node A) : node B := mkNode (map f (elems n)) (node_cap n).
Definition tmap (t : tree A) : tree B :=
  mkTree (t_stash_size t) (t_node_size t) (t_depth t) (t_actual t) (map nmap (t_nodes t)).

Lemma nodeAt_map ns i : nodeAt (map nmap ns) i = nmap (nodeAt ns i).
Proof. unfold nodeAt. exact (map_nth nmap ns (node_new 0) i). Qed.
Lemma set_nth_map i n ns : set_nth i (nmap n) (map nmap ns) = map nmap (set_nth i n ns).
Proof. revert i; induction ns; intros [|i]; simpl; auto. f_equal; auto. Qed.
Lemma grow_map n t : grow n (tmap t) = tmap (grow n t).
Proof.
  assert (G : forall fuel t, grow_loop fuel n (tmap t) = tmap (grow_loop fuel n t)); [|apply G]. clear t.
  intros fuel.
  induction fuel; intros t; simpl; auto.
  destruct (2 ^ (t_depth t + 1) <=? n + t_actual t); auto. rewrite <- IHfuel. f_equal.
  unfold tmap, add_new_layer. simpl. f_equal. rewrite map_app, map_length. f_equal.
  generalize (2 ^ (t_depth t + 1 + 1) - length (t_nodes t)). induction n0; simpl; auto. f_equal; auto.
Qed.
Lemma push_map i e bs : push i (f e) (map (map f) bs) = map (map f) (push i e bs).
Proof. revert i; induction bs; intros [|i]; simpl; auto. f_equal; auto. Qed.
Lemma gather_map ns e path : gather_elems (map nmap ns) (f e) path = map f (gather_elems ns e path).
Proof.
  unfold gather_elems. induction path; simpl; auto. rewrite !map_app, IHpath, nodeAt_map. simpl.
  destruct (a =? 0); auto.
Qed.
Lemma bucketize_map d leaf es : forall bs,
  bucketize hB d leaf (map f es) (map (map f) bs) = map (map f) (bucketize hA d leaf es bs).
Proof.
  unfold bucketize. induction es; intros bs; simpl; auto. rewrite Hf, push_map. apply IHes.
Qed.
Lemma clear_map path : forall ns, clear_path path (map nmap ns) = map nmap (clear_path path ns).
Proof.
  unfold clear_path. induction path; intros ns; simpl; auto. rewrite <- IHpath. f_equal.
  rewrite nodeAt_map, <- set_nth_map. reflexivity.
Qed.
Lemma fill_from_map b : forall n, fill_from (map f b) (nmap n) = (nmap (fst (fill_from b n)), map f (snd (fill_from b n))).
Proof.
  induction b as [|x b IH]; intros n; simpl; auto. unfold node_add. simpl. rewrite map_length.
  destruct (node_cap n <=? length (elems n)); simpl; auto.
  change (map f (elems n) ++ [f x]) with (map f (elems n) ++ map f [x]). rewrite <- map_app.
  apply (IH (mkNode (elems n ++ [x]) (node_cap n))).
Qed.
Lemma fill_node_map steps bs : forall st n,
  fill_node steps st (map (map f) bs) (nmap n) =
  let '(n', (st', bs')) := fill_node steps st bs n in (nmap n', (st', map (map f) bs')).
Proof.
  induction bs as [|b bs IH]; intros st n; simpl; auto.
  destruct (st <=? steps); auto. rewrite fill_from_map. destruct (fill_from b n) as [n' [|y r]]; simpl.
  - apply IH.
  - reflexivity.
Qed.
Lemma fill_path_map path : forall steps st bs ns,
  fill_path path steps st (map (map f) bs) (map nmap ns) =
  let '(ns', (st', bs')) := fill_path path steps st bs ns in (map nmap ns', (st', map (map f) bs')).
Proof.
  induction path as [|u path IH]; intros steps st bs ns; simpl; auto.
  rewrite nodeAt_map, fill_node_map. destruct (fill_node steps st bs (nodeAt ns u)) as [n' [st' bs']].
  rewrite set_nth_map. apply IH.
Qed.
Lemma insert_one_map d e leaf ns :
  insert_one hB d (f e) leaf (map nmap ns) =
  let '(ns', (st, lost)) := insert_one hA d e leaf ns in (map nmap ns', (st, map f lost)).
Proof.
  unfold insert_one. rewrite gather_map, clear_map.
  replace (repeat [] (d + 2)) with (map (map f) (repeat [] (d + 2))).
  2:{ generalize (d + 2). induction n; simpl; f_equal; auto. }
  rewrite bucketize_map, fill_path_map.
  destruct (fill_path _ 0 0 _ _) as [ns' [st bs']]. rewrite concat_map. reflexivity.
Qed.
Lemma insert_loop_map d es : forall leaves ns,
  insert_loop hB d (map f es) leaves (map nmap ns) = map nmap (insert_loop hA d es leaves ns).
Proof.
  induction es as [|e es IH]; intros [|l leaves] ns; simpl; auto.
  rewrite insert_one_map. destruct (insert_one hA d e l ns) as [ns' [st lost]]. simpl. apply IH.
Qed.
Lemma insert_loop_dbg_map d es : forall leaves ns,
  insert_loop_dbg hB d (map f es) leaves (map nmap ns) =
  (let! r := insert_loop_dbg hA d es leaves ns in Ok (map nmap r)).
Proof.
  induction es as [|e es IH]; intros [|l leaves] ns; simpl; auto.
  rewrite insert_one_map. destruct (insert_one hA d e l ns) as [ns' [st lost]].
  destruct (st <=? d); simpl; auto.
Qed.
Lemma insert_map es hsh t :
  insert hB (map f es) hsh (tmap t) =
  (tmap (fst (insert hA es hsh t)), map nmap (snd (insert hA es hsh t))).
Proof.
  unfold insert, finish_insert. rewrite map_length, grow_map. simpl. rewrite insert_loop_map.
  f_equal. rewrite map_map. apply map_ext. intros i. rewrite nodeAt_map. reflexivity.
Qed.
Lemma insert_dbg_map es hsh t :
  insert_dbg hB (map f es) hsh (tmap t) =
  (let! r := insert_dbg hA es hsh t in Ok (tmap (fst r), map nmap (snd r))).
Proof.
  unfold insert_dbg, finish_insert. rewrite map_length, grow_map. simpl. rewrite insert_loop_dbg_map.
  destruct (insert_loop_dbg hA _ es _ _); simpl; auto. f_equal.
  f_equal. rewrite map_map. apply map_ext. intros i. rewrite nodeAt_map. reflexivity.
Qed.
Lemma run_release_map (days : list (@batch A)) : forall t,
  run_release hB (map (fun b => (map f (fst b), snd b)) days) (tmap t) = tmap (run_release hA days t).
Proof.
  unfold run_release. induction days as [|b days IH]; intros t; auto.
  cbn [map fold_left]. rewrite <- IH. f_equal. cbn [fst snd]. rewrite insert_map. reflexivity.
Qed.
Lemma get_path_map h t : get_path h (tmap t) = map f (get_path h t).
Proof.
  unfold get_path. simpl. generalize (path_up (compute_index (t_depth t) h)). intros p.
  induction p; simpl; auto. rewrite map_app, IHp, nodeAt_map. reflexivity.
Qed.
Lemma contents_map t : contents (tmap t) = map f (contents t).
Proof. unfold contents. simpl. induction (t_nodes t); simpl; auto. rewrite map_app. congruence. Qed.
End Nat.

Lemma payload_independent (E P : Type) (hash : E -> list bool) s n (days : list (@batch (E * P))) :
    let hash_ep (x : E * P) := hash (fst x) in
    let erase (b : @batch (E * P)) := (map fst (fst b), snd b) in
    map (fun n => map fst (elems n)) (t_nodes (run_release hash_ep days (tree_new s n)))
    = map elems (t_nodes (run_release hash (map erase days) (tree_new s n))).
Proof.
  intros hash_ep erase.
  pose proof (run_release_map fst hash_ep hash (fun x => eq_refl) days (tree_new s n)) as R.
  change (tmap fst (tree_new s n)) with (@tree_new E s n) in R.
  assert (EE : run_release hash (map erase days) (tree_new s n) = tmap fst (run_release hash_ep days (tree_new s n))) by exact R.
  rewrite EE. cbn [t_nodes tmap].
  rewrite map_map. reflexivity.
Qed.

Lemma full_path (A : Type) (t : tree A) (h : list bool) :
    t_depth t <= length h ->
    let visited := path_up (compute_index (t_depth t) h) in
    length visited = t_depth t + 2
    /\ NoDup visited
    /\ hd 0 visited = compute_index (t_depth t) h
    /\ last visited 1 = 0
    /\ (forall v, In v visited <-> ancestor v (compute_index (t_depth t) h))
    /\ get_path h t = flat_map (fun u => elems (nth u (t_nodes t) (node_new 0))) visited
    /\ ((forall v, v < 2 ^ (t_depth t + 1) -> In v visited ->
            length (elems (nth v (t_nodes t) (node_new 0)))
            = if v =? 0 then t_stash_size t else t_node_size t) ->
        length (get_path h t) = (t_depth t + 1) * t_node_size t + t_stash_size t).
Proof.
  intros H visited. set (leaf := compute_index (t_depth t) h) in *.
  assert (HL : 2 ^ t_depth t <= leaf < 2 ^ (t_depth t + 1)) by (apply compute_index_bounds; auto).
  split; [apply path_up_length; auto|]. split; [eapply path_up_NoDup; eauto|].
  assert (PS := path_up_spec _ _ HL). fold visited in PS.
  split. { rewrite PS. rewrite Nat.add_succ_r. simpl. rewrite Nat.pow_0_r, Nat.div_1_r. auto. }
  assert (SP : visited = map (fun k => leaf / 2 ^ k) (seq 0 (t_depth t + 1)) ++ [0]).
  { rewrite PS, Nat.add_succ_r, seq_S, map_app. simpl. do 2 f_equal. apply Nat.div_small. lia. }
  split. { rewrite SP. apply last_last. }
  split; [intros v; apply (path_up_In (t_depth t)); auto|]. split; auto.
  intros F. unfold get_path. fold leaf. fold visited.
  assert (L1 : forall p, (forall v, In v p -> In v visited /\ v <> 0) ->
    length (flat_map (fun u => elems (nodeAt (t_nodes t) u)) p) = length p * t_node_size t).
  { induction p as [|v p IH]; intros Hp; simpl; auto. rewrite app_length, IH by auto with datatypes.
    f_equal. destruct (Hp v (or_introl eq_refl)) as [Hv N]. unfold nodeAt. rewrite F; auto.
    - destruct (Nat.eqb_spec v 0); congruence.
    - eapply path_up_lt; eauto. }
  rewrite SP, flat_map_app, app_length, L1, map_length, seq_length.
  - cbn [flat_map]. rewrite app_nil_r. unfold nodeAt. rewrite F; auto.
    + apply Nat.neq_0_lt_0, Nat.pow_nonzero. lia.
    + rewrite SP. apply in_or_app. right; left; auto.
  - intros v Hv. split. { rewrite SP. apply in_or_app; auto. }
    apply in_map_iff in Hv as (k & <- & Hk). apply in_seq in Hk.
    assert (1 <= leaf / 2 ^ k); [|lia]. apply Nat.div_str_pos. split.
    { apply Nat.neq_0_lt_0, Nat.pow_nonzero; lia. }
    pose proof (Nat.pow_le_mono_r 2 k (t_depth t)). lia.
Qed.
