Require Import List Arith Lia ZArith Permutation Bool Sorted.
Import ListNotations.
From Verif Require Import Prelude TreeModel TreeSpec TreeIndex TreeProofs TreeHistory TreeDelModel TreeDelProofs Coins Group ElGamalModel BytesModel BytesProofs CipherModel CipherProofs WireModel WireProofs SyncModel SyncSpec.

(** ** computations that return *)
Lemma bind_returns {A B} (m : M A) (f : A -> M B) t : returns (m t) ->
  (forall a t', m t = Ok (a, t') -> returns (f a t')) -> returns (bind m f t).
Proof. unfold bind. destruct (m t) as [[a t']| | |]; simpl; auto. Qed.
Lemma ret_returns {A} (a : A) t : returns (ret a t).
Proof. exact I. Qed.
Lemma lift_returns {A} (o : outcome A) t : returns o -> returns (lift o t).
Proof. destruct o; auto. Qed.
Lemma mapM_returns {A B} (f : A -> M B) l : (forall x, In x l -> forall t, returns (f x t)) -> forall t, returns (mapM f l t).
Proof.
  induction l as [|x l IH]; intros H t; cbn [mapM]; [exact I|].
  apply bind_returns; [apply H; left; auto|]. intros y t1 _. apply bind_returns; [apply IH; intros; apply H; right; auto|].
  intros; exact I.
Qed.
Lemma obind_returns {A B} (m : outcome A) (f : A -> outcome B) : returns m -> (forall a, m = Ok a -> returns (f a)) -> returns (obind m f).
Proof. destruct m; simpl; auto. Qed.
Lemma omap_returns {A B} (f : A -> outcome B) l : (forall x, In x l -> returns (f x)) -> returns (omap f l).
Proof.
  induction l as [|x l IH]; intros H; cbn [omap]; [exact I|]. apply obind_returns; [apply H; left; auto|].
  intros y _. apply obind_returns; [apply IH; intros; apply H; right; auto|]. intros; exact I.
Qed.

(** ** random hashes *)
Lemma random_hash_total t : exists h t', random_hash t = Ok (h, t').
Proof. apply repeatM_total. intros s. eexists _, _. reflexivity. Qed.
Lemma random_hashes_total n t : exists hs t', random_hashes n t = Ok (hs, t').
Proof. apply repeatM_total. apply random_hash_total. Qed.
Lemma random_hashes_spec n t hs t' : random_hashes n t = Ok (hs, t') ->
  length hs = n /\ Forall (fun h => length h = 32 /\ Forall is_byte h) hs.
Proof.
  intros H. apply repeatM_Ok in H as (L & F). split; auto. eapply Forall_impl; [|exact F].
  intros h (s & s' & E). apply repeatM_Ok in E as (L1 & F1). split; auto. eapply Forall_impl; [|exact F1].
  intros b (r & r' & E). apply rand_less_than_range in E. exact E.
Qed.
Lemma hashes_valid {A} (es : list A) hs t t' : random_hashes (length es) t = Ok (hs, t') ->
  valid_batch (es, map byte2binary hs).
Proof.
  intros H. apply random_hashes_spec in H as (L & F). split; cbn; [rewrite map_length; auto|].
  apply Forall_forall. intros b Hb. apply in_map_iff in Hb as (h & <- & Hh).
  rewrite Forall_forall in F. destruct (F h Hh) as (E & _). rewrite byte2binary_length, E. reflexivity.
Qed.

(** ** public state under growth *)
Definition pub_eq {A B} (t : tree A) (t' : tree B) : Prop :=
  t_stash_size t' = t_stash_size t /\ t_node_size t' = t_node_size t
  /\ t_depth t' = t_depth t /\ t_actual t' = t_actual t /\ length (t_nodes t') = length (t_nodes t).
Lemma pub_eq_grow {A B} k (t : tree A) (t' : tree B) : pub_eq t t' -> pub_eq (grow k t) (grow k t').
Proof.
  unfold grow. intros H. assert (E : t_actual t' = t_actual t) by apply H. rewrite E.
  generalize (k + t_actual t). intros f. clear E. revert t t' H.
  induction f as [|f IH]; intros t t' H; cbn [grow_loop]; auto. pose proof H as (E1 & E2 & E3 & E4 & E5). rewrite E3, E4.
  destruct (_ <=? _); auto. apply IH. unfold pub_eq, add_new_layer; cbn [t_stash_size t_node_size t_depth t_actual t_nodes].
  rewrite !app_length, !repeat_length. split; [auto|]. split; [auto|]. split; [lia|]. split; [auto|]. rewrite E3. lia.
Qed.

(** ** replacing nodes *)
Lemma fold_set_length {B} (ps : list (nat * B)) : forall ns,
  length (fold_left (fun ns p => set_nth (fst p) (snd p) ns) ps ns) = length ns.
Proof. induction ps; intros ns; cbn [fold_left]; auto. rewrite IHps. apply set_nth_length. Qed.
Lemma fold_set_nth {B} (ind : list nat) : forall (new : list B) ns d v,
  NoDup ind -> length new = length ind -> (forall i, In i ind -> i < length ns) ->
  nth v (fold_left (fun ns p => set_nth (fst p) (snd p) ns) (combine ind new) ns) d
  = match find (fun p => fst p =? v) (combine ind new) with Some p => snd p | None => nth v ns d end.
Proof.
  induction ind as [|i ind IH]; intros new ns d v ND L R; cbn [combine fold_left find]; auto.
  destruct new as [|x new]; [discriminate|]. cbn [combine fold_left find fst snd]. inversion_clear ND.
  rewrite IH; auto.
  - destruct (Nat.eqb_spec i v) as [->|N].
    + replace (find (fun p => fst p =? v) (combine ind new)) with (@None (nat * B)).
      * rewrite nth_set_nth_eq; auto. apply R. left; auto.
      * symmetry. destruct (find (fun p => fst p =? v) (combine ind new)) as [p|] eqn:E; auto. apply find_some in E as (E1 & E2).
        destruct p as [j y]. apply Nat.eqb_eq in E2. cbn in E2. subst. apply in_combine_l in E1. contradiction.
    + destruct (find _ _); auto. apply nth_set_nth_neq; auto.
  - intros j Hj. rewrite set_nth_length. apply R. right; auto.
Qed.
Lemma gt_sorted_NoDup l : StronglySorted gt l -> NoDup l.
Proof.
  induction 1; constructor; auto. intros H1. rewrite Forall_forall in H0. specialize (H0 _ H1). lia.
Qed.

Lemma path_indices_facts d hsh : (forall h, In h hsh -> d <= length h) ->
  NoDup (path_indices d hsh) /\ (forall v, In v (path_indices d hsh) -> v < 2 ^ (d + 1)).
Proof.
  intros H. destruct (extract_path_indices_spec d (path_leaves d hsh)) as (S & I).
  { apply path_leaves_range; auto. }
  split; [apply gt_sorted_NoDup; exact S|]. intros v Hv. apply I in Hv as (l & Hl & a).
  assert (B := path_leaves_range d hsh H l Hl). eapply path_up_lt; [exact B|]. apply (path_up_In d); auto.
Qed.
Lemma path_indices_facts' d hsh : (forall h, In h hsh -> d <= length h) -> forall v, In v (path_indices d hsh) -> v < 2 ^ (d + 1).
Proof. intros H. apply path_indices_facts; auto. Qed.

Section Sync.
Context {Gr : group} {A C : Type}.
Variable hash : A -> list bool.
Variable ins : list A -> list (list bool) -> tree A -> tree A * list (node A).
Variable mk : Z -> A.
Variable enc : A -> M C.
Variable ser : C -> outcome (welem Gr).
Variable deser : welem Gr -> outcome C.
Variable Rep : A -> C -> Prop.
Variable is_pad : A -> Prop.

Definition ins_like : Prop := forall t n b t' out,
  reach hash t n -> valid_batch b -> int_range (n + length (fst b)) -> ins (fst b) (snd b) t = (t', out) ->
  let d := t_depth (grow (length (fst b)) t) in
  d < 30 /\ reach hash t' (n + length (fst b)) /\
  t_depth t' = d /\ t_stash_size t' = t_stash_size t /\ t_node_size t' = t_node_size t /\
  out = map (fun i => node_copy (nodeAt (t_nodes t') i)) (path_indices d (snd b)) /\
  (forall u, ~ In u (path_indices d (snd b)) -> elems (nodeAt (t_nodes t') u) = elems (nodeAt (t_nodes t) u)).
Hypothesis hash_len : forall x, length (hash x) = 256.
Hypothesis ins_ok : ins_like.
Hypothesis mk_ok : forall x, pad_range x -> is_pad (mk x).
Hypothesis enc_ok : forall a tp, match enc a tp with Ok (c, _) => Rep a c | Err _ => True | _ => False end.
Hypothesis ser_ok : forall a c, Rep a c -> match ser c with Ok w => deser w = Ok c | Err _ => True | _ => False end.

(** shape of a message, whatever the encryption *)
Lemma omap_length {X Y} (f : X -> outcome Y) l r : omap f l = Ok r -> length r = length l.
Proof. intros H. apply omap_Ok_Forall2, Forall2_length' in H. auto. Qed.
Lemma node_message_length n tp ws tp' : length (elems n) <= node_cap n ->
  node_message mk enc ser n tp = Ok (ws, tp') -> length ws = node_cap n.
Proof.
  intros L H. unfold node_message in H. apply bind_Ok in H as (n' & t1 & H1 & H). apply bind_Ok in H as (cs & t2 & H2 & H).
  apply lift_Ok in H as (H & _). apply pad_node_spec in H1 as (CN & ps & E1 & _ & LP). apply mapM_length in H2.
  unfold ser_node, add_all in H. cbn [elems] in H. apply omap_length in H. rewrite H, firstn_length, H2, E1, app_length, map_length, LP. lia.
Qed.
Lemma send_update_shape es t n tp t' u tp' : reach hash t n -> int_range (n + length es) ->
  send_update ins mk enc ser es t tp = (t', Ok (u, tp')) ->
  length (u_hashes u) = length es /\ Forall (fun h => length h = 32 /\ Forall is_byte h) (u_hashes u) /\
  map (@length _) (u_nodes u) =
  map (fun v => if v =? 0 then t_stash_size t else t_node_size t)
      (path_indices (t_depth (grow (length es) t)) (map byte2binary (u_hashes u))).
Proof.
  intros R IR H. unfold send_update in H. destruct (random_hashes_total (length es) tp) as (hs & tp1 & E). rewrite E in H.
  destruct (ins es (map byte2binary hs) t) as [t1 out] eqn:EI. injection H as <- H.
  apply bind_Ok in H as (wss & t2 & H1 & H). apply ret_Ok in H as (-> & _). cbn [u_hashes u_nodes].
  apply random_hashes_spec in E as E'. destruct E' as (L & F). split; auto. split; auto.
  pose proof (hashes_valid es _ _ _ E) as V.
  destruct (ins_ok t n (es, map byte2binary hs) t1 out R V IR EI) as (DB & R' & ED & ES & EN & EO & _). cbn [fst snd] in *.
  apply mapM_Ok in H1. destruct R' as [W' _ _ _].
  assert (LT : forall v, In v (path_indices (t_depth (grow (length es) t)) (map byte2binary hs)) -> v < length (t_nodes t1)).
  { rewrite (wf_len _ _ W'), ED. apply path_indices_facts'. intros h Hh. destruct V as (_ & V). cbn in V. rewrite Forall_forall in V. rewrite (V h Hh). lia. }
  subst out. clear EI. revert wss H1 LT. induction (path_indices _ _) as [|v l IH]; intros wss H1 LT; inversion H1 as [|? ws ? wss' X F1]; subst; cbn [map]; auto.
  f_equal; [|apply IH; auto; intros; apply LT; right; auto].
  destruct X as (s & s' & X). apply node_message_length in X; [|cbn; apply W'].
  rewrite X. cbn [node_copy node_cap]. rewrite (wf_cap _ _ W') by (apply LT; left; auto). unfold cap_at. rewrite ES, EN. auto.
Qed.

Lemma enc_returns a tp : returns (enc a tp).
Proof. specialize (enc_ok a tp). destruct (enc a tp) as [[c ?]| | |]; auto; exact I. Qed.
Lemma mapM_enc l tp : match mapM enc l tp with Ok (cs, _) => Forall2 Rep l cs | Err _ => True | _ => False end.
Proof.
  pose proof (mapM_returns enc l (fun x _ t => enc_returns x t) tp) as S.
  destruct (mapM enc l tp) as [[cs tp']| | |] eqn:E; auto.
  apply mapM_Ok in E. clear - E enc_ok. induction E; constructor; auto. destruct H as (s & s' & H). specialize (enc_ok x s). rewrite H in enc_ok. auto.
Qed.
Lemma omap_ser l cs : Forall2 Rep l cs -> match omap ser cs with Ok ws => omap deser ws = Ok cs | Err _ => True | _ => False end.
Proof.
  induction 1; cbn [omap]; auto. specialize (ser_ok _ _ H). destruct (ser y) as [w| | |]; auto.
  cbn [obind]. destruct (omap ser l') as [ws| | |]; auto. cbn [obind omap]. rewrite ser_ok. cbn [obind]. rewrite IHForall2. auto.
Qed.

Lemma node_message_spec n tp : length (elems n) <= node_cap n ->
  match node_message mk enc ser n tp with
  | Ok (ws, _) => length ws = node_cap n /\ exists pads cs, Forall is_pad pads /\ length (elems n ++ pads) = node_cap n
       /\ Forall2 Rep (elems n ++ pads) cs /\ deser_node deser ws = Ok (mkNode cs (node_cap n))
  | Err _ => True | _ => False end.
Proof.
  intros L. unfold node_message, bind at 1.
  destruct (pad_node_total mk n tp) as (n' & tp1 & E). rewrite E.
  destruct (pad_node_spec _ _ _ _ _ E) as (CN & ps & E1 & F & LP).
  unfold bind. pose proof (mapM_enc (elems n') tp1) as X. destruct (mapM enc (elems n') tp1) as [[cs tp2]| | |]; auto.
  unfold lift, ser_node, add_all. cbn [elems].
  assert (LC : length cs = node_cap n).
  { apply Forall2_length' in X. rewrite <- X, E1, app_length, map_length, LP. lia. }
  rewrite CN, firstn_all2 by lia. pose proof (omap_ser _ _ X) as Y. destruct (omap ser cs) as [ws| | |] eqn:EW; auto.
  apply omap_length in EW. split; [lia|]. exists (map mk ps), cs. split.
  { apply Forall_forall. intros p Hp. apply in_map_iff in Hp as (x & <- & Hx). rewrite Forall_forall in F. auto. }
  split; [rewrite app_length, map_length, LP; lia|]. rewrite <- E1. split; auto. unfold deser_node. rewrite Y. cbn [obind]. f_equal. f_equal. lia.
Qed.

Definition node_msg_ok (n : node A) (ws : list (welem Gr)) : Prop :=
  length ws = node_cap n /\ exists pads cs, Forall is_pad pads /\ length (elems n ++ pads) = node_cap n
       /\ Forall2 Rep (elems n ++ pads) cs /\ deser_node deser ws = Ok (mkNode cs (node_cap n)).
Lemma nodes_message_spec ns tp : Forall (fun n => length (elems n) <= node_cap n) ns ->
  match mapM (node_message mk enc ser) ns tp with
  | Ok (wss, _) => Forall2 node_msg_ok ns wss
  | Err _ => True | _ => False end.
Proof.
  intros F. revert tp. induction F as [|n ns L _ IH]; intros tp; cbn [mapM]; [constructor|].
  unfold bind at 1. pose proof (node_message_spec n tp L) as X. destruct (node_message mk enc ser n tp) as [[ws tp1]| | |]; auto.
  unfold bind at 1. specialize (IH tp1). destruct (mapM (node_message mk enc ser) ns tp1) as [[wss tp2]| | |]; auto.
  constructor; auto.
Qed.

(** the sending side: facts about one update message *)
Lemma send_update_spec es t n tp : reach hash t n -> int_range (n + length es) ->
  let '(t', o) := send_update ins mk enc ser es t tp in
  exists hs out tp1, random_hashes (length es) tp = Ok (hs, tp1) /\ ins es (map byte2binary hs) t = (t', out)
  /\ match o with
     | Ok (u, _) => u_hashes u = hs /\ Forall2 node_msg_ok out (u_nodes u)
     | Err _ => True | _ => False end.
Proof.
  intros R IR. unfold send_update. destruct (random_hashes_total (length es) tp) as (hs & tp1 & E). rewrite E.
  destruct (ins es (map byte2binary hs) t) as [t' out] eqn:EI. exists hs, out, tp1. split; auto. split; auto.
  pose proof (hashes_valid es _ _ _ E) as V.
  destruct (ins_ok t n (es, map byte2binary hs) t' out R V IR EI) as (_ & R' & _ & _ & _ & EO & _).
  assert (F : Forall (fun n => length (elems n) <= node_cap n) out).
  { subst out. apply Forall_forall. intros m Hm. apply in_map_iff in Hm as (i & <- & _). cbn. apply R'. }
  unfold bind. pose proof (nodes_message_spec out tp1 F) as X. destruct (mapM (node_message mk enc ser) out tp1) as [[wss tp2]| | |]; auto.
  cbn. auto.
Qed.


Lemma Forall2_in_combine {X Y} (R : X -> Y -> Prop) l l' p : Forall2 R l l' -> In p (combine l l') -> R (fst p) (snd p).
Proof. induction 1; cbn; [intros []|]. intros [<-|H1]; auto. Qed.

Lemma omap_deser_nodes out wss : Forall2 node_msg_ok out wss ->
  exists new, omap (deser_node deser) wss = Ok new /\
    Forall2 (fun n m => exists pads, Forall is_pad pads /\ length (elems n ++ pads) = node_cap n /\ Forall2 Rep (elems n ++ pads) (elems m)) out new.
Proof.
  induction 1 as [|n ws out wss (L & pads & cs & F1 & F2 & F3 & E) _ (new & E2 & F4)]; cbn [omap].
  - exists []. split; auto.
  - rewrite E. cbn [obind]. rewrite E2. cbn [obind]. eexists; split; [reflexivity|]. constructor; eauto.
Qed.

(** one whole update *)
Lemma sync_step es ts tr n tp : reach hash ts n -> mirrors Rep is_pad ts tr -> int_range (n + length es) ->
  let '(ts', o) := send_update ins mk enc ser es ts tp in
  reach hash ts' (n + length es) /\
  t_stash_size ts' = t_stash_size ts /\ t_node_size ts' = t_node_size ts /\
  match o with
  | Ok (u, _) => exists tr', recv_update deser u tr = Ok tr' /\ mirrors Rep is_pad ts' tr'
  | Err _ => True | _ => False
  end.
Proof.
  intros R MI IR. pose proof (send_update_spec es ts n tp R IR) as X.
  destruct (send_update ins mk enc ser es ts tp) as [ts' o]. destruct X as (hs & out & tp1 & EH & EI & X).
  pose proof (hashes_valid es _ _ _ EH) as V.
  destruct (ins_ok ts n (es, map byte2binary hs) ts' out R V IR EI) as (D & R' & ED & ES & EN & EO & EU).
  cbn [fst snd] in *. set (d := t_depth (grow (length es) ts)) in *.
  split; auto. split; auto. split; auto.
  destruct o as [[u tp2]| | |]; auto. destruct X as (HU & F).
  destruct (omap_deser_nodes _ _ F) as (new & EN1 & FN). unfold recv_update. rewrite EN1. cbn [obind].
  rewrite HU. destruct V as (V1 & V2). cbn [fst snd] in V1, V2.
  destruct MI as (M1 & M2 & M3 & M4 & M5 & M6).
  assert (PE : pub_eq ts tr) by (unfold pub_eq; auto).
  unfold replace_nodes. rewrite V1. pose proof (pub_eq_grow (length es) _ _ PE) as (G1 & G2 & G3 & G4 & G5).
  rewrite G3. fold d.
  destruct (forallb (fun h => d <=? length h) (map byte2binary hs)) eqn:FB; cycle 1.
  { exfalso. apply not_true_iff_false in FB. apply FB. apply forallb_forall. intros h Hh. rewrite Forall_forall in V2.
    rewrite (V2 h Hh). apply Nat.leb_le. lia. }
  cbn [negb]. assert (LN : length new = length (path_indices d (map byte2binary hs))).
  { apply Forall2_length' in FN. rewrite <- FN, EO, map_length. auto. }
  rewrite LN. rewrite (proj2 (Nat.ltb_ge _ _)) by lia. eexists; split; [reflexivity|].
  assert (HLe : forall h, In h (map byte2binary hs) -> d <= length h).
  { intros h Hh. rewrite Forall_forall in V2. rewrite (V2 h Hh). lia. }
  destruct (path_indices_facts d (map byte2binary hs) HLe) as (ND & LT).
  destruct R' as [W' RA' _ _]. destruct R as [W RA _ _].
  assert (LG : length (t_nodes (grow (length es) tr)) = length (t_nodes ts')).
  { rewrite G5. rewrite (wf_len _ _ W'), ED. unfold d.
    destruct (grow_spec hash (length es) ts) as (_ & _ & _ & _ & _ & _ & _ & _ & GW).
    rewrite (wf_len hash (grow (length es) ts)); auto.
    apply GW; auto. intros x. rewrite hash_len. fold d. lia. }
  assert (GE : forall v, elems (nth v (t_nodes (grow (length es) tr)) (node_new 0)) = elems (nth v (t_nodes tr) (node_new 0))).
  { intros v. destruct (grow_spec (fun _ => []) (length es) tr) as (_ & _ & _ & _ & _ & _ & _ & GE & _). apply GE. }
  unfold mirrors. cbn [t_stash_size t_node_size t_depth t_actual t_nodes].
  destruct (grow_spec hash (length es) ts) as (_ & _ & _ & GA & GS & GN & _ & GEs & _).
  assert (RAn : t_actual ts' = t_actual ts + length es) by lia.
  split; [congruence|]. split; [congruence|]. split; [congruence|]. split; [rewrite G4, GA, RAn; auto|].
  rewrite fold_set_length. split; [auto|].
  intros v Hv. unfold entries_at. cbn [t_nodes].
  rewrite fold_set_nth; auto; [|rewrite LG, (wf_len _ _ W'), ED; auto].
  destruct (find (fun p => fst p =? v) (combine (path_indices d (map byte2binary hs)) new)) as [[i m]|] eqn:EF.
  - right. apply find_some in EF as (EF1 & EF2). cbn [fst] in EF2. apply Nat.eqb_eq in EF2. subst i. cbn [snd].
    assert (FC : Forall2 (fun i m => exists pads, Forall is_pad pads /\ length (elems (nodeAt (t_nodes ts') i) ++ pads) = node_cap (nodeAt (t_nodes ts') i) /\ Forall2 Rep (elems (nodeAt (t_nodes ts') i) ++ pads) (elems m))
       (path_indices d (map byte2binary hs)) new).
    { rewrite EO in FN. clear - FN. revert new FN. induction (path_indices d (map byte2binary hs)) as [|i l IH]; intros new FN; cbn [map] in FN; inversion_clear FN; constructor; auto. }
    apply (Forall2_in_combine _ _ _ _ FC) in EF1. cbn [fst snd] in EF1. destruct EF1 as (pads & P1 & P2 & P3).
    exists pads. split; auto. split; auto. rewrite (wf_cap _ _ W') in P2 by auto. exact P2.
  - assert (NI : ~ In v (path_indices d (map byte2binary hs))).
    { intros Hin. apply In_nth with (d := 0) in Hin as (k & Hk & Ek).
      assert (Hc : In (nth k (combine (path_indices d (map byte2binary hs)) new) (0, node_new 0)) (combine (path_indices d (map byte2binary hs)) new)).
      { apply nth_In. rewrite combine_length. lia. }
      rewrite combine_nth in Hc by auto. eapply find_none in EF; [|exact Hc]. cbn [fst] in EF. rewrite Ek, Nat.eqb_refl in EF. discriminate. }
    specialize (EU v NI). unfold nodeAt in EU. rewrite EU, GE.
    destruct (lt_dec v (length (t_nodes ts))) as [Hlt|Hge].
    + unfold capacity. rewrite ES, EN. apply (M6 v Hlt).
    + left. rewrite !nth_overflow; auto; try lia. 
Qed.

Lemma mirrors_new s n : mirrors Rep is_pad (tree_new s n) (tree_new s n).
Proof.
  unfold mirrors, tree_new; cbn. do 5 (split; [auto|]). intros [|[|v]] H; cbn; auto; lia.
Qed.

(** a whole history of updates *)
Lemma sync_days_spec days : forall ts tr n tp, reach hash ts n -> mirrors Rep is_pad ts tr ->
  int_range (n + length (concat days)) ->
  match sync_days ins mk enc ser deser days ts tr tp with
  | Ok ((ts', tr'), _) => reach hash ts' (n + length (concat days)) /\ mirrors Rep is_pad ts' tr'
      /\ exists hs, length hs = length days /\ Forall valid_batch (combine days hs)
           /\ ts' = fold_left (fun t b => fst (ins (fst b) (snd b) t)) (combine days hs) ts
  | Err _ => True | _ => False
  end.
Proof.
  induction days as [|es days IH]; intros ts tr n tp R MI IR; cbn [sync_days].
  - cbn. rewrite Nat.add_0_r. split; auto. split; auto. exists []. auto.
  - cbn [concat] in *. rewrite app_length in *.
    assert (IR1 : int_range (n + length es)) by (unfold int_range in *; lia).
    pose proof (sync_step es ts tr n tp R MI IR1) as X. pose proof (send_update_spec es ts n tp R IR1) as Y.
    destruct (send_update ins mk enc ser es ts tp) as [ts' o].
    destruct X as (R' & _ & _ & X). destruct Y as (hs & out & tp0 & EH & EI & _).
    unfold bind at 1. destruct o as [[u tp1]| | |]; auto. destruct X as (tr' & E & MI').
    unfold bind, lift. rewrite E. specialize (IH ts' tr' (n + length es) tp1 R' MI').
    rewrite Nat.add_assoc.
    assert (IR2 : int_range (n + length es + length (concat days))) by (unfold int_range in *; lia). specialize (IH IR2).
    destruct (sync_days ins mk enc ser deser days ts' tr' tp1) as [[[ts2 tr2] tp2]| | |]; auto.
    destruct IH as (I1 & I2 & hss & I3 & I4 & I5). split; auto. split; auto. exists (map byte2binary hs :: hss).
    cbn [length combine fold_left fst snd]. split; auto. split; [constructor; auto; eapply hashes_valid; eauto|]. rewrite EI. exact I5.
Qed.

(** lookups in the replica *)
Lemma mirrors_path ts tr h : mirrors Rep is_pad ts tr ->
  exists L pads, Forall2 Rep L (get_path h tr) /\ Permutation L (get_path h ts ++ pads) /\ Forall is_pad pads.
Proof.
  intros (_ & _ & M3 & _ & M5 & M6). unfold get_path. rewrite M3.
  induction (path_up (compute_index (t_depth ts) h)) as [|u l IH]; cbn [flat_map].
  - exists [], []. auto.
  - destruct IH as (L & pads & F & P & Q).
    assert (X : exists L0 pads0, Forall2 Rep L0 (elems (nodeAt (t_nodes tr) u)) /\ L0 = elems (nodeAt (t_nodes ts) u) ++ pads0 /\ Forall is_pad pads0).
    { destruct (lt_dec u (length (t_nodes ts))) as [H|H].
      - destruct (M6 u H) as [(E1 & E2)|(pads0 & F1 & _ & F2)]; unfold entries_at in *.
        + exists [], []. unfold nodeAt. rewrite E1, E2. auto.
        + eexists _, pads0. split; [exact F2|]. split; [reflexivity|auto].
      - exists [], []. unfold nodeAt. rewrite !nth_overflow by lia. cbn. auto. }
    destruct X as (L0 & pads0 & F0 & -> & Q0).
    exists ((elems (nodeAt (t_nodes ts) u) ++ pads0) ++ L), (pads0 ++ pads). split; [apply Forall2_app; auto|].
    split; [|apply Forall_app; auto]. rewrite P, <- !app_assoc. apply Permutation_app_head.
    rewrite !app_assoc. apply Permutation_app_tail. apply Permutation_app_comm.
Qed.
End Sync.
