(** Setup with deletions: proofs (DelSetupModel). *)
Require Import List Arith Lia ZArith Permutation Bool Znumtheory.
Import ListNotations.
From Verif Require Import Prelude TreeModel TreeSpec TreeIndex TreeProofs TreeHistory TreeDelModel TreeDelSpec TreeDelProofs Coins Group ElGamalModel BytesModel BytesProofs PropsBytes ContextModel CipherModel NumTheory PaillierModel PaillierProofs PropsPaillier WireModel WireProofs PropsWire SyncModel SyncSpec SyncProofs KindProofs FlagModel CsvModel CsvSpec CsvProofs PropsCsv DataModel DataSpec DataProofs AddModel AddSpec AddProofs AddRun DelModel DelSpec DelProofs DelRun SetupModel SetupProofs DeployModel DeployProofs PsiModel PropsData DataDelProofs PropsDataDel DelSetupModel DataSpec.
Local Open Scope Z_scope.

(** ** the initial trees hold no negative numbers *)
Definition plus (e : entry) : Prop := 0 <= fst e /\ 0 <= snd e.
Lemma net_plus x l : Forall plus l -> 0 <= net x l.
Proof. induction 1 as [|e l (A & B) F IH]; [reflexivity|]. rewrite net_cons. destruct (fst e =? x); lia. Qed.
Lemma net_alone y l : NoDup (map fst l) -> In y l -> net (fst y) l = snd y.
Proof.
  induction l as [|z l IH]; intros N I; [destruct I|]. cbn [map] in N. inversion N as [|? ? N1 N2]; subst. rewrite net_cons. destruct I as [->|I].
  - rewrite Z.eqb_refl. assert (Q : net (fst y) l = 0); [|lia]. clear - N1. induction l as [|w l IH]; [reflexivity|]. rewrite net_cons. cbn [map] in N1. destruct (Z.eqb_spec (fst w) (fst y)); [exfalso; apply N1; left; auto|]. rewrite IH; auto. intros I. apply N1. right; auto.
  - destruct (Z.eqb_spec (fst z) (fst y)) as [E|E]; [exfalso; apply N1; rewrite E; apply in_map; auto|]. rewrite IH; auto.
Qed.
Lemma net_some x l : net x l <> 0 -> exists e, In e l /\ fst e = x.
Proof.
  induction l as [|e l IH]; [intros H; exfalso; apply H; reflexivity|]. rewrite net_cons. destruct (Z.eqb_spec (fst e) x) as [E|E]; intros H; [exists e; split; auto; left; auto|].
  destruct IH as (e' & I & Q); [lia|]. exists e'. split; auto. right; auto.
Qed.
Section Plus.
Variable hash : Z -> list bool.
Hypothesis hash_len : forall x, length (hash x) = 256%nat.
Notation hashe := (hash_entry hash).
Lemma plus_one d e leaf ns : long_enough hashe d -> (2 ^ d <= leaf < 2 ^ (d + 1))%nat -> length ns = (2 ^ (d + 1))%nat ->
  plus e -> (forall x, In x (stored ns) -> plus x) -> forall x, In x (stored (fst (insert_one_del hash d e leaf ns))) -> plus x.
Proof.
  intros HL Hl Hn Pe Pn x Hx. destruct (insert_one_del hash d e leaf ns) as [ns' [st lost]] eqn:E. cbn [fst] in Hx.
  destruct (insert_one_del_spec hash d e leaf ns ns' st lost HL Hl Hn E) as (L & _ & OFF & _ & _ & _ & _ & NZ & ND & NET).
  assert (OLD : forall v y, In y (elems (nodeAt ns v)) -> plus y).
  { intros v y Hy. destruct (lt_dec v (length ns)) as [Lv|Lv].
    - apply Pn. apply in_flat_map. exists (nodeAt ns v). split; auto. apply nth_In; auto.
    - unfold nodeAt in Hy. rewrite nth_overflow in Hy by lia. destruct Hy. }
  apply in_flat_map in Hx as (n & Hn' & Hx). apply nodeAt_in in Hn' as (v & Lv & <-).
  destruct (in_dec Nat.eq_dec v (path_up leaf)) as [I|I].
  2:{ rewrite OFF in Hx by auto. eapply OLD; eauto. }
  set (on := flat_map (fun u => elems (nodeAt ns' u)) (path_up leaf)) in *.
  assert (IX : In x (on ++ lost)) by (apply in_or_app; left; apply in_flat_map; exists v; auto).
  assert (F : Forall plus (e :: flat_map (fun u => elems (nodeAt ns u)) (path_up leaf))).
  { constructor; auto. apply Forall_forall. intros y Hy. apply in_flat_map in Hy as (u & _ & Hy). eapply OLD; eauto. }
  pose proof (net_alone x _ ND IX) as Q. rewrite NET in Q. rewrite Forall_forall in NZ. specialize (NZ x IX).
  pose proof (net_plus (fst x) _ F). destruct (net_some (fst x) (e :: flat_map (fun u => elems (nodeAt ns u)) (path_up leaf))) as (z & Iz & Ez); [lia|].
  rewrite Forall_forall in F. destruct (F z Iz) as (Z1 & Z2). split; [rewrite <- Ez; auto|lia].
Qed.
Lemma plus_loop d es : forall leaves ns, length leaves = length es -> long_enough hashe d -> length ns = (2 ^ (d + 1))%nat ->
  (forall l, In l leaves -> (2 ^ d <= l < 2 ^ (d + 1))%nat) -> Forall plus es -> (forall x, In x (stored ns) -> plus x) ->
  forall x, In x (stored (insert_loop_del hash d es leaves ns)) -> plus x.
Proof.
  induction es as [|e es IH]; intros [|l leaves] ns Ll HL Hn HR F P; cbn [length] in Ll; try lia; cbn [insert_loop_del]; [auto|].
  apply Forall_cons_iff in F as (F1 & F2). pose proof (plus_one d e l ns HL (HR l (or_introl eq_refl)) Hn F1 P) as P1.
  apply IH; auto.
  - destruct (insert_one_del hash d e l ns) as [ns1 [st lost]] eqn:E. cbn [fst].
    destruct (insert_one_del_spec hash d e l ns ns1 st lost HL (HR l (or_introl eq_refl)) Hn E) as (L & _). lia.
  - intros l' Hl'. apply HR. right; auto.
Qed.
Lemma plus_insert es hsh t n : reach hashe t n -> valid_batch (es, hsh) -> int_range (n + length es) ->
  Forall plus es -> (forall x, In x (contents t) -> plus x) -> forall x, In x (contents (fst (insert_del hash es hsh t))) -> plus x.
Proof.
  intros R [V1 V2] IR F P x. cbn [fst snd] in *.
  destruct (insert_del hash es hsh t) as [t' out] eqn:EI.
  destruct (reach_step_del hash t n (es, hsh) t' out hash_len R (conj V1 V2) IR EI) as (DB & _).
  cbn [fst snd] in DB. set (d := t_depth (grow (length es) t)) in *.
  destruct (grow_spec hashe (length es) t) as (G1 & G2 & G3 & G4 & G5 & G6 & G7 & G7b & G8). fold d in G8.
  assert (HL : forall x : entry, (d <= length (hashe x))%nat) by (intros y; unfold hash_entry; rewrite hash_len; lia).
  specialize (G8 (r_wf _ _ _ R) HL). destruct G8 as [L C CO PL]. fold d in L.
  unfold insert_del, finish_insert in EI. fold d in EI. inversion EI; subst t' out. cbn [fst]. unfold contents. cbn [t_nodes].
  apply plus_loop; auto.
  - unfold path_leaves. rewrite map_length. auto.
  - apply path_leaves_range. intros h Hh. cbn [fst snd] in V2. rewrite Forall_forall in V2. rewrite (V2 h Hh). lia.
  - intros y Hy. apply P. unfold contents. fold (stored (t_nodes t)). rewrite <- G7. auto.
Qed.
End Plus.

Lemma net_of_holds_nil (t : tree entry) : contents t = [] -> DelSpec.holds t [].
Proof. intros E x. rewrite E. reflexivity. Qed.

(** ** the trees written and read back *)
Section Trees.
Context {Gr : group}.
Variables stash node : nat.
Hypothesis SS_ : Z.of_nat stash < 2 ^ 31.
Hypothesis NS : Z.of_nat node < 2 ^ 31.
Variable hash : Z -> list bool.
Hypothesis hash_len : forall x, length (hash x) = 256%nat.

Definition tree_pair (n : Z) (data : list entry) (f : tree_file pnode * tree_file (list (welem Gr))) : Prop :=
  exists pt et, tree_deserialize deser_pnode_payload (fst f) = Ok pt /\ tree_deserialize (deser_node (@deser_deletion Gr)) (snd f) = Ok et /\
    reach (hash_entry hash) pt (length data) /\ mirrors (del_rep n) pad_entry pt et.

Lemma trees_deletion_ok p q P V data tp : paillier_pair p q P V -> int_range (length data) -> Forall plus data ->
  match trees_deletion (Gr := Gr) hash stash node V data tp with
  | Ok (f, _) => tree_pair (p * q) data f
  | Err _ => True | _ => False end.
Proof.
  intros (_ & fl & HV) IR G. unfold trees_deletion, generate_trees.
  pose proof (del_sync (Gr := Gr) hash hash_len p q fl V data (tree_new stash node) (tree_new stash node) 0 tp HV (reach_new _ stash node) (mirrors_new (del_rep (p * q)) pad_entry stash node) IR) as X.
  unfold del_update in X. assert (EN : pv_n V = p * q) by (apply priv_new_spec in HV; tauto). rewrite EN in *.
  assert (ENC : forall a t, match enc_deletion (p * q) (priv_encrypt V) a t with Ok (c, _) => del_rep (p * q) a c | Err _ => True | _ => False end).
  { intros a t. pose proof (enc_deletion_ok V p q fl a t HV) as Y. destruct (enc_deletion (p * q) (priv_encrypt V) a t) as [[c ?]| | |]; auto. }
  assert (SER : forall a c, del_rep (p * q) a c -> match @ser_deletion Gr c with Ok w => deser_deletion w = Ok c | Err _ => True | _ => False end).
  { intros a c (_ & (B & _) & (B' & _)). destruct (@ser_deletion_ok Gr c) as (w & E & E'); try lia. rewrite E. auto. }
  assert (SZ : forall t o, send_update (insert_del hash) pad_payload (enc_deletion (p * q) (priv_encrypt V)) (@ser_deletion Gr) data (tree_new stash node) tp = (t, o) ->
            t_stash_size t = stash /\ t_node_size t = node /\ forall x, In x (contents t) -> plus x).
  { intros t o Q. pose proof (send_update_spec (hash_entry hash) (insert_del hash) pad_payload (enc_deletion (p * q) (priv_encrypt V)) ser_deletion (@deser_deletion Gr) (del_rep (p * q)) pad_entry
      (ins_like_insert_del hash hash_len) (fun x H => conj H eq_refl) ENC SER data (tree_new stash node) 0%nat tp (reach_new (hash_entry hash) stash node) IR) as Y.
    rewrite Q in Y. destruct Y as (hs & out & tp1 & EH & EI & _). pose proof (hashes_valid _ _ _ _ EH) as HVv.
    destruct (reach_step_del hash (tree_new stash node) 0 (data, map byte2binary hs) t out hash_len (reach_new (hash_entry hash) stash node) HVv IR EI) as (_ & _ & _ & Y1 & Y2 & _).
    split; [auto|]. split; [auto|]. intros x Hx. replace t with (fst (insert_del hash data (map byte2binary hs) (tree_new stash node))) in Hx by (rewrite EI; auto).
    eapply (plus_insert hash hash_len data (map byte2binary hs) (tree_new stash node) 0); eauto using reach_new. intros y []. }
  destruct (send_update (insert_del hash) pad_payload (enc_deletion (p * q) (priv_encrypt V)) (@ser_deletion Gr) data (tree_new stash node) tp) as [pt o] eqn:ES. destruct (SZ pt o eq_refl) as (Z1 & Z2 & Z3).
  destruct X as (R & X). unfold bind. destruct o as [[u tp1]| | |]; auto. destruct X as (et & RE & MI). rewrite RE. unfold lift at 1. unfold lift.
  pose proof (write_spec (Gr := Gr) stash node SS_ NS (hash_entry hash) ser_deletion deser_deletion ser_pnode_payload deser_pnode_payload (del_rep (p * q)) pad_entry plus (fun x => 0 <= fst x /\ 0 <= snd x)
    (proj2 (proj2 (proj2 (C13_encrypted_files Gr)))) (fun t F W => proj1 (proj2 C13_plaintext_files t F W)) SER pt et (length data) Z1 Z2 R IR MI Z3) as Y.
  set (W := write_trees _ _ _ _) in Y. match goal with |- context [write_trees ?a ?b ?c ?d] => change (write_trees a b c d) with W end.
  destruct W as [[pf ef]| | |]; auto. destruct Y as (Y1 & et' & Y2 & Y3). exists pt, et'. auto.
Qed.

Variables (p0 q0 p1 q1 : Z) (P0 P1 : pub) (V0 V1 : priv).
Hypothesis KP0 : paillier_pair p0 q0 P0 V0.
Hypothesis KP1 : paillier_pair p1 q1 P1 V1.
(** what the parties have after importing *)
Definition imported (f : tree_files Gr) (s0 s1 : list entry) : Prop :=
  exists t0 o0 t1 o1, import_del_zero f = Ok (t0, o0) /\ import_del_one f = Ok (t1, o1) /\
    reach (hash_entry hash) t0 (length s0) /\ reach (hash_entry hash) t1 (length s1) /\
    mirrors (del_rep (p0 * q0)) pad_entry t0 o1 /\ mirrors (del_rep (p1 * q1)) pad_entry t1 o0.
Lemma setup_trees_ok s0 s1 tp : int_range (length s0) -> int_range (length s1) -> Forall plus s0 -> Forall plus s1 ->
  match del_setup_trees (Gr := Gr) hash V0 V1 stash node s0 s1 tp with
  | Ok (f, _) => imported f s0 s1
  | Err _ => True | _ => False end.
Proof.
  intros IR0 IR1 G0 G1. unfold del_setup_trees, bind.
  pose proof (trees_deletion_ok p0 q0 P0 V0 s0 tp KP0 IR0 G0) as X. destruct (trees_deletion hash stash node V0 s0 tp) as [[f0 tp1]| | |]; auto.
  pose proof (trees_deletion_ok p1 q1 P1 V1 s1 tp1 KP1 IR1 G1) as Y. destruct (trees_deletion hash stash node V1 s1 tp1) as [[f1 tp2]| | |]; auto.
  destruct X as (t0 & o1 & X1 & X2 & X3 & X4), Y as (t1 & o0 & Y1 & Y2 & Y3 & Y4). unfold ret. exists t0, o0, t1, o1.
  unfold import_del_zero, import_del_one, import_trees. cbn [p0_plaintext p0_encrypted p1_plaintext p1_encrypted]. rewrite X1, X2, Y1, Y2. auto 10.
Qed.
End Trees.

(** ** the daily datasets written and read back *)
Lemma load_written ds l csv : omap dataset_pairs ds = Ok l -> Forall (fun d => Forall clean (d_elements d) /\ Forall int64 (d_values d) /\ length (d_values d) = length (d_elements d)) ds ->
  omap dataset_write ds = Ok csv -> load_entries csv = Ok l.
Proof.
  intros E F W. destruct (omap_write_read ds) as (fs & W' & R). { eapply Forall_impl; [|exact F]. cbn. tauto. }
  rewrite W' in W. apply Ok_inj' in W. subst fs. unfold load_entries. rewrite R. auto.
Qed.
Lemma dataset_clean ds : Forall (fun d => length (d_values d) = length (d_elements d)) ds -> Forall (fun r => set_element (fst r) /\ - 2 ^ 63 < snd r < 2 ^ 63) (concat (map rows ds)) ->
  Forall (fun d => Forall clean (d_elements d) /\ Forall int64 (d_values d) /\ length (d_values d) = length (d_elements d)) ds.
Proof.
  intros L F. rewrite Forall_concat, Forall_map in F. rewrite Forall_forall in *. intros d Hd. specialize (L d Hd). specialize (F d Hd). cbn in F.
  unfold rows in F. destruct d as [es vs]. cbn [d_elements d_values] in *. assert (L' : length es = length vs) by lia.
  split; [|split; auto].
  - rewrite <- (combine_fst es vs L). apply Forall_map. eapply Forall_impl; [|exact F]. cbn beta. intros r (Q & _). apply set_element_clean; auto.
  - rewrite <- (combine_snd es vs L). apply Forall_map. eapply Forall_impl; [|exact F]. cbn beta. intros r (_ & Q). unfold int64. lia.
Qed.

(** what is known of a deployment *)
Record del_facts {Gr : group} (hash : Z -> list bool) (stash node : nat) (n0 n1 : Z) (days start max : Z) (func : functionality) (d : del_deployed Gr) (t0 t1 : dataset) (D0 D1 : list dataset) (h0 h1 : changes) (l0 l1 : list (list entry)) : Prop := {
  df_data : dd_data d = (t0, D0, t1, D1);
  df_rows0 : map rows D0 = map written h0; df_rows1 : map rows D1 = map written h1;
  df_only0 : only_held (rows t0) h0; df_only1 : only_held (rows t1) h1;
  df_once0 : added_once (rows t0) h0; df_once1 : added_once (rows t1) h1;
  df_val0 : Forall (fun r => set_element (fst r) /\ value_ok func max r) (rows t0 ++ concat (map snd h0));
  df_val1 : Forall (fun r => set_element (fst r) /\ snd r = 1) (rows t1 ++ concat (map snd h1));
  df_l0 : l0 = map (map as_number) (rows t0 :: map written h0);
  df_l1 : l1 = map (map as_number) (rows t1 :: map written h1);
  df_len0 : length h0 = Z.to_nat days; df_len1 : length h1 = Z.to_nat days;
  df_size0 : Z.of_nat (length (rows t0)) = start; df_size1 : Z.of_nat (length (rows t1)) = start;
  df_proper : forall n, 10 ^ 15 <= n -> max <= n -> proper_signed n l0 /\ proper_signed n l1;
  df_load0 : load_entries (dd_csv0 d) = Ok (tl l0); df_load1 : load_entries (dd_csv1 d) = Ok (tl l1);
  df_trees : exists a0 o0 a1 o1,
    del_trees_for stash node import_del_zero (dd_trees d) = Ok (a0, o0) /\ del_trees_for stash node import_del_one (dd_trees d) = Ok (a1, o1) /\
    reach (hash_entry hash) a0 (length (nth 0 l0 [])) /\ reach (hash_entry hash) a1 (length (nth 0 l1 [])) /\
    mirrors (del_rep n0) pad_entry a0 o1 /\ mirrors (del_rep n1) pad_entry a1 o0 /\
    (start = 0 -> a0 = tree_new stash node /\ a1 = tree_new stash node);
  df_written : (dd_trees d = None <-> start = 0);
  df_change : dd_expected d = score func (held_after (rows t0) h0) (held_after (rows t1) h1) - score func (rows t0) (rows t1) }.

Section Facts.
Context {Gr : group}.
Variables stash node : nat.
Hypothesis SS_ : Z.of_nat stash < 2 ^ 31.
Hypothesis NS : Z.of_nat node < 2 ^ 31.
Variable hash : Z -> list bool.
Hypothesis hash_len : forall x, length (hash x) = 256%nat.
Variables (p0 q0 p1 q1 : Z) (P0 P1 : pub) (V0 V1 : priv).
Hypothesis KP0 : paillier_pair p0 q0 P0 V0.
Hypothesis KP1 : paillier_pair p1 q1 P1 V1.
Variables (days daily start max_value : Z) (func : functionality).
Hypothesis UD : uint32 days.
Hypothesis UY : uint32 daily.
Hypothesis US : uint32 start.
Hypothesis SM : start + days * daily < 2 ^ 30.
Hypothesis DP : 0 < days.
Notation max := (u32 max_value).

Lemma generate_facts tp :
  match generate_deletion days daily start max func tp with
  | Ok ((t0, D0, t1, D1, result), tp1) =>
    exists csv0 csv1 h0 h1 s0 s1, first_days days D0 = Ok csv0 /\ first_days days D1 = Ok csv1 /\ dataset_pairs t0 = Ok s0 /\ dataset_pairs t1 = Ok s1 /\
      Forall plus s0 /\ Forall plus s1 /\ int_range (length s0) /\ int_range (length s1) /\
      forall trees, (forall a, trees = Some a -> start <> 0 /\ imported (Gr := Gr) hash p0 q0 p1 q1 a s0 s1) -> (trees = None -> start = 0) ->
        exists l0 l1, nth 0 l0 [] = s0 /\ nth 0 l1 [] = s1 /\
        del_facts hash stash node (p0 * q0) (p1 * q1) days start max func (mkDelD csv0 csv1 trees result (t0, D0, t1, D1)) t0 t1 D0 D1 h0 h1 l0 l1
  | _ => True end.
Proof.
  destruct (generate_deletion days daily start max func tp) as [[[[[[t0 D0] t1] D1] result] tp1]| | |] eqn:EG; auto.
  assert (UM : uint32 max) by (apply Z.mod_pos_bound; reflexivity).
  destruct (C43_loaded _ _ _ _ _ _ _ _ _ _ _ _ UD UY US UM EG SM) as (l0 & l1 & LO0 & LO1 & LL & PS & _).
  destruct (C43_deletes_what_is_present _ _ _ _ _ _ _ _ _ _ _ _ UD UY US UM EG) as (DYP & h0 & h1 & R0 & R1 & LV & O0 & O1 & A0 & A1 & W0 & W1 & S0 & S1 & (_ & RES) & SZ).
  unfold uint32 in *. destruct SZ as (LD0 & LD1 & SZ & _); [lia|].
  assert (LV0 : Forall (fun d => length (d_values d) = length (d_elements d)) (t0 :: D0)). { apply Forall_cons_iff in LV as (Q & LV). apply Forall_app in LV as (LV & _). constructor; auto. }
  assert (LV1 : Forall (fun d => length (d_values d) = length (d_elements d)) (t1 :: D1)). { apply Forall_cons_iff in LV as (Q & LV). apply Forall_app in LV as (_ & LV). auto. }
  assert (E0 : Forall (fun r => set_element (fst r)) (rows t0 ++ concat (map snd h0))) by (eapply Forall_impl; [|exact W0]; cbn; tauto).
  assert (E1 : Forall (fun r => set_element (fst r)) (rows t1 ++ concat (map snd h1))) by (eapply Forall_impl; [|exact W1]; cbn; tauto).
  assert (B0 : Forall (fun r => 0 <= snd r < 2 ^ 63) (rows t0 ++ concat (map snd h0))). { eapply Forall_impl; [|exact W0]. cbn beta. intros r (Q1 & Q2). pose proof (value_small _ _ _ UM Q1 Q2). unfold uint32 in UM. lia. }
  assert (B1 : Forall (fun r => 0 <= snd r < 2 ^ 63) (rows t1 ++ concat (map snd h1))). { eapply Forall_impl; [|exact W1]. cbn beta. intros r (Q1 & Q2). lia. }
  assert (N0 : Forall (fun r => - 2 ^ 63 < snd r < 2 ^ 63) (rows t0 ++ concat (map snd h0))) by (eapply Forall_impl; [|exact B0]; cbn beta; intros; lia).
  assert (N1 : Forall (fun r => - 2 ^ 63 < snd r < 2 ^ 63) (rows t1 ++ concat (map snd h1))) by (eapply Forall_impl; [|exact B1]; cbn beta; intros; lia).
  rewrite (load_rows t0 D0 h0 LV0 R0 O0 E0 N0) in LO0. rewrite (load_rows t1 D1 h1 LV1 R1 O1 E1 N1) in LO1. apply Ok_inj' in LO0, LO1.
  assert (LDD0 : length D0 = Z.to_nat days) by lia. assert (LDD1 : length D1 = Z.to_nat days) by lia.
  assert (LH0 : length h0 = Z.to_nat days) by (rewrite <- (map_length written h0), <- R0, map_length; auto).
  assert (LH1 : length h1 = Z.to_nat days) by (rewrite <- (map_length written h1), <- R1, map_length; auto).
  assert (DC : forall t D (h : changes), Forall (fun d => length (d_values d) = length (d_elements d)) (t :: D) -> map rows D = map written h -> only_held (rows t) h ->
    Forall (fun r => set_element (fst r)) (rows t ++ concat (map snd h)) -> Forall (fun r => - 2 ^ 63 < snd r < 2 ^ 63) (rows t ++ concat (map snd h)) ->
    Forall (fun d => Forall clean (d_elements d) /\ Forall int64 (d_values d) /\ length (d_values d) = length (d_elements d)) D).
  { intros t D h LVx Rx Ox Ex Nx. apply dataset_clean; [apply Forall_cons_iff in LVx; apply LVx|]. rewrite Rx.
    pose proof (written_elements h (rows t) Ox Ex) as F1. pose proof (written_values _ h (rows t) Ox Nx) as F2. cbn beta in F2. specialize (F2 ltac:(cbn; intros; lia)).
    rewrite Forall_forall in *. auto. }
  specialize (DC t0 D0 h0 LV0 R0 O0 E0 N0) as C0. specialize (DC t1 D1 h1 LV1 R1 O1 E1 N1) as C1.
  assert (WR : forall D, Forall (fun d => Forall clean (d_elements d) /\ Forall int64 (d_values d) /\ length (d_values d) = length (d_elements d)) D -> exists fs, omap dataset_write D = Ok fs /\ omap dataset_read fs = Ok D).
  { intros D F. apply omap_write_read. eapply Forall_impl; [|exact F]. cbn. tauto. }
  destruct (WR D0 C0) as (csv0 & X0 & _). destruct (WR D1 C1) as (csv1 & X1 & _).
  pose proof (load_rows t0 D0 h0 LV0 R0 O0 E0 N0) as P0'. pose proof (load_rows t1 D1 h1 LV1 R1 O1 E1 N1) as P1'.
  cbn [omap] in P0', P1'. apply obind_Ok in P0' as (s0 & PS0 & P0'). apply obind_Ok in P0' as (r0 & PD0 & P0'). apply obind_Ok in P1' as (s1 & PS1 & P1'). apply obind_Ok in P1' as (r1 & PD1 & P1').
  apply Ok_inj' in P0', P1'. cbn [map] in P0', P1'. apply (f_equal (fun l => match l with [] => ([], []) | a :: b => (a, b) end)) in P0', P1'. apply pair_equal_spec in P0' as (Q0 & Q0'), P1' as (Q1 & Q1'). symmetry in Q0, Q0', Q1, Q1'.
  assert (PL : forall t (h : changes) s, s = map as_number (rows t) -> Forall (fun r => set_element (fst r)) (rows t ++ concat (map snd h)) -> Forall (fun r => 0 <= snd r < 2 ^ 63) (rows t ++ concat (map snd h)) -> Forall plus s).
  { intros t h s -> Ex Bx. apply Forall_map. apply Forall_app in Ex as (Ex & _). apply Forall_app in Bx as (Bx & _). rewrite Forall_forall in *. intros r Hr. specialize (Ex r Hr). specialize (Bx r Hr). unfold plus, as_number. cbn [fst snd]. pose proof (number_range _ Ex). lia. }
  exists csv0, csv1, h0, h1, s0, s1.
  assert (FD : forall D csv, length D = Z.to_nat days -> omap dataset_write D = Ok csv -> first_days days D = Ok csv).
  { intros D csv LX WX. unfold first_days. destruct (Z.ltb_spec (Z.of_nat (length D)) days); [lia|]. rewrite <- LX, firstn_all. auto. }
  split; [apply FD; auto|]. split; [apply FD; auto|]. split; [auto|]. split; [auto|].
  split; [eapply PL; eauto|]. split; [eapply PL; eauto|].
  assert (IR0 : int_range (length s0)) by (rewrite Q0, map_length; unfold int_range; lia).
  assert (IR1 : int_range (length s1)) by (rewrite Q1, map_length; unfold int_range; lia).
  split; [auto|]. split; [auto|].
  intros trees TS TN. exists (s0 :: r0), (s1 :: r1). split; [reflexivity|]. split; [reflexivity|].
  assert (EL0 : s0 :: r0 = map (map as_number) (rows t0 :: map written h0)) by (rewrite Q0, Q0'; auto).
  assert (EL1 : s1 :: r1 = map (map as_number) (rows t1 :: map written h1)) by (rewrite Q1, Q1'; auto).
  constructor; cbn [dd_data dd_csv0 dd_csv1 dd_trees dd_expected nth tl]; auto.
  - rewrite EL0, EL1. replace (map (map as_number) (rows t0 :: map written h0)) with l0. replace (map (map as_number) (rows t1 :: map written h1)) with l1. auto.
  - eapply load_written; eauto.
  - eapply load_written; eauto.
  - destruct trees as [f|].
    + destruct (TS f eq_refl) as (NZ & a0 & o0 & a1 & o1 & I1 & I2 & I3 & I4 & I5 & I6). exists a0, o0, a1, o1. cbn [del_trees_for]. do 6 (split; [auto|]). intros; lia.
    + exists (tree_new stash node), (tree_new stash node), (tree_new stash node), (tree_new stash node). cbn [del_trees_for]. specialize (TN eq_refl).
      assert (Z0 : length s0 = O) by (rewrite Q0, map_length; lia). assert (Z1 : length s1 = O) by (rewrite Q1, map_length; lia). destruct s0; [|discriminate Z0]. destruct s1; [|discriminate Z1].
      do 2 (split; [auto|]). do 2 (split; [apply reach_new|]). do 2 (split; [apply mirrors_new|]). auto.
  - split; [auto|]. destruct trees as [f|]; auto. intros Z0. destruct (TS f eq_refl) as (NZ & _). lia.
  - apply RES. intros _. unfold uint32 in UM. nia.
Qed.
Lemma del_generate_facts tp :
  match del_generate (Gr := Gr) hash V0 V1 stash node days daily start max_value func tp with
  | Ok (d, _) => exists t0 t1 D0 D1 h0 h1 l0 l1, del_facts hash stash node (p0 * q0) (p1 * q1) days start max func d t0 t1 D0 D1 h0 h1 l0 l1 /\
      exists tp1, generate_deletion days daily start max func tp = Ok ((t0, D0, t1, D1, dd_expected d), tp1)
  | Err _ => True
  | Abort => generate_deletion days daily start max func tp = Abort
  | UB => generate_deletion days daily start max func tp = UB end.
Proof.
  unfold del_generate. unfold bind at 1. pose proof (generate_facts tp) as X.
  destruct (generate_deletion days daily start max func tp) as [[[[[[t0 D0] t1] D1] result] tp1]| | |]; auto.
  destruct X as (csv0 & csv1 & h0 & h1 & s0 & s1 & W0 & W1 & E0 & E1 & G0 & G1 & I0 & I1 & X).
  unfold bind at 1, lift at 1. rewrite W0. unfold bind at 1, lift at 1. rewrite W1. destruct (Z.ltb_spec 0 start).
  - unfold bind at 1, lift at 1. rewrite E0. unfold bind at 1, lift at 1. rewrite E1. unfold bind at 1.
    pose proof (setup_trees_ok (Gr := Gr) stash node SS_ NS hash hash_len p0 q0 p1 q1 P0 P1 V0 V1 KP0 KP1 s0 s1 tp1 I0 I1 G0 G1) as Y.
    destruct (del_setup_trees hash V0 V1 stash node s0 s1 tp1) as [[f tp2]| | |]; auto; try contradiction. unfold ret.
    destruct (X (Some f)) as (l0 & l1 & _ & _ & F).
    { intros a Ea. inversion Ea; subst a. split; [lia|auto]. } { discriminate. }
    exists t0, t1, D0, D1, h0, h1, l0, l1. split; [auto|]. exists tp1. reflexivity.
  - unfold ret. unfold uint32 in US. destruct (X None) as (l0 & l1 & _ & _ & F).
    { discriminate. } { intros _. lia. }
    exists t0, t1, D0, D1, h0, h1, l0, l1. split; [auto|]. exists tp1. reflexivity.
Qed.
End Facts.

(** ** the result day by day *)
Lemma upto_rows k t h : upto (S k) (map (map as_number) (rows t :: map written h)) = map as_number (rows t ++ concat (map written (firstn k h))).
Proof. unfold upto. cbn [map firstn concat]. rewrite firstn_map, <- concat_map, firstn_map, <- map_app. reflexivity. Qed.
Lemma held_NoDup h : forall held, only_held held h -> NoDup (map fst (held ++ concat (map snd h))) -> NoDup (map fst (held_after held h)).
Proof.
  induction h as [|[d a] h IH]; intros held O A; cbn [held_after map concat snd only_held] in *; [rewrite app_nil_r in A; auto|].
  destruct O as (Q1 & Q2 & Q3). apply IH; auto. assert (NH : NoDup (map fst held)) by (rewrite map_app in A; eapply NoDup_app_l; eauto).
  apply (NoDup_app_r (map fst d)). rewrite <- map_app. eapply Permutation_NoDup; [|exact A]. apply Permutation_map. rewrite <- app_assoc, (app_assoc d). apply Permutation_app_tail, drop_split; auto.
Qed.
Lemma added_prefix k t (h : changes) : NoDup (map fst (t ++ concat (map snd h))) -> NoDup (map fst (t ++ concat (map snd (firstn k h)))).
Proof.
  intros N. rewrite <- (firstn_skipn k h), (map_app snd), concat_app, app_assoc, map_app in N. eapply NoDup_app_l; eauto.
Qed.
Lemma only_prefix k held h : only_held held h -> only_held held (firstn k h).
Proof. intros O. rewrite <- (firstn_skipn k h) in O. apply only_held_app in O. tauto. Qed.
Lemma forall_prefix {P : bytes * Z -> Prop} k t (h : changes) : Forall P (t ++ concat (map snd h)) -> Forall P (t ++ concat (map snd (firstn k h))).
Proof.
  intros F. rewrite <- (firstn_skipn k h), (map_app snd), concat_app, app_assoc in F. apply Forall_app in F. tauto.
Qed.
Lemma held_forall {P : bytes * Z -> Prop} (h : changes) held : Forall P (held ++ concat (map snd h)) -> Forall P (held_after held h).
Proof. intros F. apply Forall_forall. intros r Hr. apply held_after_incl in Hr. rewrite Forall_forall in F. auto. Qed.
Lemma inner_held f t0 t1 h0 h1 : f = CA \/ f = SUM -> only_held (rows t0) h0 -> only_held (rows t1) h1 -> added_once (rows t0) h0 -> added_once (rows t1) h1 ->
  Forall (fun r => set_element (fst r)) (rows t0 ++ concat (map snd h0)) -> Forall (fun r => set_element (fst r) /\ snd r = 1) (rows t1 ++ concat (map snd h1)) ->
  inner (map as_number (rows t0 ++ concat (map written h0))) (map as_number (rows t1 ++ concat (map written h1)))
  = score f (held_after (rows t0) h0) (held_after (rows t1) h1).
Proof.
  intros F O0 O1 A0 A1 E0 V1. assert (E1 : Forall (fun r => set_element (fst r)) (rows t1 ++ concat (map snd h1))) by (eapply Forall_impl; [|exact V1]; cbn; tauto).
  pose proof (held_forall _ _ E0) as HE0. pose proof (held_forall _ _ V1) as HE1.
  assert (AE0 : Forall (fun r => set_element (fst r)) (rows t0 ++ concat (map written h0))). { apply Forall_app. split; [apply Forall_app in E0; apply E0|eapply written_elements; eauto]. }
  assert (AE1 : Forall (fun r => set_element (fst r)) (rows t1 ++ concat (map written h1))). { apply Forall_app. split; [apply Forall_app in E1; apply E1|eapply written_elements; eauto]. }
  rewrite (inner_ext _ _ (map as_number (held_after (rows t1) h1))).
  - rewrite inner_comm, (inner_ext _ _ (map as_number (held_after (rows t0) h0))), inner_comm.
    + rewrite inner_score; auto; [destruct F as [-> | ->]; reflexivity|]. apply held_NoDup; auto.
    + apply net_same; auto. intros s. apply signed_history; auto.
  - apply net_same; auto; [eapply Forall_impl; [|exact HE1]; cbn; tauto|]. intros s. apply signed_history; auto.
Qed.
(** the initial trees as a first day *)
Lemma dinv_deployed {Gr : group} (hash : Z -> list bool) p0 q0 p1 q1 (l0 l1 : list (list entry)) a0 o0 a1 o1 : l0 <> [] -> l1 <> [] ->
  reach (hash_entry hash) a0 (length (nth 0 l0 [])) -> reach (hash_entry hash) a1 (length (nth 0 l1 [])) ->
  mirrors (del_rep (p0 * q0)) pad_entry a0 o1 -> mirrors (del_rep (p1 * q1)) pad_entry a1 o0 ->
  let st := del_start_with (a0, o0) (a1, o1) (tl l0) (tl l1) in dinv hash p0 q0 p1 q1 l0 l1 1 1 (fst (fst st)) (snd (fst st)).
Proof.
  intros N0 N1 R0 R1 M0 M1. destruct l0 as [|s0 l0]; [congruence|]. destruct l1 as [|s1 l1]; [congruence|]. cbn [nth tl] in *.
  constructor; cbn [del_start_with fst snd dc_party ds_party pt_my pt_other dc_day ds_day dc_total dc_data ds_data]; auto.
  - unfold upto. cbn [firstn concat]. rewrite app_nil_r. auto.
  - unfold upto. cbn [firstn concat]. rewrite app_nil_r. auto.
Qed.
