(** The programs of the addition-only protocols (ProgModel). *)
Require Import String.
Require Import List Arith Lia ZArith Permutation Bool Znumtheory.
Import ListNotations.
From Verif Require Import Prelude NumTheory TreeModel TreeSpec Coins Group ElGamalModel ElGamalProofs BytesModel BytesProofs ContextModel CipherModel PaillierModel PaillierProofs PropsPaillier WireModel SyncModel FlagModel CsvModel CsvProofs DataModel DataSpec DataProofs PropsData AddModel AddSpec SetupModel FileModel FileSpec FileProofs PropsFile KeyModel KeyProofs PropsKeys DeployModel DeployProofs ProgModel.
Local Open Scope Z_scope.

(** ** names *)
Lemma path_id x : ~ In slash x -> path x = x.
Proof.
  induction x as [|c x IH]; intros NI; auto. cbn [path]. destruct x as [|d x]; auto. rewrite IH by (intros H; apply NI; right; auto).
  destruct (Z.eqb_spec c slash) as [->|]; auto. exfalso. apply NI. left. auto.
Qed.
Lemma path_id_dir a b x : a <> slash -> b <> slash -> ~ In slash x -> x <> [] -> path ([a; b; slash] ++ x) = [a; b; slash] ++ x.
Proof.
  intros NA NB NI NE. destruct x as [|c x]; [congruence|]. assert (NC : c <> slash) by (intros ->; apply NI; left; auto).
  change ([a; b; slash] ++ c :: x) with ([a; b; slash] ++ (c :: x)). rewrite path_app by exact NC. rewrite (path_id (c :: x) NI). f_equal.
  cbn [path]. rewrite (proj2 (Z.eqb_neq a slash) NA), (proj2 (Z.eqb_neq b slash) NB). reflexivity.
Qed.
Definition party_byte (w : bool) : Z := if w then 49 else 48.
Definition party_dir (w : bool) (d : bytes) : bytes := if w then p1_dir d else p0_dir d.
Lemma file_path w d x : ~ In slash x -> x <> [] -> path (party_dir w d ++ x) = path d ++ [112; party_byte w; slash] ++ x.
Proof.
  intros NI NE. destruct w; cbn [party_dir party_byte]; [rewrite p1_path|rewrite p0_path]; f_equal; apply path_id_dir; auto; discriminate.
Qed.
Lemma dec_no_slash i : 0 <= i -> ~ In slash (dec_int i).
Proof.
  intros G H. unfold dec_int in H. destruct (Z.ltb_spec i 0); [lia|]. destruct (dec_nat_ok i G) as (F & _). rewrite Forall_forall in F. apply F in H. discriminate H.
Qed.
Lemma day_path w d i : 0 <= i -> path (day_file (party_dir w d) i) = path d ++ [112; party_byte w; slash] ++ dec_int i ++ dot_csv.
Proof.
  intros G. unfold day_file. apply file_path.
  - intros H. apply in_app_or in H as [H|H]; [exact (dec_no_slash i G H)|]. cbn in H. unfold slash in H. repeat (destruct H as [H|H]; [discriminate|]). destruct H.
  - destruct (dec_int i); discriminate.
Qed.
Lemma day_path_inj w w' d i j : 0 <= i -> 0 <= j -> path (day_file (party_dir w d) i) = path (day_file (party_dir w' d) j) -> w = w' /\ i = j.
Proof.
  intros Gi Gj H. rewrite !day_path in H by auto. apply app_inv_head in H. cbn [app] in H. injection H as H1 H2. split.
  - destruct w, w'; auto; discriminate.
  - apply app_inv_tail in H2. pose proof (dec_int_parse i) as A. rewrite H2, dec_int_parse in A. injection A as _ A. lia.
Qed.
(** names with different last bytes differ *)
Lemma last_differ (a b : bytes) x y : x <> y -> a ++ [x] <> b ++ [y].
Proof. intros N H. apply app_inj_tail in H as (_ & H). auto. Qed.
Lemma path_last d x c : c <> slash -> path (d ++ x ++ [c]) = path (d ++ x) ++ [c].
Proof. intros N. rewrite app_assoc. apply (path_app (d ++ x) [c]). exact N. Qed.
Lemma day_last w d i : 0 <= i -> exists a, path (day_file (party_dir w d) i) = a ++ [118].
Proof. intros G. rewrite day_path by auto. exists (path d ++ [112; party_byte w; slash] ++ dec_int i ++ [46; 99; 115]). rewrite <- !app_assoc. auto. Qed.
Definition tree_names : list bytes := [plaintext_tree; encrypted_tree].
Lemma tree_path w d x : In x tree_names -> path (party_dir w d ++ x) = path d ++ [112; party_byte w; slash] ++ x.
Proof.
  intros H. apply file_path; destruct H as [<-|[<-|[]]]; try discriminate; cbn; unfold slash; intros H; repeat (destruct H as [H|H]; [discriminate|]); destruct H.
Qed.
Lemma tree_last w d x : In x tree_names -> exists a, path (party_dir w d ++ x) = a ++ [101].
Proof.
  intros H. rewrite tree_path by auto. destruct H as [<-|[<-|[]]].
  - exists (path d ++ [112; party_byte w; slash] ++ [112; 108; 97; 105; 110; 116; 101; 120; 116; 46; 116; 114; 101]). rewrite <- !app_assoc. auto.
  - exists (path d ++ [112; party_byte w; slash] ++ [101; 110; 99; 114; 121; 112; 116; 101; 100; 46; 116; 114; 101]). rewrite <- !app_assoc. auto.
Qed.
Lemma tree_path_inj w w' d x x' : In x tree_names -> In x' tree_names -> path (party_dir w d ++ x) = path (party_dir w' d ++ x') -> w = w' /\ x = x'.
Proof.
  intros I1 I2 H. rewrite !tree_path in H by auto. apply app_inv_head in H. cbn [app] in H. injection H as H1 H2. split; auto. destruct w, w'; auto; discriminate.
Qed.
(** the files of a data directory *)
Definition csv_paths (w : bool) (data : bytes) (day : Z) (k : nat) : list bytes := map (fun i => path (day_file (party_dir w data) (day + Z.of_nat i))) (seq 0 k).
Definition tree_paths (data : bytes) : list bytes := map path [p0_dir data ++ plaintext_tree; p0_dir data ++ encrypted_tree; p1_dir data ++ plaintext_tree; p1_dir data ++ encrypted_tree].
Definition data_files (data : bytes) (days : nat) : list bytes := csv_paths false data 1 days ++ csv_paths true data 1 days ++ tree_paths data.
Lemma in_csv w data day k f : In f (csv_paths w data day k) <-> exists i, (i < k)%nat /\ f = path (day_file (party_dir w data) (day + Z.of_nat i)).
Proof. unfold csv_paths. rewrite in_map_iff. split; intros (i & A & B); exists i; rewrite in_seq in *; split; auto; lia. Qed.
Lemma in_trees data f : In f (tree_paths data) <-> exists w x, In x tree_names /\ f = path (party_dir w data ++ x).
Proof.
  unfold tree_paths, tree_names. cbn [map In]. split.
  - intros [<-|[<-|[<-|[<-|[]]]]]; [exists false, plaintext_tree|exists false, encrypted_tree|exists true, plaintext_tree|exists true, encrypted_tree]; auto.
  - intros ([|] & x & [<-|[<-|[]]] & ->); cbn [party_dir]; tauto.
Qed.
Lemma csv_paths_S w data day k : csv_paths w data day (S k) = path (day_file (party_dir w data) day) :: csv_paths w data (day + 1) k.
Proof.
  unfold csv_paths. cbn [seq map]. rewrite Z.add_0_r. f_equal. rewrite <- seq_shift, map_map. apply map_ext. intros i. f_equal. f_equal. lia.
Qed.
Lemma key_file_last out f : In f (threshold_files out) -> exists a c, f = a ++ [c] /\ c <> 118 /\ c <> 101.
Proof.
  assert (G : forall d x c, c <> slash -> c <> 118 -> c <> 101 -> exists a c', path (d ++ x ++ [c]) = a ++ [c'] /\ c' <> 118 /\ c' <> 101).
  { intros d x c N1 N2 N3. exists (path (d ++ x)), c. rewrite path_last by auto. auto. }
  unfold threshold_files. cbn [map In]. intros [<-|[<-|[<-|[<-|[<-|[<-|[<-|[<-|[]]]]]]]]];
    first [ apply (G _ [101; 108; 103; 97; 109; 97; 108; 46; 112; 117] 98); discriminate
          | apply (G _ [101; 108; 103; 97; 109; 97; 108; 46; 107; 101] 121); discriminate
          | apply (G _ [115; 104; 97; 114; 101; 100; 46; 112; 117] 98); discriminate
          | apply (G _ [112; 97; 105; 108; 108; 105; 101; 114; 46; 107; 101] 121); discriminate ].
Qed.
Lemma data_file_last data days f : In f (data_files data days) -> exists a c, f = a ++ [c] /\ (c = 118 \/ c = 101).
Proof.
  unfold data_files. rewrite !in_app_iff, !in_csv, in_trees. intros [(i & _ & ->)|[(i & _ & ->)|(w & x & I1 & ->)]].
  - destruct (day_last false data (1 + Z.of_nat i) ltac:(lia)) as (a & ->). eauto.
  - destruct (day_last true data (1 + Z.of_nat i) ltac:(lia)) as (a & ->). eauto.
  - destruct (tree_last w data x I1) as (a & ->). eauto.
Qed.
Lemma keys_apart out data days f : In f (threshold_files out) -> ~ In f (data_files data days).
Proof.
  intros K D. apply key_file_last in K as (a & c & -> & N1 & N2). apply data_file_last in D as (b & c' & E & N3). apply app_inj_tail in E as (_ & ->). destruct N3; auto.
Qed.

(** ** data set files *)
Lemma set_file_same w n c : files (step (set_file w n c)) n = c.
Proof. cbn. unfold upd, name_eqb. destruct (list_eq_dec Z.eq_dec n n); congruence. Qed.
Lemma set_file_other w n c m : m <> n -> files (step (set_file w n c)) m = files w m.
Proof. intros H. cbn. unfold upd, name_eqb. destruct (list_eq_dec Z.eq_dec m n); congruence. Qed.
Section Streams.
Variable e : env.
Lemma write_csv_only text name w w' o : write_csv e text name w = (w', o) -> same_except [name] w w'.
Proof.
  unfold write_csv. intros H n NI. assert (NE : n <> name) by (intros ->; apply NI; left; auto).
  destruct (fault e (tick w)); [injection H as <- _; auto|].
  destruct text; [|injection H as <- _; apply set_file_other; auto ..].
  destruct (fault e _); injection H as <- _; rewrite !set_file_other by auto; auto.
Qed.
Lemma write_csv_Ok text name w w' : write_csv e text name w = (w', Ok tt) -> exists c, text = Ok c /\ files w' name = Some c.
Proof.
  unfold write_csv. intros H. destruct (fault e (tick w)); [discriminate|]. destruct text as [c|c| |]; try discriminate. destruct (fault e _); [discriminate|].
  injection H as <-. exists c. split; auto. apply set_file_same.
Qed.
Lemma write_csv_run c name w : reliable e -> exists w', write_csv e (Ok c) name w = (w', Ok tt).
Proof. intros R. unfold write_csv. rewrite !R. eauto. Qed.

(** the data sets of a party's directory, from [day] on *)
Fixpoint days_hold (w : world) (dir : bytes) (day : Z) (csv : list bytes) : Prop :=
  match csv with [] => True | c :: r => files w (path (day_file dir day)) = Some c /\ days_hold w dir (day + 1) r end.
Lemma days_hold_keep w w' p data csv : forall day l, days_hold w (party_dir p data) day csv -> same_except l w w' ->
  (forall i, (i < length csv)%nat -> ~ In (path (day_file (party_dir p data) (day + Z.of_nat i))) l) -> days_hold w' (party_dir p data) day csv.
Proof.
  induction csv as [|c csv IH]; intros day l H SE NI; [exact I|]. cbn [days_hold] in *. destruct H as (H1 & H2). split.
  - rewrite SE; auto. specialize (NI O). rewrite Z.add_0_r in NI. apply NI. cbn [length]. lia.
  - apply (IH _ l); auto. intros i L. specialize (NI (S i)). rewrite Nat2Z.inj_succ in NI. replace (day + 1 + Z.of_nat i) with (day + Z.succ (Z.of_nat i)) by lia. apply NI. cbn [length]. lia.
Qed.
Lemma write_days_Ok data k : forall day l0 l1 w w', 0 <= day -> write_days e (p0_dir data) (p1_dir data) k day l0 l1 w = (w', Ok tt) ->
  exists csv0 csv1, omap dataset_write (firstn k l0) = Ok csv0 /\ omap dataset_write (firstn k l1) = Ok csv1 /\ length csv0 = k /\ length csv1 = k
    /\ days_hold w' (p0_dir data) day csv0 /\ days_hold w' (p1_dir data) day csv1
    /\ same_except (csv_paths false data day k ++ csv_paths true data day k) w w'.
Proof.
  induction k as [|k IH]; intros day l0 l1 w w' G H; cbn [write_days] in H.
  - injection H as <-. exists [], []. cbn [firstn omap length days_hold csv_paths seq map app]. repeat (split; [auto|]). apply same_except_refl.
  - destruct l0 as [|x0 l0]; [discriminate|]. destruct l1 as [|x1 l1]; [discriminate|].
    apply sbind_Ok in H as (w1 & [] & H1 & H). apply sbind_Ok in H as (w2 & [] & H2 & H).
    pose proof (write_csv_only _ _ _ _ _ H1) as S1. pose proof (write_csv_only _ _ _ _ _ H2) as S2.
    apply write_csv_Ok in H1 as (c0 & E0 & F0). apply write_csv_Ok in H2 as (c1 & E1 & F1).
    apply IH in H as (csv0 & csv1 & O0 & O1 & L0 & L1 & D0 & D1 & SE); [|lia].
    exists (c0 :: csv0), (c1 :: csv1). cbn [firstn omap]. rewrite E0, E1. cbn [obind]. rewrite O0, O1. cbn [obind length days_hold].
    assert (NJ : forall p, ~ In (path (day_file (party_dir p data) day)) (csv_paths false data (day + 1) k ++ csv_paths true data (day + 1) k)).
    { intros p Q. apply in_app_iff in Q as [Q|Q]; apply in_csv in Q as (i & _ & Q); apply day_path_inj in Q; lia. }
    split; [auto|]. split; [auto|]. split; [lia|]. split; [lia|].
    assert (NP : path (day_file (p0_dir data) day) <> path (day_file (p1_dir data) day)).
    { intros Q. apply (day_path_inj false true) in Q as (Q & _); auto; discriminate. }
    split; [split; auto; rewrite (SE (path (day_file (p0_dir data) day)) (NJ false)); rewrite S2; [exact F0|intros [Q|[]]; apply NP; auto]|].
    split; [split; auto; rewrite (SE (path (day_file (p1_dir data) day)) (NJ true)); exact F1|].
    rewrite !csv_paths_S. intros f NI. rewrite SE by (intros Q; apply NI; apply in_app_iff in Q as [Q|Q]; apply in_app_iff; [left; right; auto|right; right; auto]).
    rewrite S2 by (intros [<-|[]]; apply NI; apply in_app_iff; right; left; auto). apply S1. intros [<-|[]]; apply NI; apply in_app_iff; left; left; auto.
Qed.
(** reading them back without errors *)
Lemma read_csv_run c name w : reliable e -> files w name = Some c -> read_csv e name w = (mkWorld (files w) (S (S (tick w))), dataset_read c).
Proof. intros R F. unfold read_csv. rewrite R, F. cbn. rewrite R. auto. Qed.
Lemma read_days_run dir csv : reliable e -> forall day w ds, days_hold w dir day csv -> omap dataset_read csv = Ok ds ->
  exists k, read_days e dir (length csv) day w = (mkWorld (files w) k, Ok ds).
Proof.
  intros R. induction csv as [|c csv IH]; intros day w ds H E; cbn [omap] in E.
  - injection E as <-. exists (tick w). destruct w. reflexivity.
  - apply obind_Ok in E as (d & E1 & E). apply obind_Ok in E as (r & E2 & E). injection E as <-. destruct H as (H1 & H2). cbn [length read_days].
    unfold sbind at 1. rewrite (read_csv_run c _ _ R H1), E1. set (w1 := mkWorld _ _).
    assert (H3 : days_hold w1 dir (day + 1) csv). { clear - H2. revert H2. generalize (day + 1). induction csv as [|x csv IH]; intros z H; auto. destruct H as (A & B). split; auto. }
    destruct (IH (day + 1) w1 r H3 E2) as (k & K). unfold sbind. rewrite K. eexists. reflexivity.
Qed.
End Streams.

Section Prog.
Context {Gr : group}.
Variables (cpub : codec (pub_msg (Gr := Gr))) (csec : codec sec_msg) (cthr : codec thr_msg).
Variables (cpt : codec (tree_file pnode)) (cet : codec (tree_file (list (welem Gr)))).
Hypotheses (Fpub : faithful cpub) (Fsec : faithful csec) (Fthr : faithful cthr) (Fpt : faithful cpt) (Fet : faithful cet).
Variable hash : Z -> list bool.
Variables stash node : nat.
Variable two_k_ary : bool.
Variable fuel : nat.
Notation new_paillier := (new_paillier two_k_ary fuel).

Lemma new_paillier_Ok n t P t' : new_paillier n t = Ok (P, t') -> thr_object n P.
Proof. unfold ProgModel.new_paillier. intros H. destruct (pub_new two_k_ary fuel n 1 t) as [o|] eqn:E; [|discriminate]. subst o. exists two_k_ary, fuel, t, t'. exact E. Qed.

Lemma make_total flag n x : 1 < n -> (flag = true -> Z.odd n = true) -> exists P, pub_make flag n 1 x = Ok P.
Proof.
  intros Hn OD. unfold pub_make. destruct (powers_1 n) as (P0 & P1 & P2). change (1 + 1)%nat with 2%nat. rewrite P1, P2.
  rewrite mod_exp_total by nia. cbn [obind]. set (b := (_ ^ _) mod (n * n)). assert (B : 0 <= b < n * n) by (apply Z.mod_pos_bound; nia).
  assert (F : exists f, fbe_new flag b (n * n) = Ok f).
  { unfold fbe_new. destruct flag; [|eauto]. unfold two_k_ary_new. rewrite Z.even_mul, <- Z.negb_odd, OD by auto.
    rewrite (proj2 (Z.leb_gt _ _)) by nia. rewrite (proj2 (Z.leb_gt _ _)) by lia. rewrite (proj2 (Z.ltb_ge _ _)) by lia. cbn [negb orb]. eauto. }
  destruct F as (f & ->). cbn [obind]. unfold get_precomp. cbn [precomp_loop]. change (Z.of_nat 1) with 1. rewrite mod_inverse_total by (try nia; apply Z.gcd_1_l). cbn [value obind]. eauto.
Qed.
Lemma prime_draw n : 0 < n -> forall k t, match rel_prime_less_than k n t with Some (Ok _) | None => True | _ => False end.
Proof.
  intros Hn. induction k as [|k IH]; intros t; cbn [rel_prime_less_than]; auto. unfold rand_less_than. rewrite (proj2 (Z.ltb_lt 0 n) Hn). destruct (1 <? Z.gcd _ _); [apply IH|exact I].
Qed.
Lemma new_paillier_total n t : 1 < n -> (two_k_ary = true -> Z.odd n = true) -> match new_paillier n t with Ok (P, _) => thr_object n P | Err _ => True | _ => False end.
Proof.
  intros Hn OD. destruct (new_paillier n t) as [[P t']|c| |] eqn:E; auto; [eapply new_paillier_Ok; eauto| |];
  (unfold ProgModel.new_paillier, pub_new in E; pose proof (prime_draw n ltac:(lia) fuel t) as X; destruct (rel_prime_less_than fuel n t) as [[[x t1]|c| |]|]; auto; try discriminate;
   cbn [obind fst snd] in E; destruct (make_total two_k_ary n x Hn OD) as (P & Q); rewrite Q in E; discriminate).
Qed.
Lemma an_object n : 1 < n -> exists P, thr_object n P.
Proof.
  intros Hn. destruct (make_total false n 1 Hn ltac:(discriminate)) as (P & Q). exists P, false, 1%nat, (fun _ => 1), (tl_tape (fun _ => 1)).
  unfold pub_new. cbn [rel_prime_less_than]. unfold rand_less_than. rewrite (proj2 (Z.ltb_lt 0 n)) by lia. rewrite Z.mod_1_l by lia. rewrite Z.gcd_1_l. change (1 <? 1) with false. cbn [obind fst snd]. rewrite Q. auto.
Qed.

Section Trees.
Variable e : env.
Context {A C : Type}.
Variable ins : list A -> list (list bool) -> tree A -> tree A * list (TreeModel.node A).
Variable mk : Z -> A.
Variable enc : A -> M C.
Variable ser : C -> outcome (welem Gr).
Variable deser : welem Gr -> outcome C.
Variable serp : TreeModel.node A -> outcome pnode.
Lemma tree_files_Ok data pd ed s s' : path (pd ++ plaintext_tree) <> path (ed ++ encrypted_tree) ->
  tree_files_written cpt cet stash node e ins mk enc ser deser serp data pd ed s = (s', Ok tt) ->
  exists f, generate_trees stash node ins mk enc ser deser serp data (sy_coins s) = Ok (f, sy_coins s')
    /\ saved (sy_world s') cpt (pd ++ plaintext_tree) (fst f) /\ saved (sy_world s') cet (ed ++ encrypted_tree) (snd f)
    /\ same_except [path (pd ++ plaintext_tree); path (ed ++ encrypted_tree)] (sy_world s) (sy_world s').
Proof.
  intros NP H. unfold tree_files_written in H. apply sbind_Ok in H as (s1 & [pt et] & H1 & H). apply rand_Ok in H1 as (t & H1 & ->). cbn [fst snd] in H.
  apply sbind_Ok in H as (s2 & pm & H2 & H). apply pure_Ok in H2 as (H2 & ->). apply sbind_Ok in H as (s3 & [] & W1 & H). apply io_write_Ok in W1 as (W1 & X1 & C1).
  apply sbind_Ok in H as (s4 & em & H3 & H). apply pure_Ok in H3 as (H3 & ->). apply io_write_Ok in H as (W2 & X2 & C2). cbn [sy_world sy_coins] in *.
  exists (pm, em). split.
  - unfold fill_trees in H1. unfold generate_trees. destruct (send_update ins mk enc ser data (tree_new stash node) (sy_coins s)) as [pt' o].
    apply bind_Ok in H1 as (u & t1 & E1 & H1). apply bind_Ok in H1 as (et' & t2 & E2 & H1). injection H1 as -> -> ->.
    unfold bind at 1. rewrite E1. unfold bind at 1. rewrite E2. unfold write_trees, lift. rewrite H2. cbn [obind]. rewrite H3. cbn [obind]. rewrite C2, C1. auto.
  - cbn [fst snd]. split; [eapply saved_keep; [exact W1|exact X2|intros [Q|[]]; congruence]|]. split; [exact W2|]. apply (same_except_app [path (pd ++ plaintext_tree)] [path (ed ++ encrypted_tree)] _ _ _ X1 X2).
Qed.
End Trees.
Lemma load_encrypter_Ok e dir x s s' pk : saved (sy_world s) cpub (dir ++ shared_pub) (key_msg x) -> gpow (Gr := Gr) gen x <> gid ->
  io (load_encrypter cpub e dir shared_pub) s = (s', Ok pk) -> pk = key_of x /\ (forall f, files (sy_world s') f = files (sy_world s) f) /\ sy_coins s' = sy_coins s.
Proof.
  intros SV NZ H. apply io_Ok in H as (w' & H & ->). unfold load_encrypter in H. apply sbind_Ok in H as (w1 & m & H1 & H). apply pure_Ok in H as (H & ->).
  apply (read_msg_Ok e cpub _ _ _ _ _ Fpub SV) in H1 as (-> & F). rewrite deser_key in H by auto. injection H as <-. auto.
Qed.
Notation trees_zero := (trees_zero cpub cthr cpt cet hash stash node two_k_ary fuel).
Notation trees_one := (trees_one cpub cpt cet hash stash node).
Lemma trees_zero_Ok e func data kd pd ed x n k s s' : saved (sy_world s) cpub (kd ++ shared_pub) (key_msg x) -> gpow (Gr := Gr) gen x <> gid -> 0 <= n -> saved (sy_world s) cthr (kd ++ paillier_key) (bn2bin n, k) ->
  path (pd ++ plaintext_tree) <> path (ed ++ encrypted_tree) -> trees_zero e func data kd pd ed s = (s', Ok tt) ->
  exists pai u f, (func = SS -> thr_object n pai)
    /\ (if is_ss func then trees_paillier stash node hash (key_of x) pai data else trees_elgamal stash node hash (key_of x) data) u = Ok (f, sy_coins s')
    /\ saved (sy_world s') cpt (pd ++ plaintext_tree) (fst f) /\ saved (sy_world s') cet (ed ++ encrypted_tree) (snd f)
    /\ same_except [path (pd ++ plaintext_tree); path (ed ++ encrypted_tree)] (sy_world s) (sy_world s').
Proof.
  intros SP NZ GN ST NP H. unfold ProgModel.trees_zero in H. apply sbind_Ok in H as (s1 & pk & H1 & H). apply (load_encrypter_Ok e kd x) in H1 as (-> & F1 & C1); auto.
  destruct (is_ss func) eqn:IF.
  - apply sbind_Ok in H as (s2 & pm & H2 & H). apply io_Ok in H2 as (w' & H2 & ->).
    assert (ST1 : saved (sy_world s1) cthr (kd ++ paillier_key) (bn2bin n, k)) by (eapply saved_files; [exact F1|exact ST]).
    apply (read_msg_Ok e cthr _ _ _ _ _ Fthr ST1) in H2 as (-> & F2). cbn [fst] in H. replace (of_bytes (bn2bin n)) with n in H by (symmetry; apply bn2bin_spec; auto).
    apply sbind_Ok in H as (s3 & pai & H3 & H). apply rand_Ok in H3 as (t & H3 & ->). apply new_paillier_Ok in H3. cbn [sy_world sy_coins] in *.
    apply tree_files_Ok in H as (f & G & S1 & S2 & SE); auto. cbn [sy_world sy_coins] in *. exists pai, t, f. split; [auto|]. split; [exact G|]. split; auto. split; auto.
    intros g NI. rewrite SE by auto. rewrite F2, F1. auto.
  - apply tree_files_Ok in H as (f & G & S1 & S2 & SE); auto.
    destruct func; try discriminate;
    (exists (mkPub 0 0 [] 0 (mkFbe 0 0 None) []), (sy_coins s1), f; split; [discriminate|]; split; [exact G|]; split; auto; split; auto; intros g NI; rewrite SE by auto; apply F1).
Qed.
Lemma trees_one_Ok e data kd pd ed x s s' : saved (sy_world s) cpub (kd ++ shared_pub) (key_msg x) -> gpow (Gr := Gr) gen x <> gid ->
  path (pd ++ plaintext_tree) <> path (ed ++ encrypted_tree) -> trees_one e data kd pd ed s = (s', Ok tt) ->
  exists f, trees_plain stash node hash (key_of x) data (sy_coins s) = Ok (f, sy_coins s')
    /\ saved (sy_world s') cpt (pd ++ plaintext_tree) (fst f) /\ saved (sy_world s') cet (ed ++ encrypted_tree) (snd f)
    /\ same_except [path (pd ++ plaintext_tree); path (ed ++ encrypted_tree)] (sy_world s) (sy_world s').
Proof.
  intros SP NZ NP H. unfold ProgModel.trees_one in H. apply sbind_Ok in H as (s1 & pk & H1 & H). apply (load_encrypter_Ok e kd x) in H1 as (-> & F1 & C1); auto.
  apply tree_files_Ok in H as (f & G & S1 & S2 & SE); auto. exists f. rewrite <- C1. split; [exact G|]. split; auto. split; auto. intros g NI. rewrite SE by auto. apply F1.
Qed.

(** the trees in the four files *)
Definition trees_hold (w : world) (data : bytes) (f : tree_files Gr) : Prop :=
  saved w cpt (p0_dir data ++ plaintext_tree) (p0_plaintext f) /\ saved w cet (p0_dir data ++ encrypted_tree) (p0_encrypted f)
  /\ saved w cpt (p1_dir data ++ plaintext_tree) (p1_plaintext f) /\ saved w cet (p1_dir data ++ encrypted_tree) (p1_encrypted f).
Notation setup_data := (setup_data cpub cthr cpt cet hash stash node two_k_ary fuel).
Lemma firstn_days {B} (l : list B) k : length l = k -> firstn k l = l.
Proof. intros <-. apply firstn_all. Qed.
Lemma setup_data_Ok e data out days daily start flag max func x n k a s s' : uint32 days -> uint32 daily -> uint32 start -> - 2 ^ 31 <= flag < 2 ^ 31 -> 0 < max < 2 ^ 31 -> start + days * daily < 2 ^ 30 ->
  saved (sy_world s) cpub (p0_dir out ++ shared_pub) (key_msg x) -> saved (sy_world s) cpub (p1_dir out ++ shared_pub) (key_msg x) -> gpow (Gr := Gr) gen x <> gid ->
  1 < n -> saved (sy_world s) cthr (p0_dir out ++ paillier_key) (bn2bin n, k) ->
  setup_data e data out days daily start flag max func s = (s', Ok a) ->
  exists pai d, (func = SS -> thr_object n pai) /\ (forall sk0 sk1, x = sk0 + sk1 -> made hash stash node pai sk0 sk1 days daily start flag max func d)
    /\ dp_size d = an_size a /\ dp_sum d = an_sum a /\ dp_data d = an_data a
    /\ days_hold (sy_world s') (p0_dir data) 1 (dp_csv0 d) /\ days_hold (sy_world s') (p1_dir data) 1 (dp_csv1 d)
    /\ length (dp_csv0 d) = Z.to_nat days /\ length (dp_csv1 d) = Z.to_nat days
    /\ match dp_trees d with Some f => 0 < start /\ trees_hold (sy_world s') data f | None => start <= 0 end
    /\ same_except (data_files data (Z.to_nat days)) (sy_world s) (sy_world s').
Proof.
  intros U1 U2 U3 FL MX TB SP0 SP1 NZ GN ST H. unfold ProgModel.setup_data in H. set (shared := shared_size (u32 (start + u32 (days * daily))) flag) in *.
  apply sbind_Ok in H as (s1 & [[[[t0 l0] t1] l1] sum] & G & H). apply rand_Ok in G as (tp1 & G & ->).
  assert (LL : length l0 = Z.to_nat days /\ length l1 = Z.to_nat days).
  { assert (V4 : uint32 (u32 shared)) by (apply Z.mod_pos_bound; reflexivity). assert (V5 : uint32 (u32 max)) by (apply Z.mod_pos_bound; reflexivity).
    destruct (C42_as_requested _ _ _ _ _ _ _ _ _ _ _ _ U1 U2 U3 V4 V5 G) as (_ & _ & _ & _ & LD0 & _ & _ & LD1 & _). lia. }
  destruct LL as (LL0 & LL1).
  apply sbind_Ok in H as (s2 & [] & W & H). apply io_Ok in W as (w2 & W & ->). cbn [sy_world sy_coins] in *.
  apply write_days_Ok in W as (csv0 & csv1 & O0 & O1 & L0 & L1 & D0 & D1 & SE); [|lia]. rewrite firstn_days in O0, O1 by auto.
  assert (CT : forall i, In i (csv_paths false data 1 (Z.to_nat days) ++ csv_paths true data 1 (Z.to_nat days)) -> In i (data_files data (Z.to_nat days))).
  { intros i. unfold data_files. rewrite !in_app_iff. tauto. }
  assert (TI : forall w x, In x tree_names -> In (path (party_dir w data ++ x)) (data_files data (Z.to_nat days))).
  { intros w y Iy. unfold data_files. rewrite !in_app_iff. right. right. apply in_trees. eauto. }
  assert (KN : forall f, In f (threshold_files out) -> ~ In f (csv_paths false data 1 (Z.to_nat days) ++ csv_paths true data 1 (Z.to_nat days))).
  { intros f I1 I2. apply CT in I2. revert I2. apply (keys_apart out); auto. }
  destruct (0 <? start) eqn:S0.
  - apply Z.ltb_lt in S0. apply sbind_Ok in H as (s3 & st0 & P0 & H). apply pure_Ok in P0 as (P0 & ->).
    assert (T1 : In plaintext_tree tree_names) by (left; auto). assert (T2 : In encrypted_tree tree_names) by (right; left; auto).
    assert (AP : forall w w' y y', In y tree_names -> In y' tree_names -> (w, y) <> (w', y') -> path (party_dir w data ++ y) <> path (party_dir w' data ++ y')).
    { intros w w' y y' I1 I2 N Q. apply tree_path_inj in Q as (-> & ->); auto. }
    apply sbind_Ok in H as (s4 & [] & Z0 & H).
    apply (trees_zero_Ok e func st0 (p0_dir out) (p0_dir data) (p1_dir data) x n k) in Z0 as (pai & u & f0 & TO & G0 & A1 & A2 & SE0); auto; cbn [sy_world sy_coins] in *;
      [|eapply saved_keep; [exact SP0|exact SE|apply KN; tells]|lia|eapply saved_keep; [exact ST|exact SE|apply KN; tells]|apply (AP false true); auto; discriminate].
    apply sbind_Ok in H as (s5 & st1 & P1 & H). apply pure_Ok in P1 as (P1 & ->).
    assert (NT : forall f w w', In f (threshold_files out) -> ~ In f [path (party_dir w data ++ plaintext_tree); path (party_dir w' data ++ encrypted_tree)]).
    { intros f w w' I1 [<-|[<-|[]]]; revert I1; [intros I1; exact (keys_apart out data (Z.to_nat days) _ I1 (TI w _ T1))|intros I1; exact (keys_apart out data (Z.to_nat days) _ I1 (TI w' _ T2))]. }
    apply sbind_Ok in H as (s6 & [] & Z1 & H).
    apply (trees_one_Ok e st1 (p1_dir out) (p1_dir data) (p0_dir data) x) in Z1 as (f1 & G1 & B1 & B2 & SE1); auto;
      [|eapply saved_keep; [eapply saved_keep; [exact SP1|exact SE|apply KN; tells]|exact SE0|apply (NT _ false true); tells]|apply (AP true false); auto; discriminate].
    apply sbind_Ok in H as (s7 & [ca isum] & CR & H). apply pure_Ok in CR as (CR & ->). injection H as <- <-. cbn [fst snd an_size an_sum an_data].
    assert (DT : forall w w' p csv, length csv = Z.to_nat days -> forall q q', days_hold w (party_dir p data) 1 csv -> same_except [path (party_dir q data ++ plaintext_tree); path (party_dir q' data ++ encrypted_tree)] w w' -> days_hold w' (party_dir p data) 1 csv).
    { intros w w' p csv LC q q' DH SX. eapply days_hold_keep; [exact DH|exact SX|]. intros i Li. destruct (day_last p data (1 + Z.of_nat i) ltac:(lia)) as (b & Eb). rewrite Eb.
      destruct (tree_last q data _ T1) as (b1 & ->). destruct (tree_last q' data _ T2) as (b2 & ->). intros [Q|[Q|[]]]; revert Q; apply last_differ; discriminate. }
    set (tr := mkFiles (fst f0) (snd f1) (fst f1) (snd f0)).
    exists pai, (mkDeployed csv0 csv1 (Some tr) (shared - ca) (sum - isum) (t0, l0, t1, l1)).
    split; [auto|]. split.
    { intros sk0 sk1 ->. unfold made. fold shared. cbn zeta. cbn [dp_csv0 dp_csv1 dp_data dp_trees dp_size dp_sum].
      exists (sy_coins s), t0, l0, t1, l1, sum, tp1. split; [exact G|]. split; [exact O0|]. split; [exact O1|]. split; [auto|].
      replace (0 <? start) with true by (symmetry; apply Z.ltb_lt; auto).
      exists st0, st1, tr, ca, isum, u, (sy_coins s6). split; [auto|]. split; [auto|]. split; [|auto].
      unfold setup_trees. unfold bind at 1. destruct (is_ss func); rewrite G0; unfold bind; rewrite G1; reflexivity. }
    cbn [dp_csv0 dp_csv1 dp_data dp_trees dp_size dp_sum]. split; [auto|]. split; [auto|]. split; [auto|].
    split; [apply (DT (sy_world s4) _ false) with true false; auto; apply (DT w2 _ false) with false true; auto|].
    split; [apply (DT (sy_world s4) _ true) with true false; auto; apply (DT w2 _ true) with false true; auto|].
    split; [auto|]. split; [auto|]. split.
    { split; [auto|]. unfold trees_hold, tr. cbn [p0_plaintext p0_encrypted p1_plaintext p1_encrypted]. split; [eapply saved_keep; [exact A1|exact SE1|]|].
      - intros [Q|[Q|[]]]; [apply (tree_path_inj true false) in Q|apply (tree_path_inj false false) in Q]; auto; destruct Q; discriminate.
      - split; [exact B2|]. split; [exact B1|]. eapply saved_keep; [exact A2|exact SE1|]. intros [Q|[Q|[]]]; [apply (tree_path_inj true true) in Q|apply (tree_path_inj false true) in Q]; auto; destruct Q; discriminate. }
    intros f NI. rewrite SE1 by (intros [<-|[<-|[]]]; apply NI; [apply (TI true)|apply (TI false)]; auto).
    rewrite SE0 by (intros [<-|[<-|[]]]; apply NI; [apply (TI false)|apply (TI true)]; auto). apply SE. intros Q. apply NI. apply CT. auto.
  - injection H as <- <-. cbn [sy_world an_size an_sum an_data]. destruct (an_object n GN) as (pai & OB). exists pai, (mkDeployed csv0 csv1 None shared sum (t0, l0, t1, l1)).
    cbn [dp_csv0 dp_csv1 dp_data dp_trees dp_size dp_sum]. split; [auto|]. split.
    { intros sk0 sk1 ->. unfold made. fold shared. cbn zeta. cbn [dp_csv0 dp_csv1 dp_data dp_trees dp_size dp_sum]. rewrite S0.
      exists (sy_coins s), t0, l0, t1, l1, sum, tp1. auto 10. }
    repeat (split; [solve [auto]|]). split; [apply Z.ltb_ge; auto|]. intros f NI. apply SE. intros Q. apply NI. apply CT. auto.
Qed.
End Prog.

(** ** a party's start *)
Lemma io_run {A} (m : SM world A) s w' o : m (sy_world s) = (w', o) -> io m s = (mkSys w' (sy_coins s), o).
Proof. intros H. unfold io, zoom. rewrite H. auto. Qed.
Lemma must_run {S A} (m : SM S A) s s' a : m s = (s', Ok a) -> must m s = (s', Ok a).
Proof. intros H. unfold must. rewrite H. auto. Qed.
Definition same_files (w w' : world) : Prop := forall f, files w' f = files w f.
Section Start.
Context {Gr : group}.
Variables (cpub : codec (pub_msg (Gr := Gr))) (csec : codec sec_msg) (cthr : codec thr_msg).
Variables (cpt : codec (tree_file pnode)) (cet : codec (tree_file (list (welem Gr)))).
Hypotheses (Fpub : faithful cpub) (Fsec : faithful csec) (Fthr : faithful cthr) (Fpt : faithful cpt) (Fet : faithful cet).
Variables stash node : nat.
Variable two_k_ary : bool.
Variable fuel : nat.
Variable e : env.
Hypothesis RE : reliable e.
Context {A C L : Type}.
Variable desern : pnode -> outcome (TreeModel.node A).
Variable desern' : list (welem Gr) -> outcome (TreeModel.node C).
Variable load : dataset -> outcome L.
Lemma load_trees_run dir w pm em my other : saved w cpt (dir ++ plaintext_tree) pm -> saved w cet (dir ++ encrypted_tree) em ->
  tree_deserialize desern pm = Ok my -> tree_deserialize desern' em = Ok other ->
  exists k, load_trees cpt cet e desern desern' dir w = (mkWorld (files w) k, Ok (my, other)).
Proof.
  intros S1 S2 D1 D2. unfold load_trees. destruct (read_msg_reliable e cpt _ _ w RE Fpt S1) as (k1 & R1).
  rewrite (sbind_run _ _ _ _ _ (must_run _ _ _ _ R1)). rewrite D1. unfold sbind at 1. unfold must at 1, pure, sfail.
  assert (S2' : saved (mkWorld (files w) k1) cet (dir ++ encrypted_tree) em) by exact S2.
  destruct (read_msg_reliable e cet _ _ _ RE Fet S2') as (k2 & R2). rewrite (sbind_run _ _ _ _ _ (must_run _ _ _ _ R2)). rewrite D2. exists k2. reflexivity.
Qed.
Lemma load_addition_run dir w y x n k : saved w cpub (dir ++ shared_pub) (key_msg y) -> gpow (Gr := Gr) gen y <> gid -> saved w csec (dir ++ elgamal_key) (bn2bin x) -> saved w cthr (dir ++ paillier_key) (bn2bin n, bn2bin k) ->
  0 <= x -> 0 <= n -> 0 <= k -> exists t, load_addition cpub csec cthr e dir w = (mkWorld (files w) t, Ok (key_of y, x, n, k)).
Proof.
  intros S1 NZ S2 S3 G1 G2 G3. unfold load_addition. destruct (read_msg_reliable e cpub _ _ w RE Fpub S1) as (k1 & R1).
  rewrite (sbind_run _ _ _ _ _ (must_run _ _ _ _ R1)). rewrite deser_key by auto. unfold sbind at 1. unfold must at 1, pure, sfail.
  assert (S2' : saved (mkWorld (files w) k1) csec (dir ++ elgamal_key) (bn2bin x)) by exact S2.
  destruct (read_msg_reliable e csec _ _ _ RE Fsec S2') as (k2 & R2). rewrite (sbind_run _ _ _ _ _ (must_run _ _ _ _ R2)).
  assert (S3' : saved (mkWorld (files (mkWorld (files w) k1)) k2) cthr (dir ++ paillier_key) (bn2bin n, bn2bin k)) by exact S3.
  destruct (read_msg_reliable e cthr _ _ _ RE Fthr S3') as (k3 & R3). rewrite (sbind_run _ _ _ _ _ (must_run _ _ _ _ R3)). cbn [fst snd].
  exists k3. unfold sret. replace (of_bytes (bn2bin x)) with x by (symmetry; apply bn2bin_spec; auto). replace (of_bytes (bn2bin n)) with n by (symmetry; apply bn2bin_spec; auto).
  replace (of_bytes (bn2bin k)) with k by (symmetry; apply bn2bin_spec; auto). reflexivity.
Qed.
Lemma start_run dir keys days (trees : bool) csv ds (ts : tree A * tree C) l y x n k s : 1 < n -> (two_k_ary = true -> Z.odd n = true) ->
  days_hold (sy_world s) dir 1 csv -> length csv = days -> omap dataset_read csv = Ok ds -> omap load ds = Ok l ->
  (if trees then exists pm em, saved (sy_world s) cpt (dir ++ plaintext_tree) pm /\ saved (sy_world s) cet (dir ++ encrypted_tree) em
     /\ tree_deserialize desern pm = Ok (fst ts) /\ tree_deserialize desern' em = Ok (snd ts) else ts = (tree_new stash node, tree_new stash node)) ->
  saved (sy_world s) cpub (keys ++ shared_pub) (key_msg y) -> gpow (Gr := Gr) gen y <> gid -> saved (sy_world s) csec (keys ++ elgamal_key) (bn2bin x) -> saved (sy_world s) cthr (keys ++ paillier_key) (bn2bin n, bn2bin k) ->
  0 <= x -> 0 <= k ->
  match start_party cpub csec cthr cpt cet stash node two_k_ary fuel e desern desern' load dir keys days trees s with
  | (s', Ok pa) => same_files (sy_world s) (sy_world s') /\ thr_object n (pa_pai pa) /\ pa = mkParty ts (key_of y) x n k (pa_pai pa) l
  | (_, Err _) => True
  | _ => False
  end.
Proof.
  intros Hn OD DH LC DR DL TS SP NZ SE ST GX GK. unfold start_party. subst days.
  destruct (read_days_run e dir csv RE 1 (sy_world s) ds DH DR) as (k1 & R1). rewrite (sbind_run _ _ _ _ _ (io_run _ _ _ _ R1)).
  set (s1 := mkSys (mkWorld (files (sy_world s)) k1) (sy_coins s)).
  assert (R2 : exists k2, (if trees then load_trees cpt cet e desern desern' dir else sret (tree_new stash node, tree_new stash node)) (sy_world s1) = (mkWorld (files (sy_world s)) k2, Ok ts)).
  { destruct trees.
    - destruct TS as (pm & em & S1 & S2 & D1 & D2). destruct (load_trees_run dir (sy_world s1) pm em _ _ S1 S2 D1 D2) as (k2 & K). exists k2. destruct ts. exact K.
    - subst ts. exists k1. reflexivity. }
  destruct R2 as (k2 & R2). rewrite (sbind_run _ _ _ _ _ (io_run _ _ _ _ R2)). set (s2 := mkSys (mkWorld (files (sy_world s)) k2) (sy_coins s)).
  assert (H1 : saved (sy_world s2) cpub (keys ++ shared_pub) (key_msg y)) by exact SP. assert (H2 : saved (sy_world s2) csec (keys ++ elgamal_key) (bn2bin x)) by exact SE.
  assert (H3 : saved (sy_world s2) cthr (keys ++ paillier_key) (bn2bin n, bn2bin k)) by exact ST.
  destruct (load_addition_run keys (sy_world s2) y x n k H1 NZ H2 H3 GX ltac:(lia) GK) as (k3 & R3). rewrite (sbind_run _ _ _ _ _ (io_run _ _ _ _ R3)). set (s3 := mkSys (mkWorld (files (sy_world s)) k3) (sy_coins s)).
  unfold sbind at 1. unfold rand. unfold s3, s2, s1. cbn [sy_coins sy_world files]. pose proof (new_paillier_total two_k_ary fuel n (sy_coins s) Hn OD) as NP.
  destruct (new_paillier two_k_ary fuel n (sy_coins s)) as [[P t]|c| |]; auto. rewrite DL. unfold sbind, pure, sfail, sret. cbn [pa_pai sy_world]. split; [intros f; reflexivity|]. auto.
Qed.
End Start.
