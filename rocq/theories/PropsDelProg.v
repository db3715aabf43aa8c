(** * C69: the programs of the two constructions with deletions, through the files
    they exchange.

    Programs: DelProgModel.v (setup with its key files, data sets and trees, then
    party zero and party one as processes of their own). *)
Require Import List Arith Lia ZArith Permutation Bool Znumtheory.
Import ListNotations.
From Verif Require Import Prelude NumTheory TreeModel TreeDelModel TreeSpec TreeHistory TreeDelSpec TreeDelProofs Coins Group ElGamalModel BytesModel BytesProofs ContextModel CipherModel PaillierModel PaillierProofs PropsPaillier WireModel SyncModel SyncSpec SyncProofs KindProofs PropsSync FlagModel CsvModel CsvSpec CsvProofs DataModel DataSpec DataProofs PropsData AddModel AddSpec AddRun PropsAdd DelModel DelSpec DelProofs DelRun BigPrime PropsDel PsiModel PsiSpec PsiSets PsiRun PropsPsi SetupModel SetupProofs FileModel FileSpec FileProofs PropsFile KeyModel KeyProofs PropsKeys DeployModel DeployProofs DataDelProofs PropsDataDel DelSetupModel DelSetupProofs PropsDelSetup ProgModel ProgProofs PropsProg DelProgModel.
Local Open Scope Z_scope.

(** ** Specification *)
(** every file of a deployment *)
Definition del_program_files (data out : bytes) (days : Z) : list bytes := paillier_files out ++ data_files data (Z.to_nat days).
Definition del_csv_files (data : bytes) (days : Z) : list bytes := csv_paths false data 1 (Z.to_nat days) ++ csv_paths true data 1 (Z.to_nat days).
(** [w'] has the files of the deployment as [w] has them *)
Definition del_delivered (data out : bytes) (days : Z) (w w' : world) : Prop := forall f, In f (del_program_files data out days) -> files w' f = files w f.
(** what the generated sets are: [h0], [h1] are the rows deleted and added day by
    day, starting from the initial sets [tree0], [tree1] *)
Definition sets_are (sets : dataset * list dataset * dataset * list dataset) (days start : Z) (tree0 tree1 : dataset) (h0 h1 : changes) : Prop :=
  (exists days0 days1, sets = (tree0, days0, tree1, days1) /\ map rows days0 = map DataSpec.written h0 /\ map rows days1 = map DataSpec.written h1) /\
  only_held (rows tree0) h0 /\ only_held (rows tree1) h1 /\ added_once (rows tree0) h0 /\ added_once (rows tree1) h1 /\
  Z.of_nat (length h0) = days /\ Z.of_nat (length h1) = days /\
  Z.of_nat (length (rows tree0)) = start /\ Z.of_nat (length (rows tree1)) = start.

(** ** names *)
Lemma pkey_last out f : In f (paillier_files out) -> exists a c, f = a ++ [c] /\ c <> 118 /\ c <> 101.
Proof.
  assert (G : forall d x c, c <> slash -> c <> 118 -> c <> 101 -> exists a c', path (d ++ x ++ [c]) = a ++ [c'] /\ c' <> 118 /\ c' <> 101).
  { intros d x c N1 N2 N3. exists (path (d ++ x)), c. rewrite path_last by auto. auto. }
  unfold paillier_files. cbn [map In]. intros [<-|[<-|[<-|[<-|[]]]]];
    first [ apply (G _ [112; 97; 105; 108; 108; 105; 101; 114; 46; 112; 117] 98); discriminate
          | apply (G _ [112; 97; 105; 108; 108; 105; 101; 114; 46; 107; 101] 121); discriminate ].
Qed.
Lemma pkeys_apart out data days f : In f (paillier_files out) -> ~ In f (data_files data days).
Proof.
  intros K D. apply pkey_last in K as (a & c & -> & N1 & N2). apply data_file_last in D as (b & c' & E & N3). apply app_inj_tail in E as (_ & ->). destruct N3; auto.
Qed.

Section Statements.
Context {Gr : group}.
Variables (cppub : codec ppub_msg) (cpsec : codec psec_msg).
Variables (cpt : codec (tree_file pnode)) (cet : codec (tree_file (list (welem Gr)))).
Variable hash : Z -> list bool.
Variables stash node : nat.
Variable two_k_ary : bool.
Variable fuel : nat.
Notation setup_program := (del_setup_program cppub cpsec cpt cet hash stash node two_k_ary).

(** C69.  Whatever the environment does and whatever the setup program reports,
    only the files of the deployment change; without initial sets, the files for
    the trees stay what they were. *)
Theorem C69_only : forall e data out p0 q0 p1 q1 days daily start max func s s' o,
  setup_program e data out p0 q0 p1 q1 days daily start max func s = (s', o) ->
  same_except (del_program_files data out days) (sy_world s) (sy_world s')
  /\ (start <= 0 -> same_except (paillier_files out ++ del_csv_files data days) (sy_world s) (sy_world s')).
Proof.
  intros e data out p0 q0 p1 q1 days daily start max func.
  assert (T : forall l, incl (paillier_files out) l -> incl (del_csv_files data days) l -> (0 < start -> incl (tree_paths data) l) -> touches l (setup_program e data out p0 q0 p1 q1 days daily start max func)).
  { intros l I1 I2 I3. unfold del_setup_program. apply touches_bind.
    - unfold generate_paillier_keys. repeat first [ apply touches_pure | (apply touches_write; apply I1; solve [tells]) | (apply touches_bind; [|intros]) ].
    - intros []. unfold del_setup_data. apply touches_bind; [apply touches_rand|]. intros [[[[t0 l0] t1] l1] sum].
      apply touches_bind; [apply touches_io; intros w w' o R f NI; apply (write_days_only _ _ _ _ _ _ _ _ _ Z.le_0_1 R); intros Q; apply NI; apply I2; exact Q|].
      intros []. apply touches_bind; [|intros; apply touches_ret]. destruct (Z.ltb_spec 0 start) as [SP|SP]; [|apply touches_ret]. specialize (I3 SP).
      assert (TF : forall tree kd pd ed, In (path (pd ++ plaintext_tree)) (tree_paths data) -> In (path (ed ++ encrypted_tree)) (tree_paths data) -> touches l (del_tree_files (Gr := Gr) cpsec cpt cet hash stash node two_k_ary e tree kd pd ed)).
      { intros tree kd pd ed IP IE. unfold del_tree_files. apply touches_bind; [apply touches_read|]. intros m. apply touches_bind; [apply touches_pure|]. intros V. apply touches_bind; [apply touches_pure|]. intros dl. apply touches_files; apply I3; auto. }
      apply touches_bind; [|intros]; apply TF; unfold tree_paths; cbn [map In]; tauto. }
  intros s s' o R. split.
  - eapply T; [| | |exact R]; unfold del_program_files, del_csv_files, data_files; intros; intros f; rewrite !in_app_iff; tauto.
  - intros LE. eapply T; [| | |exact R]; try lia; intros f; rewrite !in_app_iff; tauto.
Qed.

Hypotheses (Fppub : faithful cppub) (Fpsec : faithful cpsec) (Fpt : faithful cpt) (Fet : faithful cet).
(** a secret and a public key file with these numbers *)
Definition sec_saved (w : world) (dir : bytes) (p q : Z) : Prop := exists bp bq, of_bytes bp = p /\ of_bytes bq = q /\ saved w cpsec (dir ++ paillier_key) (bp, bq, 1).
Definition pub_saved (w : world) (dir : bytes) (n : Z) : Prop := exists bn, of_bytes bn = n /\ saved w cppub (dir ++ paillier_pub) (bn, 1).
Lemma paillier_saved out e p0 q0 p1 q1 s s' : generate_paillier_keys cppub cpsec e (p0_dir out) (p1_dir out) p0 q0 p1 q1 s = (s', Ok tt) ->
  sec_saved (sy_world s') (p0_dir out) p0 q0 /\ sec_saved (sy_world s') (p1_dir out) p1 q1 /\ pub_saved (sy_world s') (p0_dir out) (p1 * q1) /\ pub_saved (sy_world s') (p1_dir out) (p0 * q0).
Proof.
  intros H. unfold generate_paillier_keys in H.
  assert (TB : forall x b (s : sys) s', pure (to_bytes x) s = (s', Ok b) -> of_bytes b = x /\ s' = s).
  { intros x b u u' Q. apply pure_Ok in Q as (Q & ->). split; auto. apply to_bytes_Ok in Q. tauto. }
  apply sbind_Ok in H as (? & bp0 & B & H). apply TB in B as (T1 & ->). apply sbind_Ok in H as (? & bq0 & B & H). apply TB in B as (T2 & ->).
  apply sbind_Ok in H as (? & bn0 & B & H). apply TB in B as (T3 & ->). apply sbind_Ok in H as (? & bp1 & B & H). apply TB in B as (T4 & ->).
  apply sbind_Ok in H as (? & bq1 & B & H). apply TB in B as (T5 & ->). apply sbind_Ok in H as (? & bn1 & B & H). apply TB in B as (T6 & ->).
  apply sbind_Ok in H as (s1 & [] & W1 & H). apply io_write_Ok in W1 as (W1 & X1 & _).
  apply sbind_Ok in H as (s2 & [] & W2 & H). apply io_write_Ok in W2 as (W2 & X2 & _).
  apply sbind_Ok in H as (s3 & [] & W3 & H). apply io_write_Ok in W3 as (W3 & X3 & _). apply io_write_Ok in H as (W4 & X4 & _).
  apply (fun a b => saved_keep _ _ _ _ _ _ a X2 b) in W1; [|not_in]. apply (fun a b => saved_keep _ _ _ _ _ _ a X3 b) in W1; [|not_in]. apply (fun a b => saved_keep _ _ _ _ _ _ a X4 b) in W1; [|not_in].
  apply (fun a b => saved_keep _ _ _ _ _ _ a X3 b) in W2; [|not_in]. apply (fun a b => saved_keep _ _ _ _ _ _ a X4 b) in W2; [|not_in].
  apply (fun a b => saved_keep _ _ _ _ _ _ a X4 b) in W3; [|not_in].
  split; [exists bp0, bq0; auto|]. split; [exists bp1, bq1; auto|]. split; [exists bn1; auto|exists bn0; auto].
Qed.
Lemma sec_keep w w' l dir p q : sec_saved w dir p q -> same_except l w w' -> ~ In (path (dir ++ paillier_key)) l -> sec_saved w' dir p q.
Proof. intros (bp & bq & A & B & S) SE NI. exists bp, bq. split; auto. split; auto. eapply saved_keep; eauto. Qed.
Lemma pub_keep w w' l dir n : pub_saved w dir n -> same_except l w w' -> ~ In (path (dir ++ paillier_pub)) l -> pub_saved w' dir n.
Proof. intros (bn & A & S) SE NI. exists bn. split; auto. eapply saved_keep; eauto. Qed.
Lemma del_tree_files_Ok e tree kd pd ed p q V s s' : sec_saved (sy_world s) kd p q -> priv_new two_k_ary p q 1 = Ok V ->
  path (pd ++ plaintext_tree) <> path (ed ++ encrypted_tree) -> del_tree_files cpsec cpt cet hash stash node two_k_ary e tree kd pd ed s = (s', Ok tt) ->
  exists st f, dataset_pairs tree = Ok st /\ trees_deletion hash stash node V st (sy_coins s) = Ok (f, sy_coins s')
    /\ saved (sy_world s') cpt (pd ++ plaintext_tree) (fst f) /\ saved (sy_world s') cet (ed ++ encrypted_tree) (snd f)
    /\ same_except [path (pd ++ plaintext_tree); path (ed ++ encrypted_tree)] (sy_world s) (sy_world s').
Proof.
  intros (bp & bq & B1 & B2 & SV) PV NP R. unfold del_tree_files in R.
  apply sbind_Ok in R as (s1 & m & R0 & R). apply io_Ok in R0 as (w1 & R0 & ->). apply (read_msg_Ok e cpsec _ _ _ _ _ Fpsec SV) in R0 as (-> & F1).
  apply sbind_Ok in R as (s2 & V' & R1 & R). apply pure_Ok in R1 as (R1 & ->). unfold private_key in R1. cbn [fst snd] in R1. rewrite B1, B2 in R1. change (Z.to_nat 1) with 1%nat in R1.
  assert (V' = V) as -> by congruence.
  apply sbind_Ok in R as (s3 & st & R2 & R). apply pure_Ok in R2 as (R2 & ->).
  apply tree_files_Ok in R as (f & G & S1 & S2 & SE); auto. cbn [sy_world sy_coins] in *. exists st, f. split; auto. split; [exact G|]. split; auto. split; auto. intros g NI. rewrite SE by auto. apply F1.
Qed.
(** the files of the initial sets *)
Definition del_files_hold (w : world) (data : bytes) (f : tree_files Gr) : Prop :=
  saved w cpt (p0_dir data ++ plaintext_tree) (p0_plaintext f) /\ saved w cet (p0_dir data ++ encrypted_tree) (p0_encrypted f)
  /\ saved w cpt (p1_dir data ++ plaintext_tree) (p1_plaintext f) /\ saved w cet (p1_dir data ++ encrypted_tree) (p1_encrypted f).
Lemma days_hold_same w w' dir csv : forall day, (forall i, (i < length csv)%nat -> files w' (path (day_file dir (day + Z.of_nat i))) = files w (path (day_file dir (day + Z.of_nat i)))) ->
  days_hold w dir day csv -> days_hold w' dir day csv.
Proof.
  induction csv as [|c csv IH]; intros day G X; [exact I|]. cbn [days_hold] in *. destruct X as (X1 & X2). split.
  - specialize (G O). rewrite Z.add_0_r in G. rewrite G; auto. cbn [length]. lia.
  - apply IH; auto. intros i Li. specialize (G (S i)). replace (day + 1 + Z.of_nat i) with (day + Z.of_nat (S i)) by lia. apply G. cbn [length]. lia.
Qed.
Lemma first_days_length days l csv : 0 <= days -> omap dataset_write (firstn (Z.to_nat days) l) = Ok csv -> length csv = Z.to_nat days -> first_days days l = Ok csv.
Proof.
  intros GE O L. unfold first_days. apply omap_length in O as LO. rewrite L, firstn_length in LO. destruct (Z.ltb_spec (Z.of_nat (length l)) days); [lia|auto].
Qed.
Lemma del_setup_Ok e data out p0 q0 p1 q1 V0 V1 days daily start max func r s s' : uint32 days -> priv_new two_k_ary p0 q0 1 = Ok V0 -> priv_new two_k_ary p1 q1 1 = Ok V1 ->
  setup_program e data out p0 q0 p1 q1 days daily start max func s = (s', Ok r) ->
  exists d t, del_generate (Gr := Gr) hash V0 V1 stash node days daily start max func t = Ok (d, sy_coins s')
    /\ dd_expected d = fst r /\ dd_data d = snd r /\ length (dd_csv0 d) = Z.to_nat days /\ length (dd_csv1 d) = Z.to_nat days
    /\ forall w, del_delivered data out days (sy_world s') w ->
         days_hold w (p0_dir data) 1 (dd_csv0 d) /\ days_hold w (p1_dir data) 1 (dd_csv1 d)
         /\ match dd_trees d with Some f => 0 < start /\ del_files_hold w data f | None => start <= 0 end
         /\ sec_saved w (p0_dir out) p0 q0 /\ sec_saved w (p1_dir out) p1 q1 /\ pub_saved w (p0_dir out) (p1 * q1) /\ pub_saved w (p1_dir out) (p0 * q0).
Proof.
  intros UD PV0 PV1 R. unfold del_setup_program in R. apply sbind_Ok in R as (s1 & [] & K & R). apply paillier_saved in K as (K0 & K1 & Q0 & Q1).
  unfold del_setup_data in R. apply sbind_Ok in R as (s2 & [[[[t0 l0] t1] l1] sum] & G & R). apply rand_Ok in G as (tp1 & G & ->).
  apply sbind_Ok in R as (s3 & [] & W & R). apply io_Ok in W as (w2 & W & ->). cbn [sy_world sy_coins] in *.
  apply write_days_Ok in W as (csv0 & csv1 & O0 & O1 & L0 & L1 & D0 & D1 & SE); [|lia].
  apply first_days_length in O0; [|unfold uint32 in UD; lia|auto]. apply first_days_length in O1; [|unfold uint32 in UD; lia|auto].
  change (csv_paths false data 1 (Z.to_nat days) ++ csv_paths true data 1 (Z.to_nat days)) with (del_csv_files data days) in SE.
  assert (CI : forall f, In f (del_csv_files data days) -> In f (data_files data (Z.to_nat days))) by (intros f; unfold del_csv_files, data_files; rewrite !in_app_iff; tauto).
  assert (AP : forall l f, In f (paillier_files out) -> incl l (data_files data (Z.to_nat days)) -> ~ In f l) by (intros l f I1 I2 I3; apply (pkeys_apart out data (Z.to_nat days) f I1); auto).
  assert (TI : forall v x, In x tree_names -> In (path (party_dir v data ++ x)) (data_files data (Z.to_nat days))).
  { intros v x IX. unfold data_files. rewrite !in_app_iff, in_trees. right. right. exists v, x. auto. }
  assert (DD : forall w, del_delivered data out days (sy_world s') w -> forall v csv, length csv = Z.to_nat days -> days_hold (sy_world s') (party_dir v data) 1 csv -> days_hold w (party_dir v data) 1 csv).
  { intros w DW v csv LC. apply days_hold_same. intros i Li. apply DW. unfold del_program_files, data_files. rewrite !in_app_iff, !in_csv. right. rewrite LC in Li. destruct v; [right; left|left]; exists i; auto. }
  assert (SD : forall w T (c : codec T) f m, del_delivered data out days (sy_world s') w -> In (path f) (del_program_files data out days) -> saved (sy_world s') c f m -> saved w c f m).
  { intros w T c f m DW IF (Y1 & Y2). split; auto. rewrite DW; auto. }
  assert (SS0 : forall w dir p q, del_delivered data out days (sy_world s') w -> In (path (dir ++ paillier_key)) (paillier_files out) -> sec_saved (sy_world s') dir p q -> sec_saved w dir p q).
  { intros w dir p q DW IF (bp & bq & A & B & S). exists bp, bq. split; auto. split; auto. apply SD; auto. apply in_or_app. auto. }
  assert (SP0 : forall w dir n, del_delivered data out days (sy_world s') w -> In (path (dir ++ paillier_pub)) (paillier_files out) -> pub_saved (sy_world s') dir n -> pub_saved w dir n).
  { intros w dir n DW IF (bn & A & S). exists bn. split; auto. apply SD; auto. apply in_or_app. auto. }
  assert (KS : forall l w w' dir p q, incl l (data_files data (Z.to_nat days)) -> same_except l w w' -> In (path (dir ++ paillier_key)) (paillier_files out) -> sec_saved w dir p q -> sec_saved w' dir p q).
  { intros l w w' dir p q IL SX IF S. eapply sec_keep; eauto. }
  assert (KP : forall l w w' dir n, incl l (data_files data (Z.to_nat days)) -> same_except l w w' -> In (path (dir ++ paillier_pub)) (paillier_files out) -> pub_saved w dir n -> pub_saved w' dir n).
  { intros l w w' dir n IL SX IF S. eapply pub_keep; eauto. }
  assert (IK : In (path (p0_dir out ++ paillier_key)) (paillier_files out) /\ In (path (p1_dir out ++ paillier_key)) (paillier_files out) /\ In (path (p0_dir out ++ paillier_pub)) (paillier_files out) /\ In (path (p1_dir out ++ paillier_pub)) (paillier_files out)) by (do 3 (split; [tells|]); tells).
  destruct IK as (IK0 & IK1 & IP0 & IP1).
  apply (KS _ _ _ _ _ _ CI SE IK0) in K0. apply (KS _ _ _ _ _ _ CI SE IK1) in K1. apply (KP _ _ _ _ _ CI SE IP0) in Q0. apply (KP _ _ _ _ _ CI SE IP1) in Q1.
  apply sbind_Ok in R as (s4 & [] & T & R). injection R as <- <-. destruct (0 <? start) eqn:S0.
  - apply Z.ltb_lt in S0. apply sbind_Ok in T as (s5 & [] & T0 & T1).
    apply (del_tree_files_Ok e t0 (p0_dir out) (p0_dir data) (p1_dir data) p0 q0 V0) in T0 as (st0 & f0 & E0 & G0 & A1 & A2 & SE1); auto.
    2:{ intros Q. apply (tree_path_inj false true) in Q as (Q & _); [discriminate|cbn; auto|cbn; auto]. }
    cbn [sy_world sy_coins] in *.
    assert (I1 : incl [path (p0_dir data ++ plaintext_tree); path (p1_dir data ++ encrypted_tree)] (data_files data (Z.to_nat days))).
    { intros g [<-|[<-|[]]]; [apply (TI false)|apply (TI true)]; cbn; auto. }
    assert (I2 : incl [path (p1_dir data ++ plaintext_tree); path (p0_dir data ++ encrypted_tree)] (data_files data (Z.to_nat days))).
    { intros g [<-|[<-|[]]]; [apply (TI true)|apply (TI false)]; cbn; auto. }
    apply (KS _ _ _ _ _ _ I1 SE1 IK0) in K0. apply (KS _ _ _ _ _ _ I1 SE1 IK1) in K1. apply (KP _ _ _ _ _ I1 SE1 IP0) in Q0. apply (KP _ _ _ _ _ I1 SE1 IP1) in Q1.
    apply (del_tree_files_Ok e t1 (p1_dir out) (p1_dir data) (p0_dir data) p1 q1 V1) in T1 as (st1 & f1 & E1 & G1 & B1 & B2 & SE2); auto.
    2:{ intros Q. apply (tree_path_inj true false) in Q as (Q & _); [discriminate|cbn; auto|cbn; auto]. }
    apply (KS _ _ _ _ _ _ I2 SE2 IK0) in K0. apply (KS _ _ _ _ _ _ I2 SE2 IK1) in K1. apply (KP _ _ _ _ _ I2 SE2 IP0) in Q0. apply (KP _ _ _ _ _ I2 SE2 IP1) in Q1.
    assert (DK : forall v csv, days_hold w2 (party_dir v data) 1 csv -> days_hold (sy_world s4) (party_dir v data) 1 csv).
    { intros v csv X. eapply days_hold_keep; [eapply days_hold_keep; [exact X|exact SE1|]|exact SE2|];
      (intros i Li; destruct (day_last v data (1 + Z.of_nat i) ltac:(lia)) as (b & ->);
       destruct (tree_last true data plaintext_tree ltac:(cbn; auto)) as (b1 & Eb1); destruct (tree_last false data plaintext_tree ltac:(cbn; auto)) as (b2 & Eb2);
       destruct (tree_last true data encrypted_tree ltac:(cbn; auto)) as (b3 & Eb3); destruct (tree_last false data encrypted_tree ltac:(cbn; auto)) as (b4 & Eb4); cbn [party_dir] in *; rewrite ?Eb1, ?Eb2, ?Eb3, ?Eb4;
       intros [Q|[Q|[]]]; revert Q; apply last_differ; discriminate). }
    assert (A1' : saved (sy_world s4) cpt (p0_dir data ++ plaintext_tree) (fst f0)).
    { eapply saved_keep; [exact A1|exact SE2|]. intros [Q|[Q|[]]]; [apply (tree_path_inj true false) in Q as (Q & _)|apply (tree_path_inj false false) in Q as (_ & Q)]; try discriminate; cbn; auto. }
    assert (A2' : saved (sy_world s4) cet (p1_dir data ++ encrypted_tree) (snd f0)).
    { eapply saved_keep; [exact A2|exact SE2|]. intros [Q|[Q|[]]]; [apply (tree_path_inj true true) in Q as (_ & Q)|apply (tree_path_inj false true) in Q as (Q & _)]; try discriminate; cbn; auto. }
    exists (mkDelD csv0 csv1 (Some (mkFiles (fst f0) (snd f1) (fst f1) (snd f0))) sum (t0, l0, t1, l1)), (sy_coins s1).
    cbn [dd_expected dd_data dd_csv0 dd_csv1 dd_trees fst snd]. split.
    { unfold del_generate. unfold bind at 1. rewrite G. unfold bind at 1, lift at 1. rewrite O0. unfold bind at 1, lift at 1. rewrite O1.
      replace (0 <? start) with true by (symmetry; apply Z.ltb_lt; auto). unfold bind at 1, lift at 1. rewrite E0. unfold bind at 1, lift at 1. rewrite E1.
      unfold del_setup_trees, bind. rewrite G0, G1. reflexivity. }
    repeat (split; [solve [auto]|]). intros w DW.
    split; [apply (DD w DW false); auto; apply (DK false); auto|]. split; [apply (DD w DW true); auto; apply (DK true); auto|]. split.
    { split; auto. unfold del_files_hold. cbn [p0_plaintext p0_encrypted p1_plaintext p1_encrypted].
      assert (TP : forall v x, In x tree_names -> In (path (party_dir v data ++ x)) (del_program_files data out days)) by (intros v x IX; apply in_or_app; right; apply TI; auto).
      split; [apply SD; [exact DW|apply (TP false); cbn; auto|exact A1']|]. split; [apply SD; [exact DW|apply (TP false); cbn; auto|exact B2]|].
      split; [apply SD; [exact DW|apply (TP true); cbn; auto|exact B1]|apply SD; [exact DW|apply (TP true); cbn; auto|exact A2']]. }
    auto.
  - injection T as <-. cbn [sy_world sy_coins] in *.
    exists (mkDelD csv0 csv1 None sum (t0, l0, t1, l1)), (sy_coins s1). cbn [dd_expected dd_data dd_csv0 dd_csv1 dd_trees fst snd]. split.
    { unfold del_generate. unfold bind at 1. rewrite G. unfold bind at 1, lift at 1. rewrite O0. unfold bind at 1, lift at 1. rewrite O1. rewrite S0. reflexivity. }
    repeat (split; [solve [auto]|]). intros w DW. split; [apply (DD w DW false); auto|]. split; [apply (DD w DW true); auto|]. split; [apply Z.ltb_ge; auto|]. auto.
Qed.

Section Run.
Variables e0 e1 : env.
Hypotheses (R0 : reliable e0) (R1 : reliable e1).
Lemma public_key_total bn n t : of_bytes bn = n -> 1 < n -> (two_k_ary = true -> Z.odd n = true) ->
  match public_key two_k_ary fuel (bn, 1) t with Ok (P, t') => pub_new two_k_ary fuel n 1 t = Some (Ok (P, t')) | Err _ => True | _ => False end.
Proof.
  intros E Hn OD. unfold public_key. cbn [fst snd]. rewrite E. change (Z.to_nat 1) with 1%nat. pose proof (prime_draw n ltac:(lia) fuel t) as X. unfold pub_new.
  destruct (rel_prime_less_than fuel n t) as [[[x t1]|c| |]|]; try contradiction; auto.
  cbn [obind fst snd]. destruct (make_total two_k_ary n x Hn OD) as (P & ->). cbn [obind]. auto.
Qed.
(** a party in a file system that holds its files *)
Lemma start_del_run e dir keys days (import : bool) csv l p q n V ts s : reliable e ->
  days_hold (sy_world s) dir 1 csv -> length csv = days -> load_entries csv = Ok l ->
  (if import then exists pm em my other, ts = (my, other) /\ saved (sy_world s) cpt (dir ++ plaintext_tree) pm /\ saved (sy_world s) cet (dir ++ encrypted_tree) em /\
     tree_deserialize deser_pnode_payload pm = Ok my /\ tree_deserialize (deser_node (@deser_deletion Gr)) em = Ok other
   else ts = (tree_new stash node, tree_new stash node)) ->
  sec_saved (sy_world s) keys p q -> priv_new two_k_ary p q 1 = Ok V -> pub_saved (sy_world s) keys n -> 1 < n -> (two_k_ary = true -> Z.odd n = true) ->
  match start_del_party cppub cpsec cpt cet stash node two_k_ary fuel e dir keys days import s with
  | (s', Ok r) => same_files (sy_world s) (sy_world s') /\ dp_trees r = ts /\ dp_priv r = V /\ dp_data r = l /\ exists t t', pub_new two_k_ary fuel n 1 t = Some (Ok (dp_pub r, t'))
  | (_, Err _) => True
  | _ => False end.
Proof.
  intros RE DH <- LE TR (bp & bq & B1 & B2 & S1) PV (bn & B3 & S2) Hn OD. unfold load_entries in LE. apply obind_Ok in LE as (ds & DR & DL). unfold start_del_party.
  destruct (read_days_run e dir csv RE 1 (sy_world s) ds DH DR) as (k1 & E1). rewrite (sbind_run _ _ _ _ _ (io_run _ _ _ _ E1)).
  assert (TS : exists k2, (if import then load_trees cpt cet e deser_pnode_payload (deser_node deser_deletion) dir else sret (tree_new stash node, tree_new stash node)) (mkWorld (files (sy_world s)) k1) = (mkWorld (files (sy_world s)) k2, Ok ts)).
  { destruct import.
    - destruct TR as (pm & em & my & other & -> & T1 & T2 & T3 & T4).
      destruct (load_trees_run cpt cet Fpt Fet e RE deser_pnode_payload (deser_node deser_deletion) dir (mkWorld (files (sy_world s)) k1) pm em my other T1 T2 T3 T4) as (k & Q). exists k. exact Q.
    - rewrite TR. exists k1. reflexivity. }
  destruct TS as (k2 & E2). cbn [sy_world sy_coins]. erewrite sbind_run; [|apply io_run; exact E2].
  assert (S1' : saved (mkWorld (files (sy_world s)) k2) cpsec (keys ++ paillier_key) (bp, bq, 1)) by exact S1. destruct (read_msg_reliable e cpsec _ _ _ RE Fpsec S1') as (k3 & E3).
  erewrite sbind_run; [|apply io_run, must_run; exact E3]. unfold private_key. cbn [fst snd]. rewrite B1, B2. change (Z.to_nat 1) with 1%nat. rewrite PV. erewrite sbind_run; [|reflexivity].
  cbn [sy_world sy_coins files]. assert (S2' : saved (mkWorld (files (sy_world s)) k3) cppub (keys ++ paillier_pub) (bn, 1)) by exact S2. destruct (read_msg_reliable e cppub _ _ _ RE Fppub S2') as (k4 & E4).
  erewrite sbind_run; [|apply io_run, must_run; exact E4]. cbn [sy_coins sy_world files]. unfold sbind at 1. unfold rand. cbn [sy_coins sy_world files].
  pose proof (public_key_total bn n (sy_coins s) B3 Hn OD) as X. destruct (public_key two_k_ary fuel (bn, 1) (sy_coins s)) as [[PK t']|c| |]; auto.
  rewrite DL. erewrite sbind_run; [|reflexivity]. unfold sret. cbn [dp_trees dp_priv dp_data dp_pub sy_world]. split; [intros f; reflexivity|]. do 3 (split; [reflexivity|]). eauto.
Qed.
Variable circuit_input : Z -> outcome (list bool).
(** what the parties run on: keys, sizes and flags *)
Definition del_setting (p0 q0 p1 q1 : Z) (V0 V1 : priv) (days daily start max : Z) : Prop :=
  (forall x, length (hash x) = 256%nat) /\ priv_new two_k_ary p0 q0 1 = Ok V0 /\ priv_new two_k_ary p1 q1 1 = Ok V1 /\
  Z.of_nat stash < 2 ^ 31 /\ Z.of_nat node < 2 ^ 31 /\ uint32 days /\ uint32 daily /\ uint32 start /\ 0 < days /\ start + days * daily < 2 ^ 30 /\
  10 ^ 15 <= p0 * q0 /\ 10 ^ 15 <= p1 * q1 /\ u32 max <= p0 * q0 /\ u32 max <= p1 * q1.
(** the setup program has run, in some environment and with success, it printed
    [sum] for the sets [sets], and its files were not changed since *)
Definition del_set_up (p0 q0 p1 q1 : Z) (e : env) (data out : bytes) (days daily start max : Z) (func : functionality) (sum : Z) (sets : dataset * list dataset * dataset * list dataset) (w : world) : Prop :=
  exists s s', setup_program e data out p0 q0 p1 q1 days daily start max func s = (s', Ok (sum, sets)) /\ del_delivered data out days (sy_world s') w.
(** both parties started: [P0], [P1] are the public keys of party zero and party
    one, drawn by the other one *)
Definition started (p0 q0 p1 q1 : Z) (V0 V1 : priv) (t0 t1 : tree entry * tree (Z * Z)) (d0 d1 : list (list entry)) (a0 a1 : del_party) : Prop :=
  paillier_pair p0 q0 (dp_pub a1) V0 /\ paillier_pair p1 q1 (dp_pub a0) V1 /\ dp_priv a0 = V0 /\ dp_priv a1 = V1 /\ dp_trees a0 = t0 /\ dp_trees a1 = t1 /\ dp_data a0 = d0 /\ dp_data a1 = d1.
Lemma del_both {A} (go : del_party -> del_party -> M A) (P : outcome A -> Prop) data out days start (import : bool) (d : del_deployed Gr) p0 q0 p1 q1 V0 V1 t0 t1 d0 d1 s :
  (forall w, same_files (sy_world s) w -> days_hold w (p0_dir data) 1 (dd_csv0 d) /\ days_hold w (p1_dir data) 1 (dd_csv1 d)
         /\ match dd_trees d with Some f => 0 < start /\ del_files_hold w data f | None => start <= 0 end
         /\ sec_saved w (p0_dir out) p0 q0 /\ sec_saved w (p1_dir out) p1 q1 /\ pub_saved w (p0_dir out) (p1 * q1) /\ pub_saved w (p1_dir out) (p0 * q0)) ->
  priv_new two_k_ary p0 q0 1 = Ok V0 -> priv_new two_k_ary p1 q1 1 = Ok V1 -> length (dd_csv0 d) = days -> length (dd_csv1 d) = days ->
  load_entries (dd_csv0 d) = Ok d0 -> load_entries (dd_csv1 d) = Ok d1 ->
  (import = (0 <? start) /\ del_trees_for stash node import_del_zero (dd_trees d) = Ok t0 /\ del_trees_for stash node import_del_one (dd_trees d) = Ok t1
   \/ import = false /\ t0 = (tree_new stash node, tree_new stash node) /\ t1 = (tree_new stash node, tree_new stash node)) ->
  (forall c, P (Err c)) -> (forall a0 a1 t, started p0 q0 p1 q1 V0 V1 t0 t1 d0 d1 a0 a1 -> P (match go a0 a1 t with Ok (a, _) => Ok a | Err c => Err c | Abort => Abort | UB => UB end)) ->
  P (snd ((a1 <-- start_del_party cppub cpsec cpt cet stash node two_k_ary fuel e1 (p1_dir data) (p1_dir out) days import ;;
           a0 <-- start_del_party cppub cpsec cpt cet stash node two_k_ary fuel e0 (p0_dir data) (p0_dir out) days import ;; rand (go a0 a1)) s)).
Proof.
  intros HOLD PV0 PV1 C0 C1 L0 L1 TT PE PG.
  assert (N0 : 1 < p0 * q0) by (eapply priv_new_pos; eauto). assert (N1 : 1 < p1 * q1) by (eapply priv_new_pos; eauto).
  assert (O0 : Z.odd (p0 * q0) = true) by (eapply priv_new_odd; eauto). assert (O1 : Z.odd (p1 * q1) = true) by (eapply priv_new_odd; eauto).
  assert (IMP : forall w (v : bool) t, match dd_trees d with Some f => 0 < start /\ del_files_hold w data f | None => start <= 0 end ->
     t = (if v then t1 else t0) -> if import then exists pm em my other, t = (my, other) /\ saved w cpt (party_dir v data ++ plaintext_tree) pm /\ saved w cet (party_dir v data ++ encrypted_tree) em /\
        tree_deserialize deser_pnode_payload pm = Ok my /\ tree_deserialize (deser_node (@deser_deletion Gr)) em = Ok other
     else t = (tree_new stash node, tree_new stash node)).
  { intros w v t F ->. destruct TT as [(-> & T0 & T1)|(-> & -> & ->)]; [|destruct v; reflexivity].
    assert (T : del_trees_for stash node (if v then import_del_one else import_del_zero) (dd_trees d) = Ok (if v then t1 else t0)) by (destruct v; auto).
    revert T. generalize (if v then t1 else t0) as t. intros t T. clear T0 T1 PG. destruct (dd_trees d) as [f|]; cbn [del_trees_for] in T.
    - destruct F as (PS & F1 & F2 & F3 & F4). rewrite (proj2 (Z.ltb_lt 0 start) PS). destruct v; cbn [party_dir].
      + exists (p1_plaintext f), (p1_encrypted f), (fst t), (snd t). unfold import_del_one in T. apply import_Ok in T as (T1' & T2'). split; [destruct t; auto|]. auto.
      + exists (p0_plaintext f), (p0_encrypted f), (fst t), (snd t). unfold import_del_zero in T. apply import_Ok in T as (T1' & T2'). split; [destruct t; auto|]. auto.
    - rewrite (proj2 (Z.ltb_ge 0 start) F). apply Ok_inj' in T. auto. }
  unfold sbind at 1.
  destruct (HOLD (sy_world s) (fun f => eq_refl)) as (_ & D1 & F & _ & S1 & _ & Q1).
  pose proof (start_del_run e1 (p1_dir data) (p1_dir out) days import _ _ _ _ _ _ t1 s R1 D1 C1 L1 (IMP _ true t1 F eq_refl) S1 PV1 Q1 N0 (fun _ => O0)) as X.
  destruct (start_del_party _ _ _ _ _ _ _ _ e1 _ _ _ _ s) as [s1 [a1|c| |]]; try contradiction; [|apply PE]. destruct X as (SF & A1 & A2 & A3 & t & t' & PN1).
  unfold sbind at 1.
  destruct (HOLD (sy_world s1) SF) as (D0 & _ & F' & S0 & _ & Q0 & _).
  pose proof (start_del_run e0 (p0_dir data) (p0_dir out) days import _ _ _ _ _ _ t0 s1 R0 D0 C0 L0 (IMP _ false t0 F' eq_refl) S0 PV0 Q0 N1 (fun _ => O1)) as X.
  destruct (start_del_party _ _ _ _ _ _ _ _ e0 _ _ _ _ s1) as [s2 [a0|c| |]]; try contradiction; [|apply PE]. destruct X as (_ & B1 & B2 & B3 & u & u' & PN0).
  assert (ST : started p0 q0 p1 q1 V0 V1 t0 t1 d0 d1 a0 a1).
  { unfold started, paillier_pair. split; [split; [exists two_k_ary, fuel, t, t'; auto|eauto]|]. split; [split; [exists two_k_ary, fuel, u, u'; auto|eauto]|]. auto 10. }
  specialize (PG a0 a1 (sy_coins s2) ST). unfold rand. destruct (go a0 a1 (sy_coins s2)) as [[a tt]|c| |]; cbn [snd]; auto.
Qed.

Ltac change_result go :=
  match goal with |- context C [snd ?x] => let P := context C [snd x] in pattern (snd x) end.
(** what the theorems need of a deployment *)
Lemma del_deployment p0 q0 p1 q1 V0 V1 e data out days daily start max func sum sets w : del_setting p0 q0 p1 q1 V0 V1 days daily start max -> del_set_up p0 q0 p1 q1 e data out days daily start max func sum sets w ->
  exists d t0 t1 D0 D1 h0 h1 l0 l1, sets_are sets days start t0 t1 h0 h1 /\ l0 = history_of (rows t0) h0 /\ l1 = history_of (rows t1) h1 /\ dd_expected d = sum /\ length (dd_csv0 d) = Z.to_nat days /\ length (dd_csv1 d) = Z.to_nat days /\
    del_facts (Gr := Gr) hash stash node (p0 * q0) (p1 * q1) days start (u32 max) func d t0 t1 D0 D1 h0 h1 l0 l1 /\
    (forall P0 P1, paillier_pair p0 q0 P0 V0 -> paillier_pair p1 q1 P1 V1 -> del_request hash p0 q0 p1 q1 P0 P1 V0 V1 stash node days daily start max) /\
    (forall w', same_files w w' -> days_hold w' (p0_dir data) 1 (dd_csv0 d) /\ days_hold w' (p1_dir data) 1 (dd_csv1 d)
         /\ match dd_trees d with Some f => 0 < start /\ del_files_hold w' data f | None => start <= 0 end
         /\ sec_saved w' (p0_dir out) p0 q0 /\ sec_saved w' (p1_dir out) p1 q1 /\ pub_saved w' (p0_dir out) (p1 * q1) /\ pub_saved w' (p1_dir out) (p0 * q0)).
Proof.
  intros (HH & PV0 & PV1 & IS & IN & U1 & U2 & U3 & DP & SM & B0 & B1 & M0 & M1) (s0 & s' & ST & DV).
  destruct (del_setup_Ok _ _ _ _ _ _ _ _ _ _ _ _ _ _ _ _ _ U1 PV0 PV1 ST) as (d & t & GE & EX & ED & C0 & C1 & HOLD). cbn [fst snd] in *.
  assert (N0 : 1 < p0 * q0) by (eapply priv_new_pos; eauto). assert (N1 : 1 < p1 * q1) by (eapply priv_new_pos; eauto).
  assert (RQ : forall P0 P1, paillier_pair p0 q0 P0 V0 -> paillier_pair p1 q1 P1 V1 -> del_request hash p0 q0 p1 q1 P0 P1 V0 V1 stash node days daily start max).
  { intros P0 P1 K0 K1. split; [split; auto|]. auto 14. }
  destruct (an_object _ N0) as (P0 & OB0). destruct (an_object _ N1) as (P1 & OB1).
  assert (K0 : paillier_pair p0 q0 P0 V0) by (split; [exact OB0|eauto]). assert (K1 : paillier_pair p1 q1 P1 V1) by (split; [exact OB1|eauto]).
  pose proof (facts_generated (Gr := Gr) hash p0 q0 p1 q1 P0 P1 V0 V1 stash node days daily start max func t (RQ _ _ K0 K1)) as X. rewrite GE in X.
  destruct X as (t0 & t1 & D0 & D1 & h0 & h1 & l0 & l1 & F & G & EL0 & EL1).
  exists d, t0, t1, D0, D1, h0, h1, l0, l1. split; [unfold sets_are; rewrite <- ED; exact G|]. do 7 (split; [auto|]).
  intros w' SF. apply HOLD. intros f IF. rewrite SF. auto.
Qed.
(** C69.  Cardinality and sum.  After the setup program, both programs end, with
    their results or with an error status (unless the circuit's input conversion
    crashes).  On day [j], if the initial trees hold the initial sets and nothing
    went wrong so far, party zero's number is the result on the current sets minus
    the result on the initial sets; after the last day it is what the setup
    program printed (modulo 2^64). *)
Theorem C69_change_of_result : forall p0 q0 p1 q1 V0 V1 e data out days daily start max func sum sets s,
  del_setting p0 q0 p1 q1 V0 V1 days daily start max -> func = CA \/ func = SUM ->
  del_set_up p0 q0 p1 q1 e data out days daily start max func sum sets (sy_world s) ->
  exists tree0 tree1 h0 h1, sets_are sets days start tree0 tree1 h0 h1 /\
  let l0 := history_of (rows tree0) h0 in let l1 := history_of (rows tree1) h1 in
  match snd (prog_deletion cppub cpsec cpt cet hash stash node two_k_ary fuel circuit_input e0 e1 data out (Z.to_nat days) (0 <? start) s) with
  | Ok ((c0, s0, _), trace) => Z.of_nat (length trace) = days /\
      (start = 0 -> DelSpec.holds (pt_my (dc_party c0)) (upto 1 l0) /\ DelSpec.holds (pt_my (ds_party s0)) (upto 1 l1)) /\
      forall j c sv rounds, nth_error trace j = Some (c, sv, rounds) ->
        DelSpec.holds (pt_my (dc_party c0)) (upto 1 l0) -> DelSpec.holds (pt_my (ds_party s0)) (upto 1 l1) ->
        (forall i st, (i <= j)%nat -> nth_error trace i = Some st -> lucky_day circuit_input p0 q0 p1 q1 l0 l1 (S i) st) ->
        dc_result c = (score func (held_after (rows tree0) (firstn (S j) h0)) (held_after (rows tree1) (firstn (S j) h1)) - score func (rows tree0) (rows tree1)) mod 2 ^ 64 /\
        (Z.of_nat (S j) = days -> dc_result c = sum mod 2 ^ 64)
  | Err _ => True
  | _ => ~ forall x, returns (circuit_input x)
  end.
Proof.
  intros p0 q0 p1 q1 V0 V1 e data out days daily start max func sum sets s DS FN SU.
  destruct (del_deployment _ _ _ _ _ _ _ _ _ _ _ _ _ _ _ _ _ DS SU) as (d & t0 & t1 & D0 & D1 & h0 & h1 & l0 & l1 & SA & EL0 & EL1 & EX & C0 & C1 & F & RQ & HOLD).
  destruct DS as (HH & PV0 & PV1 & IS & IN & U1 & _). exists t0, t1, h0, h1. split; [auto|]. cbv zeta.
  pose proof (df_load0 _ _ _ _ _ _ _ _ _ _ _ _ _ _ _ _ _ _ F) as LO0. pose proof (df_load1 _ _ _ _ _ _ _ _ _ _ _ _ _ _ _ _ _ _ F) as LO1.
  destruct (df_trees _ _ _ _ _ _ _ _ _ _ _ _ _ _ _ _ _ _ F) as (a0 & o0 & a1 & o1 & T0 & T1 & _).
  unfold prog_deletion.
  set (go := fun x0 x1 : del_party => let st := del_start_with (dp_trees x0) (dp_trees x1) (dp_data x0) (dp_data x1) in
    trace <- run_trace (del_day (Gr := Gr) hash circuit_input (dp_pub x1) (dp_pub x0) (dp_priv x0) (dp_priv x1)) (Z.to_nat days) st ;; ret (st, trace)).
  change_result go.
  apply (del_both go _ data out (Z.to_nat days) start (0 <? start) d p0 q0 p1 q1 V0 V1 (a0, o0) (a1, o1) (tl l0) (tl l1) s); auto.
  intros x0 x1 tp (Y0 & Y1 & E0 & E1 & E2 & E3 & E4 & E5).
  pose proof (change_of_facts hash circuit_input p0 q0 p1 q1 (dp_pub x1) (dp_pub x0) V0 V1 stash node days daily start max func d (Z.to_nat days) tp t0 t1 D0 D1 h0 h1 l0 l1 (RQ _ _ Y0 Y1) FN ltac:(unfold uint32 in U1; lia) F) as X.
  unfold del_deployed_run in X. unfold bind at 1, lift at 1 in X. rewrite LO1 in X. unfold bind at 1, lift at 1 in X. rewrite T1 in X. unfold bind at 1, lift at 1 in X. rewrite LO0 in X. unfold bind at 1, lift at 1 in X. rewrite T0 in X.
  unfold go. rewrite E0, E1, E2, E3, E4, E5. cbv zeta in X |- *.
  destruct ((trace <- run_trace _ _ _ ;; ret _) tp) as [[[[[c0 sv0] rr] trace] tp']|c| |]; auto.
  destruct X as (X1 & X2 & X3). rewrite <- EL0, <- EL1, <- EX. split; [unfold uint32 in U1; lia|]. auto.
Qed.

(** C69.  Intersection.  The same for deletion-psi, if no element drawn is the
    string of zeros: the counter is the change of the size of the intersection, and
    the set is the difference between the two intersections (x for an element
    gained, -x for one lost). *)
Theorem C69_psi : forall p0 q0 p1 q1 V0 V1 e data out days daily start max sum sets s,
  del_setting p0 q0 p1 q1 V0 V1 days daily start max -> 2 ^ 65 <= p0 * q0 -> 2 ^ 65 <= p1 * q1 ->
  del_set_up p0 q0 p1 q1 e data out days daily start max PSI sum sets (sy_world s) ->
  exists tree0 tree1 h0 h1, sets_are sets days start tree0 tree1 h0 h1 /\
  (no_zero_element tree0 h0 -> no_zero_element tree1 h1 ->
  let l0 := history_of (rows tree0) h0 in let l1 := history_of (rows tree1) h1 in
  let meet := meet_after tree0 tree1 h0 h1 in
  forall c0 s0 di0 trace, snd (prog_deletion_psi cppub cpsec cpt cet hash stash node two_k_ary fuel circuit_input e0 e1 data out (Z.to_nat days) (0 <? start) s) = Ok ((c0, s0, di0), trace) ->
  Z.of_nat (length trace) = days /\ (start = 0 -> DelSpec.holds (pg_my (ps_party s0)) (upto 1 l1)) /\
  forall j c sv di, nth_error trace j = Some (c, sv, di) -> DelSpec.holds (pg_my (ps_party s0)) (upto 1 l1) ->
    (forall i st, (i <= j)%nat -> nth_error trace i = Some st -> lucky_psi_day circuit_input p0 q0 p1 q1 l0 l1 (S i) st) ->
    pc_result c = (Z.of_nat (length (meet (S j))) - Z.of_nat (length (meet 0%nat))) mod 2 ^ 64 /\
    (Z.of_nat (S j) = days -> pc_result c = sum mod 2 ^ 64) /\
    signed_change (pc_set c) (meet (S j)) (meet 0%nat) /\
    (start = 0 -> same_set (pc_set c) (meet (S j)))).
Proof.
  intros p0 q0 p1 q1 V0 V1 e data out days daily start max sum sets s DS N0 N1 SU.
  destruct (del_deployment _ _ _ _ _ _ _ _ _ _ _ _ _ _ _ _ _ DS SU) as (d & t0 & t1 & D0 & D1 & h0 & h1 & l0 & l1 & SA & EL0 & EL1 & EX & C0 & C1 & F & RQ & HOLD).
  destruct DS as (HH & PV0 & PV1 & IS & IN & U1 & _). exists t0, t1, h0, h1. split; [auto|]. intros Z0 Z1. cbv zeta.
  pose proof (df_load0 _ _ _ _ _ _ _ _ _ _ _ _ _ _ _ _ _ _ F) as LO0. pose proof (df_load1 _ _ _ _ _ _ _ _ _ _ _ _ _ _ _ _ _ _ F) as LO1.
  destruct (df_trees _ _ _ _ _ _ _ _ _ _ _ _ _ _ _ _ _ _ F) as (a0 & o0 & a1 & o1 & T0 & T1 & _).
  unfold prog_deletion_psi.
  set (go := fun x0 x1 : del_party => let st := psi_start_with stash node (dp_trees x0) (dp_trees x1) (dp_data x0) (dp_data x1) in
    trace <- run_trace (PsiModel.psi_day2 (Gr := Gr) hash circuit_input (dp_pub x1) (dp_pub x0) (dp_priv x0) (dp_priv x1)) (Z.to_nat days) st ;; ret (st, trace)).
  change_result go.
  apply (del_both go _ data out (Z.to_nat days) start (0 <? start) d p0 q0 p1 q1 V0 V1 (a0, o0) (a1, o1) (tl l0) (tl l1) s); auto.
  { intros; discriminate. }
  intros x0 x1 tp (Y0 & Y1 & E0 & E1 & E2 & E3 & E4 & E5) c0 s0 di0 trace EQ.
  pose proof (psi_of_facts hash circuit_input p0 q0 p1 q1 (dp_pub x1) (dp_pub x0) V0 V1 stash node days daily start max d (Z.to_nat days) tp t0 t1 D0 D1 h0 h1 l0 l1 (RQ _ _ Y0 Y1) N0 N1 ltac:(unfold uint32 in U1; lia) F Z0 Z1 c0 s0 di0 trace) as X.
  unfold psi_deployed_run in X. unfold bind at 1, lift at 1 in X. rewrite LO1 in X. unfold bind at 1, lift at 1 in X. rewrite T1 in X. unfold bind at 1, lift at 1 in X. rewrite LO0 in X. unfold bind at 1, lift at 1 in X. rewrite T0 in X.
  unfold go in EQ. rewrite E0, E1, E2, E3, E4, E5 in EQ. cbv zeta in X, EQ.
  destruct ((trace <- run_trace _ _ _ ;; ret _) tp) as [[r tp']|c| |]; try discriminate. apply Ok_inj' in EQ. subst r.
  destruct (X tp' eq_refl) as (X1 & X2 & X3). rewrite <- EL0, <- EL1, <- EX. split; [unfold uint32 in U1; lia|]. auto.
Qed.

(** Without --import, which is off by default, the programs do not use the trees
    the setup program wrote: the result is what the rows of the days alone give
    (a row deletes with a negative number), whatever the initial sets were. *)
Theorem C69_not_imported : forall p0 q0 p1 q1 V0 V1 e data out days daily start max func sum sets s,
  del_setting p0 q0 p1 q1 V0 V1 days daily start max ->
  del_set_up p0 q0 p1 q1 e data out days daily start max func sum sets (sy_world s) ->
  exists tree0 tree1 h0 h1, sets_are sets days start tree0 tree1 h0 h1 /\
  let d0 := map (fun day => map as_number (DataSpec.written day)) h0 in let d1 := map (fun day => map as_number (DataSpec.written day)) h1 in
  match snd (prog_deletion cppub cpsec cpt cet hash stash node two_k_ary fuel circuit_input e0 e1 data out (Z.to_nat days) false s) with
  | Ok (_, trace) => Z.of_nat (length trace) = days /\
      forall j c sv rounds, nth_error trace j = Some (c, sv, rounds) ->
        (forall i st, (i <= j)%nat -> nth_error trace i = Some st -> lucky_day circuit_input p0 q0 p1 q1 d0 d1 i st) ->
        dc_result c = inner (upto (S j) d0) (upto (S j) d1) mod 2 ^ 64
  | Err _ => True
  | _ => ~ forall x, returns (circuit_input x)
  end.
Proof.
  intros p0 q0 p1 q1 V0 V1 e data out days daily start max func sum sets s DS SU.
  destruct (del_deployment _ _ _ _ _ _ _ _ _ _ _ _ _ _ _ _ _ DS SU) as (d & t0 & t1 & D0 & D1 & h0 & h1 & l0 & l1 & SA & EL0 & EL1 & EX & C0 & C1 & F & RQ & HOLD).
  destruct DS as (HH & PV0 & PV1 & IS & IN & U1 & U2 & U3 & DP & SM & B0 & B1 & M0 & M1). exists t0, t1, h0, h1. split; [auto|]. cbv zeta.
  pose proof (df_load0 _ _ _ _ _ _ _ _ _ _ _ _ _ _ _ _ _ _ F) as LO0. pose proof (df_load1 _ _ _ _ _ _ _ _ _ _ _ _ _ _ _ _ _ _ F) as LO1.
  pose proof (df_proper _ _ _ _ _ _ _ _ _ _ _ _ _ _ _ _ _ _ F) as PS. pose proof (df_len0 _ _ _ _ _ _ _ _ _ _ _ _ _ _ _ _ _ _ F) as LH0. pose proof (df_len1 _ _ _ _ _ _ _ _ _ _ _ _ _ _ _ _ _ _ F) as LH1.
  assert (TL0 : tl l0 = map (fun day => map as_number (DataSpec.written day)) h0) by (rewrite EL0; reflexivity). assert (TL1 : tl l1 = map (fun day => map as_number (DataSpec.written day)) h1) by (rewrite EL1; reflexivity).
  rewrite <- TL0, <- TL1. destruct (PS _ B1 M1) as (PR0 & _). destruct (PS _ B0 M0) as (_ & PR1).
  assert (PT : forall n l, proper_signed n l -> proper_signed n (tl l)).
  { intros n [|a l] (X & Y); [split; auto|]. cbn [tl concat] in *. split; [apply Forall_app in X; apply X|]. unfold int_range in *. rewrite app_length in Y. lia. }
  assert (L0 : length (tl l0) = Z.to_nat days) by (rewrite TL0, map_length; auto). assert (L1 : length (tl l1) = length (tl l0)) by (rewrite L0, TL1, map_length; auto).
  unfold prog_deletion.
  set (go := fun x0 x1 : del_party => let st := del_start_with (dp_trees x0) (dp_trees x1) (dp_data x0) (dp_data x1) in
    trace <- run_trace (del_day (Gr := Gr) hash circuit_input (dp_pub x1) (dp_pub x0) (dp_priv x0) (dp_priv x1)) (Z.to_nat days) st ;; ret (st, trace)).
  change_result go.
  apply (del_both go _ data out (Z.to_nat days) start false d p0 q0 p1 q1 V0 V1 (tree_new stash node, tree_new stash node) (tree_new stash node, tree_new stash node) (tl l0) (tl l1) s); auto.
  intros x0 x1 tp (Y0 & Y1 & E0 & E1 & E2 & E3 & E4 & E5). unfold go. rewrite E0, E1, E2, E3, E4, E5. cbv zeta.
  assert (KK : PropsDel.keys hash p0 q0 p1 q1 (dp_pub x1) (dp_pub x0) V0 V1) by (split; auto).
  pose proof (C20_inner_product (Gr := Gr) hash circuit_input p0 q0 p1 q1 (dp_pub x1) (dp_pub x0) V0 V1 stash node (tl l0) (tl l1) (Z.to_nat days) tp) as X.
  pose proof (C20_no_crash (Gr := Gr) hash circuit_input p0 q0 p1 q1 (dp_pub x1) (dp_pub x0) V0 V1 stash node (tl l0) (tl l1) (Z.to_nat days) tp KK L1 (PT _ _ PR0) (PT _ _ PR1) ltac:(lia)) as Y.
  change (del_start_with (tree_new stash node, tree_new stash node) (tree_new stash node, tree_new stash node) (tl l0) (tl l1)) with (del_start stash node (tl l0) (tl l1)).
  unfold bind, ret. destruct (run_trace _ _ _ tp) as [[trace tp']|c| |]; auto; [|intros CI; exact (Y CI)..].
  destruct (X trace tp' KK L1 (PT _ _ PR0) (PT _ _ PR1) ltac:(lia) eq_refl) as (X1 & X2). split; [unfold uint32 in U1; lia|].
  intros j c sv rr EJ LK. apply (proj2 (proj2 (X2 j c sv rr EJ))). exact LK.
Qed.
End Run.
End Statements.

(** ** concrete cases *)
(** to evaluate the programs below, the constructor of a private key is replaced by
    one that knows two keys; it is the same function *)
Lemma exk0_new : priv_new false 100011167 100014059 1 = Ok exk0V.
Proof.
  rewrite <- (priv_new_at_ok 5 2); [vm_compute; reflexivity|apply generator_at; [apply (safe_b_ok _ 17351 2882 2 2); vm_compute; reflexivity|vm_compute; reflexivity]|apply generator_at; [apply (safe_b_ok _ 11273 4436 2 2); vm_compute; reflexivity|vm_compute; reflexivity]].
Qed.
Lemma exk1_new : priv_new false 100015079 100024187 1 = Ok exk1V.
Proof.
  rewrite <- (priv_new_at_ok 13 2); [vm_compute; reflexivity|apply generator_at; [apply (safe_b_ok _ 11867 4214 2 2); vm_compute; reflexivity|vm_compute; reflexivity]|apply generator_at; [apply (safe_b_ok _ 7573 6604 2 2); vm_compute; reflexivity|vm_compute; reflexivity]].
Qed.
Definition known_key (m : psec_msg) : outcome priv :=
  let p := of_bytes (fst (fst m)) in let q := of_bytes (snd (fst m)) in
  if (p =? 100011167) && (q =? 100014059) && (snd m =? 1) then Ok exk0V
  else if (p =? 100015079) && (q =? 100024187) && (snd m =? 1) then Ok exk1V
  else private_key false m.
Lemma known_key_ok m : known_key m = private_key false m.
Proof.
  unfold known_key. destruct (_ && _ && _) eqn:E.
  - rewrite !andb_true_iff, !Z.eqb_eq in E. destruct E as ((E1 & E2) & E3). unfold private_key. rewrite E1, E2, E3. symmetry. apply exk0_new.
  - clear E. destruct (_ && _ && _) eqn:E; [|reflexivity]. rewrite !andb_true_iff, !Z.eqb_eq in E. destruct E as ((E1 & E2) & E3). unfold private_key. rewrite E1, E2, E3. symmetry. apply exk1_new.
Qed.
Lemma sbind_ext {S A B} (m m' : SM S A) (k k' : A -> SM S B) s : m s = m' s -> (forall a s, k a s = k' a s) -> sbind m k s = sbind m' k' s.
Proof. unfold sbind. intros <- E. destruct (m s) as [s1 [a|c| |]]; auto. Qed.
Definition known_trees (tree : dataset) (key_dir plain_dir enc_dir : bytes) : SM sys unit :=
  m <-- io (read_msg ex_env ex_psec (key_dir ++ paillier_key)) ;;
  V <-- pure (known_key m) ;;
  daily <-- pure (dataset_pairs tree) ;;
  tree_files_written ex_pt ex_et 1 1 ex_env (insert_del ex_hash) pad_payload (enc_deletion (pv_n V) (priv_encrypt V)) ser_deletion deser_deletion ser_pnode_payload daily plain_dir enc_dir.
Definition known_setup (start max_value : Z) (func : functionality) : SM sys (Z * (dataset * list dataset * dataset * list dataset)) :=
  generate_paillier_keys ex_ppub ex_psec ex_env (p0_dir ex_out) (p1_dir ex_out) 100011167 100014059 100015079 100024187 ;;;
  (g <-- rand (generate_deletion 1 1 start (u32 max_value) func) ;;
  let '(tree0, days0, tree1, days1, sum) := g in
  io (write_days ex_env (p0_dir ex_data) (p1_dir ex_data) 1 1 days0 days1) ;;;
  (if 0 <? start then
     known_trees tree0 (p0_dir ex_out) (p0_dir ex_data) (p1_dir ex_data) ;;;
     known_trees tree1 (p1_dir ex_out) (p1_dir ex_data) (p0_dir ex_data)
   else sret tt) ;;;
  sret (sum, (tree0, days0, tree1, days1))).
Definition known_party (dir keys : bytes) (import : bool) : SM sys del_party :=
  ds <-- io (read_days ex_env dir 1 1) ;;
  ts <-- io (if import then load_trees ex_pt ex_et ex_env deser_pnode_payload (deser_node (@deser_deletion exG)) dir else sret (tree_new 1 1, tree_new 1 1)) ;;
  sm <-- io (must (read_msg ex_env ex_psec (keys ++ paillier_key))) ;;
  V <-- pure (known_key sm) ;;
  pm <-- io (must (read_msg ex_env ex_ppub (keys ++ paillier_pub))) ;;
  P <-- rand (public_key false 3 pm) ;;
  l <-- pure (omap dataset_pairs ds) ;;
  sret (mkDelParty ts V P l).
Definition known_run (import : bool) : SM sys ((dclient * dserver * (round * round)) * list (dclient * dserver * (round * round))) :=
  p1 <-- known_party (p1_dir ex_data) (p1_dir ex_out) import ;;
  p0 <-- known_party (p0_dir ex_data) (p0_dir ex_out) import ;;
  let st := del_start_with (dp_trees p0) (dp_trees p1) (dp_data p0) (dp_data p1) in
  rand (trace <- run_trace (del_day (Gr := exG) ex_hash ex_circuit (dp_pub p1) (dp_pub p0) (dp_priv p0) (dp_priv p1)) 1 st ;; ret (st, trace)).
Notation ex_del_setup_program start max func := (del_setup_program ex_ppub ex_psec ex_pt ex_et ex_hash 1 1 false ex_env ex_data ex_out 100011167 100014059 100015079 100024187 1 1 start max func).
Notation ex_prog_deletion import := (prog_deletion ex_ppub ex_psec ex_pt ex_et ex_hash 1 1 false 3 ex_circuit ex_env ex_env ex_data ex_out 1 import).
Lemma known_setup_ok start max func s : known_setup start max func s = ex_del_setup_program start max func s.
Proof.
  assert (T : forall tree a b c s, known_trees tree a b c s = del_tree_files ex_psec ex_pt ex_et ex_hash 1 1 false ex_env tree a b c s).
  { intros. apply sbind_ext; auto. intros. apply sbind_ext; [unfold pure; rewrite known_key_ok; auto|]. auto. }
  apply sbind_ext; auto. intros. apply sbind_ext; auto. intros [[[[t0 l0] t1] l1] sum] ?. apply sbind_ext; auto. intros. apply sbind_ext; auto.
  destruct (0 <? start); auto. apply sbind_ext; auto.
Qed.
Lemma known_run_ok import s : known_run import s = ex_prog_deletion import s.
Proof.
  assert (T : forall dir keys s, known_party dir keys import s = start_del_party ex_ppub ex_psec ex_pt ex_et 1 1 false 3 ex_env dir keys 1 import s).
  { intros. do 3 (apply sbind_ext; auto; intros). apply sbind_ext; [unfold pure; rewrite known_key_ok; auto|]. auto. }
  apply sbind_ext; auto. intros. apply sbind_ext; auto.
Qed.
Definition ex_del_program (k start : Z) (import : bool) : option (Z * Z * bool) :=
  match known_setup start 20 SUM (mkSys ex_fs (PropsData.ex_coins k)) with
  | (s, Ok (sum, (t0, D0, t1, D1))) =>
    match omap dataset_pairs (t0 :: D0), omap dataset_pairs (t1 :: D1), known_run import (mkSys (sy_world s) ex_del_coins) with
    | Ok l0, Ok l1, (_, Ok ((c, sv, _), [st])) =>
        Some (sum, dc_result (fst (fst st)), holds_b (pt_my (dc_party c)) (upto 1 l0) && holds_b (pt_my (ds_party sv)) (upto 1 l1) &&
           lucky_day_b ex_circuit (100011167 * 100014059) (100015079 * 100024187) l0 l1 1 st)
    | _, _, _ => None end
  | _ => None end.
(** one day after initial sets of one element: the parties get what the setup
    program printed ... *)
Example ex_C69 : match ex_del_program 1 1 true with Some (sum, result, lucky) => (sum =? 16) && (result =? 16) && lucky | None => false end = true.
Proof. vm_cast_no_check (eq_refl true). Qed.
(** ... but not with the default of --import *)
Example ex_C69_not_imported : match ex_del_program 1 1 false with Some (sum, result, _) => (sum =? 16) && (result =? 0) | None => false end = true.
Proof. vm_cast_no_check (eq_refl true). Qed.
(** hence the setup of the first example is one the theorems speak of *)
Lemma set_up_known s0 start max func s sum sets : known_setup start max func s0 = (s, Ok (sum, sets)) ->
  del_set_up ex_ppub ex_psec ex_pt ex_et ex_hash 1 1 false 100011167 100014059 100015079 100024187 ex_env ex_data ex_out 1 1 start max func sum sets (sy_world s).
Proof. intros E. exists s0, s. rewrite <- known_setup_ok. split; [exact E|]. intros f _. reflexivity. Qed.
Lemma set_up_program k start import : match ex_del_program k start import with Some _ => True | None => False end ->
  exists sum sets w, del_set_up ex_ppub ex_psec ex_pt ex_et ex_hash 1 1 false 100011167 100014059 100015079 100024187 ex_env ex_data ex_out 1 1 start 20 SUM sum sets w.
Proof.
  unfold ex_del_program. destruct (known_setup start 20 SUM _) as [s [[sum sets]|c| |]] eqn:E; intros X; try contradiction. apply set_up_known in E. eauto.
Qed.
Example ex_C69_set_up : exists sum sets w, del_set_up ex_ppub ex_psec ex_pt ex_et ex_hash 1 1 false 100011167 100014059 100015079 100024187 ex_env ex_data ex_out 1 1 1 20 SUM sum sets w.
Proof. apply (set_up_program 1 1 true). generalize ex_C69. destruct (ex_del_program 1 1 true); [intros; exact I|intros X; inversion X]. Qed.
Lemma exl0_new : priv_new false 8589942443 8589951347 1 = Ok exl0V.
Proof.
  rewrite <- (priv_new_at_ok 2 2); [vm_compute; reflexivity|apply generator_at; [apply (safe_b_ok _ 128669 33380 2 2); vm_compute; reflexivity|vm_compute; reflexivity]|apply generator_at; [apply (safe_b_ok _ 253361 16952 2 2); vm_compute; reflexivity|vm_compute; reflexivity]].
Qed.
Lemma exl1_new : priv_new false 8589952139 8589957359 1 = Ok exl1V.
Proof.
  rewrite <- (priv_new_at_ok 2 7); [vm_compute; reflexivity|apply generator_at; [apply (safe_b_ok _ 91297 47044 2 2); vm_compute; reflexivity|vm_compute; reflexivity]|apply generator_at; [apply (safe_b_ok _ 122833 34966 2 2); vm_compute; reflexivity|vm_compute; reflexivity]].
Qed.
Example ex_C69_setting :
  del_setting ex_hash 1 1 false 100011167 100014059 100015079 100024187 exk0V exk1V 1 1 1 20 /\
  del_setting ex_hash 1 1 false 8589942443 8589951347 8589952139 8589957359 exl0V exl1V 1 1 1 20 /\ 2 ^ 65 <= 8589942443 * 8589951347 /\ 2 ^ 65 <= 8589952139 * 8589957359.
Proof.
  assert (HL : forall x, length (ex_hash x) = 256%nat) by (intros x; unfold ex_hash; rewrite map_length; apply seq_length).
  assert (U : uint32 1) by (unfold uint32; lia). assert (UM : u32 20 = 20) by reflexivity.
  split; [|split; [|split; lia]]; (split; [exact HL|]); (split; [first [apply exk0_new|apply exl0_new]|]); (split; [first [apply exk1_new|apply exl1_new]|]);
    do 2 (split; [reflexivity|]); do 3 (split; [exact U|]); rewrite UM; lia.
Qed.
Example ex_C69_codecs : faithful ex_ppub /\ faithful ex_psec /\ faithful ex_pt /\ faithful ex_et.
Proof. destruct ex_codecs as (_ & _ & A & B). destruct ex_tree_codecs as (C & D). auto. Qed.

Print Assumptions C69_only.
Print Assumptions C69_change_of_result.
Print Assumptions C69_psi.
Print Assumptions C69_not_imported.
