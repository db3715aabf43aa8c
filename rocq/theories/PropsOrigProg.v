(** * C68: the programs of the original protocol, through the files they exchange.

    Programs: OrigProgModel.v (setup with its key files, data sets, tree and
    elements.ec, then party zero and party one as processes of their own). *)
Require Import String.
Require Import List Arith Lia ZArith Permutation Bool Znumtheory.
Import ListNotations.
From Verif Require Import Prelude NumTheory TreeModel TreeDelModel TreeSpec TreeHistory Coins Group ElGamalModel ElGamalProofs BytesModel BytesProofs ContextModel CipherModel PaillierModel PropsPaillier WireModel PropsWire SyncModel SyncSpec PropsSync FlagModel CsvModel CsvSpec CsvProofs PropsCsv DataModel DataSpec DataProofs PropsData AddModel AddSpec AddProofs AddRun AddStart PropsAdd SetupModel SetupProofs PropsSetup FileModel FileSpec FileProofs PropsFile KeyModel KeyProofs PropsKeys BigPrime DeployModel DeployProofs PropsDeploy OrigModel OrigRun PropsOrig OrigSetupModel OrigSetupProofs PropsOrigSetup ProgModel ProgProofs PropsProg OrigProgModel.
Local Open Scope Z_scope.

(** ** Specification *)
(** every file of a deployment of the original protocol *)
Definition og_tree_paths (data : bytes) : list bytes := map path [p1_dir data ++ plaintext_tree; p0_dir data ++ encrypted_tree; p0_dir data ++ elements_ec].
Definition og_csv_paths (data : bytes) (days : Z) : list bytes := csv_paths false data 1 (Z.to_nat days) ++ csv_paths true data 1 (Z.to_nat days).
Definition og_program_files (data out : bytes) (days : Z) : list bytes := elgamal_files out ++ og_csv_paths data days ++ og_tree_paths data.
Definition og_delivered (data out : bytes) (days : Z) (w w' : world) : Prop := forall f, In f (og_program_files data out days) -> files w' f = files w f.
(** the strings drawn for the data were all different, and so are the points of
    different elements *)
Definition og_different {Gr : group} (H : Z -> Gr) (days daily start shared : Z) (sets : dataset * list dataset * dataset * list dataset) : Prop :=
  different days daily start shared sets
  /\ let '(tree0, days0, tree1, days1) := sets in
     forall a b, In a (all_elements tree0 days0) -> In b (all_elements tree1 days1) -> a <> b -> H (num a) <> H (num b).

(** ** names *)
Lemma elements_path data : path (p0_dir data ++ elements_ec) = path (p0_dir data ++ removelast elements_ec) ++ [99].
Proof. change elements_ec with (removelast elements_ec ++ [99]) at 1. apply path_last. discriminate. Qed.
Lemma og_data_last data days f : In f (og_csv_paths data days ++ og_tree_paths data) -> exists a c, f = a ++ [c] /\ (c = 118 \/ c = 101 \/ c = 99).
Proof.
  unfold og_csv_paths. rewrite !in_app_iff, !in_csv. unfold og_tree_paths. cbn [map In]. intros [[(i & _ & ->)|(i & _ & ->)]|[<-|[<-|[<-|[]]]]].
  - destruct (day_last false data (1 + Z.of_nat i) ltac:(lia)) as (a & ->). eauto 8.
  - destruct (day_last true data (1 + Z.of_nat i) ltac:(lia)) as (a & ->). eauto 8.
  - destruct (tree_last true data plaintext_tree ltac:(cbn; auto)) as (a & Q). change (p1_dir data) with (party_dir true data). rewrite Q. eauto 8.
  - destruct (tree_last false data encrypted_tree ltac:(cbn; auto)) as (a & Q). change (p0_dir data) with (party_dir false data). rewrite Q. eauto 8.
  - rewrite elements_path. eauto 8.
Qed.
Lemma og_key_last out f : In f (elgamal_files out) -> exists a c, f = a ++ [c] /\ c <> 118 /\ c <> 101 /\ c <> 99.
Proof.
  assert (G : forall d x c, c <> slash -> c <> 118 -> c <> 101 -> c <> 99 -> exists a c', path (d ++ x ++ [c]) = a ++ [c'] /\ c' <> 118 /\ c' <> 101 /\ c' <> 99).
  { intros d x c N1 N2 N3 N4. exists (path (d ++ x)), c. rewrite path_last by auto. auto. }
  unfold elgamal_files. cbn [map In]. intros [<-|[<-|[<-|[<-|[]]]]];
    first [ apply (G _ [101; 108; 103; 97; 109; 97; 108; 46; 112; 117] 98); discriminate
          | apply (G _ [101; 108; 103; 97; 109; 97; 108; 46; 107; 101] 121); discriminate ].
Qed.
Lemma og_keys_apart out data days f : In f (elgamal_files out) -> ~ In f (og_csv_paths data days ++ og_tree_paths data).
Proof.
  intros K D. apply og_key_last in K as (a & c & -> & N1 & N2 & N3). apply og_data_last in D as (b & c' & E & N4). apply app_inj_tail in E as (_ & ->). tauto.
Qed.
Lemma key_drawn {Gr : group} x : 1 <= x < ord Gr -> exists t t', gen_key_pair t = Ok ((key_of (Gr := Gr) x, x), t').
Proof.
  intros B. exists (fun _ => x - 1), (tl_tape (fun _ => x - 1)). unfold gen_key_pair, gen_private_key, rand_between, rand_less_than, bind, ret.
  rewrite (proj2 (Z.ltb_lt 1 (ord Gr))) by lia. rewrite (proj2 (Z.ltb_lt 0 (ord Gr - 1))) by lia. rewrite Z.mod_small by lia. replace (x - 1 + 1) with x by lia. reflexivity.
Qed.

Section Statements.
Context {Gr : group}.
Variables (cpub : codec (pub_msg (Gr := Gr))) (csec : codec sec_msg).
Variables (cpt : codec (tree_file pnode)) (cet : codec (tree_file (list (welem Gr)))) (coprf : codec (list (string * wpoint Gr))).
Variable hash : Z -> list bool.
Variable H : Z -> Gr.
Variable dec_string : Z -> string.
Variables stash node : nat.
Notation setup_program := (og_setup_program cpub csec cpt cet coprf hash H dec_string stash node).
Notation prog := (prog_original cpub csec cpt cet coprf hash H dec_string stash node).

Lemma only_elgamal e out s s' o : generate_elgamal_keys cpub csec e (p0_dir out) (p1_dir out) s = (s', o) -> same_except (elgamal_files out) (sy_world s) (sy_world s').
Proof.
  revert s s' o. change (touches (elgamal_files out) (generate_elgamal_keys cpub csec e (p0_dir out) (p1_dir out))).
  unfold generate_elgamal_keys, elgamal_key_pair. repeat first [ apply touches_rand | apply touches_pure | apply touches_read | apply touches_ret | (apply touches_write; solve [tells]) | (apply touches_bind; [|intros]) ].
Qed.
(** C68.  Whatever the environment does and whatever the setup program reports,
    only the files of the deployment change; without initial sets, the files for
    them stay what they were. *)
Theorem C68_only : forall e data out days daily start shared max expected s s' o,
  setup_program e data out days daily start shared max expected s = (s', o) ->
  same_except (og_program_files data out days) (sy_world s) (sy_world s')
  /\ (start <= 0 -> same_except (elgamal_files out ++ og_csv_paths data days) (sy_world s) (sy_world s')).
Proof.
  intros e data out days daily start shared max expected.
  assert (T : forall l, incl (elgamal_files out) l -> incl (og_csv_paths data days) l -> (0 < start -> incl (og_tree_paths data) l) -> touches l (setup_program e data out days daily start shared max expected)).
  { intros l I1 I2 I3. unfold og_setup_program. apply touches_bind.
    - intros s s' o R f NI. eapply only_elgamal; [exact R|]. intros Q. apply NI. auto.
    - intros []. unfold og_setup_data. cbn zeta. apply touches_bind; [apply touches_rand|]. intros [[[[t0 l0] t1] l1] sum].
      apply touches_bind; [apply touches_io; intros w w' o R f NI; apply (write_days_only _ _ _ _ _ _ _ _ _ Z.le_0_1 R); intros Q; apply NI; apply I2; exact Q|].
      intros []. destruct (Z.ltb_spec 0 start) as [SP|SP]; [|apply touches_ret]. specialize (I3 SP).
      apply touches_bind; [apply touches_pure|]. intros st1. apply touches_bind.
      { unfold og_tree_files. apply touches_bind; [apply touches_encrypter|]. intros pk. apply touches_files; apply I3; [left; reflexivity|right; left; reflexivity]. }
      intros []. apply touches_bind; [|intros; apply touches_ret]. unfold write_hx_file.
      repeat first [ apply touches_pure | apply touches_read | (apply touches_write; apply I3; right; right; left; reflexivity) | (apply touches_bind; [|intros]) ]. }
  intros s s' o R. split.
  - eapply T; [| | |exact R]; unfold og_program_files; intros; intros f; rewrite !in_app_iff; auto.
  - intros LE. eapply T; [| | |exact R]; try lia; intros f; rewrite !in_app_iff; auto.
Qed.

Hypotheses (Fpub : faithful cpub) (Fsec : faithful csec) (Fpt : faithful cpt) (Fet : faithful cet) (Foprf : faithful coprf).
Lemma elgamal_saved out e s s' : generate_elgamal_keys cpub csec e (p0_dir out) (p1_dir out) s = (s', Ok tt) ->
  exists x0 x1, 1 <= x0 < ord Gr /\ 1 <= x1 < ord Gr
    /\ saved (sy_world s') cpub (p0_dir out ++ elgamal_pub) (key_msg x0) /\ saved (sy_world s') cpub (p1_dir out ++ elgamal_pub) (key_msg x1)
    /\ saved (sy_world s') csec (p0_dir out ++ elgamal_key) (bn2bin x0) /\ saved (sy_world s') csec (p1_dir out ++ elgamal_key) (bn2bin x1).
Proof.
  intros H1. unfold generate_elgamal_keys in H1.
  apply sbind_Ok in H1 as (s1 & [] & H1 & H2). apply key_pair_Ok in H1 as (x0 & B0 & N0 & P0 & S0 & E0); [|apart].
  apply key_pair_Ok in H2 as (x1 & B1 & N1 & P1 & S1 & E1); [|apart].
  exists x0, x1. split; auto. split; auto.
  split. { apply saved_path with (p0_dir out ++ slash :: elgamal_pub); [paths; reflexivity|]. eapply saved_keep; [exact P0|exact E1|not_in]. }
  split. { apply saved_path with (p1_dir out ++ slash :: elgamal_pub); [paths; reflexivity|]. exact P1. }
  split. { apply saved_path with (p0_dir out ++ slash :: elgamal_key); [paths; reflexivity|]. eapply saved_keep; [exact S0|exact E1|not_in]. }
  apply saved_path with (p1_dir out ++ slash :: elgamal_key); [paths; reflexivity|]. exact S1.
Qed.
Lemma og_tree_files_Ok e start1 x kd pd ed s s' : saved (sy_world s) cpub (kd ++ elgamal_pub) (key_msg x) -> gpow (Gr := Gr) gen x <> gid ->
  path (pd ++ plaintext_tree) <> path (ed ++ encrypted_tree) -> og_tree_files cpub cpt cet hash stash node e start1 kd pd ed s = (s', Ok tt) ->
  exists f, trees_plain stash node hash (key_of x) start1 (sy_coins s) = Ok (f, sy_coins s')
    /\ saved (sy_world s') cpt (pd ++ plaintext_tree) (fst f) /\ saved (sy_world s') cet (ed ++ encrypted_tree) (snd f)
    /\ same_except [path (pd ++ plaintext_tree); path (ed ++ encrypted_tree)] (sy_world s) (sy_world s').
Proof.
  intros SP NZ NP R. unfold og_tree_files in R. apply sbind_Ok in R as (s1 & pk & H1 & R).
  apply io_Ok in H1 as (w' & H1 & ->). unfold load_encrypter in H1. apply sbind_Ok in H1 as (w1 & m & H1 & H2). apply pure_Ok in H2 as (H2 & ->).
  apply (read_msg_Ok e cpub _ _ _ _ _ Fpub SP) in H1 as (-> & F). rewrite deser_key in H2 by auto. injection H2 as <-.
  apply tree_files_Ok in R as (f & G & S1 & S2 & SE); auto. cbn [sy_world sy_coins] in *. exists f. split; [exact G|]. split; auto. split; auto. intros g NI. rewrite SE by auto. apply F.
Qed.
Lemma write_hx_Ok e data out tree0 x0 x1 s s' : 0 <= x0 -> 0 <= x1 ->
  saved (sy_world s) csec (p0_dir out ++ elgamal_key) (bn2bin x0) -> saved (sy_world s) csec (p1_dir out ++ elgamal_key) (bn2bin x1) ->
  write_hx_file csec coprf H dec_string e data out tree0 s = (s', Ok tt) ->
  exists start0 kv, dataset_elements tree0 = Ok start0 /\ write_hx H dec_string x0 x1 start0 = Ok kv
    /\ saved (sy_world s') coprf (p0_dir data ++ elements_ec) kv /\ same_except [path (p0_dir data ++ elements_ec)] (sy_world s) (sy_world s') /\ sy_coins s' = sy_coins s.
Proof.
  intros G0 G1 S0 S1 R. unfold write_hx_file in R.
  apply sbind_Ok in R as (s1 & m0 & R0 & R). apply io_Ok in R0 as (w1 & R0 & ->). apply (read_msg_Ok e csec _ _ _ _ _ Fsec S0) in R0 as (-> & F1).
  assert (S1' : saved w1 csec (p1_dir out ++ elgamal_key) (bn2bin x1)) by (eapply saved_files; [exact F1|exact S1]).
  apply sbind_Ok in R as (s2 & m1 & R1 & R). apply io_Ok in R1 as (w2 & R1 & ->). apply (read_msg_Ok e csec _ _ _ _ _ Fsec S1') in R1 as (-> & F2).
  apply sbind_Ok in R as (s3 & start0 & R2 & R). apply pure_Ok in R2 as (R2 & ->).
  apply sbind_Ok in R as (s4 & kv & R3 & R). apply pure_Ok in R3 as (R3 & ->).
  replace (of_bytes (bn2bin x0)) with x0 in R3 by (symmetry; apply bn2bin_spec; auto). replace (of_bytes (bn2bin x1)) with x1 in R3 by (symmetry; apply bn2bin_spec; auto).
  apply io_write_Ok in R as (W & SE & C). cbn [sy_world sy_coins] in *. exists start0, kv. split; auto. split; auto. split; auto. split; auto.
  intros f NI. rewrite SE by auto. rewrite F2, F1. auto.
Qed.
(** the files of the initial sets *)
Definition og_files_hold (w : world) (data : bytes) (f : og_files Gr) : Prop :=
  saved w cpt (p1_dir data ++ plaintext_tree) (of_plain f) /\ saved w cet (p0_dir data ++ encrypted_tree) (of_enc f) /\ saved w coprf (p0_dir data ++ elements_ec) (of_oprf f).
Lemma og_setup_Ok e data out days daily start shared max expected r s s' : flags days daily start shared max ->
  setup_program e data out days daily start shared max expected s = (s', Ok r) ->
  exists x0 x1 d t, 1 <= x0 < ord Gr /\ 1 <= x1 < ord Gr
    /\ og_generate hash H dec_string (key_of x1) x0 x1 stash node days daily start shared max expected t = Ok (d, sy_coins s')
    /\ od_size d = fst r /\ od_data d = snd r /\ length (od_csv0 d) = Z.to_nat days /\ length (od_csv1 d) = Z.to_nat days
    /\ forall w, og_delivered data out days (sy_world s') w ->
         days_hold w (p0_dir data) 1 (od_csv0 d) /\ days_hold w (p1_dir data) 1 (od_csv1 d)
         /\ match od_files d with Some f => 0 < start /\ og_files_hold w data f | None => start <= 0 end
         /\ saved w cpub (p0_dir out ++ elgamal_pub) (key_msg x0) /\ saved w cpub (p1_dir out ++ elgamal_pub) (key_msg x1)
         /\ saved w csec (p0_dir out ++ elgamal_key) (bn2bin x0) /\ saved w csec (p1_dir out ++ elgamal_key) (bn2bin x1).
Proof.
  intros (U1 & U2 & U3 & FS & MX & TB) R. unfold og_setup_program in R. apply sbind_Ok in R as (s1 & [] & K & R).
  apply elgamal_saved in K as (x0 & x1 & B0 & B1 & Q0 & Q1 & K0 & K1).
  unfold og_setup_data in R. set (sh := shared_size (u32 (start + u32 (days * daily))) shared) in *.
  apply sbind_Ok in R as (s2 & [[[[t0 l0] t1] l1] sum] & G & R). apply rand_Ok in G as (tp1 & G & ->).
  assert (LL : length l0 = Z.to_nat days /\ length l1 = Z.to_nat days).
  { assert (V4 : uint32 (u32 sh)) by (apply Z.mod_pos_bound; reflexivity). assert (V5 : uint32 (u32 max)) by (apply Z.mod_pos_bound; reflexivity).
    destruct (C42_as_requested _ _ _ _ _ _ _ _ _ _ _ _ U1 U2 U3 V4 V5 G) as (_ & _ & _ & _ & LD0 & _ & _ & LD1 & _). lia. }
  destruct LL as (LL0 & LL1).
  apply sbind_Ok in R as (s3 & [] & W & R). apply io_Ok in W as (w2 & W & ->). cbn [sy_world sy_coins] in *.
  apply write_days_Ok in W as (csv0 & csv1 & O0 & O1 & L0 & L1 & D0 & D1 & SE); [|lia]. rewrite firstn_days in O0, O1 by auto.
  change (csv_paths false data 1 (Z.to_nat days) ++ csv_paths true data 1 (Z.to_nat days)) with (og_csv_paths data days) in SE.
  assert (KN : forall T (c : codec T) f m, In (path f) (elgamal_files out) -> saved (sy_world s1) c f m -> saved w2 c f m).
  { intros T c f m I1 SV. eapply saved_keep; [exact SV|exact SE|]. intros I2. apply (og_keys_apart out data days _ I1). apply in_or_app. auto. }
  assert (DH : forall w v csv, og_delivered data out days (sy_world s') w -> length csv = Z.to_nat days -> days_hold (sy_world s') (party_dir v data) 1 csv -> days_hold w (party_dir v data) 1 csv).
  { intros w v csv DW LC. assert (G' : forall i, (i < length csv)%nat -> files w (path (day_file (party_dir v data) (1 + Z.of_nat i))) = files (sy_world s') (path (day_file (party_dir v data) (1 + Z.of_nat i)))).
    { intros i Li. apply DW. unfold og_program_files, og_csv_paths. rewrite !in_app_iff, !in_csv. right. left. rewrite LC in Li. destruct v; [right|left]; exists i; auto. }
    clear LC. revert G'. generalize 1 as day. induction csv as [|c csv IH]; intros day G' X; [exact I|]. cbn [days_hold] in *. destruct X as (X1 & X2). split.
    - specialize (G' O). rewrite Z.add_0_r in G'. rewrite G'; auto. cbn [length]. lia.
    - apply IH; auto. intros i Li. specialize (G' (S i)). replace (day + 1 + Z.of_nat i) with (day + Z.of_nat (S i)) by lia. apply G'. cbn [length]. lia. }
  assert (SD : forall w T (c : codec T) f m, og_delivered data out days (sy_world s') w -> In (path f) (og_program_files data out days) -> saved (sy_world s') c f m -> saved w c f m).
  { intros w T c f m DW IF (Y1 & Y2). split; auto. rewrite DW; auto. }
  assert (KP : forall f, In f (elgamal_files out) -> In f (og_program_files data out days)) by (intros f IF; apply in_or_app; auto).
  destruct (0 <? start) eqn:S0.
  - apply Z.ltb_lt in S0. apply sbind_Ok in R as (s4 & start1 & P1 & R). apply pure_Ok in P1 as (P1 & ->).
    apply sbind_Ok in R as (s5 & [] & T & R).
    apply (og_tree_files_Ok e start1 x1 (p1_dir out) (p1_dir data) (p0_dir data)) in T as (f & GT & T1 & T2 & SE1);
      [|apply KN; [tells|exact Q1]|apply pow_nz; auto|].
    2:{ intros Q. apply (tree_path_inj true false) in Q as (Q & _); [discriminate|cbn; auto|cbn; auto]. }
    cbn [sy_world sy_coins] in *.
    assert (TI : forall g, In g [path (p1_dir data ++ plaintext_tree); path (p0_dir data ++ encrypted_tree)] -> In g (og_tree_paths data)).
    { intros g [<-|[<-|[]]]; [left; reflexivity|right; left; reflexivity]. }
    assert (KN1 : forall T (c : codec T) f m, In (path f) (elgamal_files out) -> saved (sy_world s1) c f m -> saved (sy_world s5) c f m).
    { intros T c g m I1 SV. eapply saved_keep; [exact (KN _ _ _ _ I1 SV)|exact SE1|]. intros I2. apply (og_keys_apart out data days _ I1). apply in_or_app. auto. }
    apply sbind_Ok in R as (s6 & [] & HX & R).
    apply (write_hx_Ok e data out t0 x0 x1) in HX as (start0 & kv & P0 & EH & T3 & SE2 & CE); [|lia|lia|apply KN1; [tells|auto]..].
    injection R as <- <-.
    assert (NE : forall a c, In c [118; 101] -> a ++ [c] <> path (p0_dir data ++ elements_ec)).
    { intros a c [<-|[<-|[]]]; rewrite elements_path; apply last_differ; discriminate. }
    assert (DK : forall v csv, days_hold w2 (party_dir v data) 1 csv -> days_hold (sy_world s6) (party_dir v data) 1 csv).
    { intros v csv X. eapply days_hold_keep; [eapply days_hold_keep; [exact X|exact SE1|]|exact SE2|].
      - intros i Li. destruct (day_last v data (1 + Z.of_nat i) ltac:(lia)) as (b & ->).
        destruct (tree_last true data plaintext_tree ltac:(cbn; auto)) as (b1 & Eb1). destruct (tree_last false data encrypted_tree ltac:(cbn; auto)) as (b2 & Eb2). cbn [party_dir] in Eb1, Eb2. rewrite Eb1, Eb2.
        intros [Q|[Q|[]]]; revert Q; apply last_differ; discriminate.
      - intros i Li. destruct (day_last v data (1 + Z.of_nat i) ltac:(lia)) as (b & ->). intros [Q|[]]. symmetry in Q. revert Q. apply NE. left. auto. }
    exists x0, x1, (mkOgD csv0 csv1 (Some (mkOgF (fst f) (snd f) kv)) (if expected then Some (OrigSetupModel.announced sh (pairs_equal (d_elements t0) (d_elements t1))) else None) (t0, l0, t1, l1)), (sy_coins s1).
    cbn [od_size od_data od_csv0 od_csv1 od_files fst snd]. split; auto. split; auto. split.
    { unfold og_generate. fold sh. unfold bind at 1. rewrite G. unfold bind at 1, lift at 1. rewrite O0. unfold bind at 1, lift at 1. rewrite O1.
      replace (0 <? start) with true by (symmetry; apply Z.ltb_lt; auto). unfold bind at 1, lift at 1. rewrite P1. unfold bind at 1, lift at 1. rewrite P0.
      unfold og_setup_files, bind at 1. unfold bind at 1. rewrite GT. unfold bind, lift. rewrite EH, CE. reflexivity. }
    repeat (split; [solve [auto]|]). intros w DW.
    assert (S56 : saved (sy_world s6) cpt (p1_dir data ++ plaintext_tree) (fst f) /\ saved (sy_world s6) cet (p0_dir data ++ encrypted_tree) (snd f)).
    { destruct (tree_last true data plaintext_tree ltac:(cbn; auto)) as (b1 & Eb1). destruct (tree_last false data encrypted_tree ltac:(cbn; auto)) as (b2 & Eb2). cbn [party_dir] in Eb1, Eb2.
      split; (eapply saved_keep; [eassumption|exact SE2|]); intros [Q|[]]; symmetry in Q; revert Q; [rewrite Eb1|rewrite Eb2]; apply NE; right; left; auto. }
    split; [apply (DH w false); auto; apply (DK false); auto|]. split; [apply (DH w true); auto; apply (DK true); auto|]. split.
    { split; auto. unfold og_files_hold. cbn [of_plain of_enc of_oprf].
      assert (TP : forall g, In g (og_tree_paths data) -> In g (og_program_files data out days)) by (intros g IG; unfold og_program_files; rewrite !in_app_iff; auto).
      split; [apply SD; [exact DW|apply TP; left; reflexivity|apply S56]|]. split; [apply SD; [exact DW|apply TP; right; left; reflexivity|apply S56]|]. apply SD; [exact DW|apply TP; right; right; left; reflexivity|exact T3]. }
    assert (KN2 : forall T (c : codec T) f m, In (path f) (elgamal_files out) -> saved (sy_world s1) c f m -> saved w c f m).
    { intros T c g m I1 SV. apply SD; [exact DW|apply KP; auto|]. eapply saved_keep; [exact (KN1 _ _ _ _ I1 SV)|exact SE2|]. intros [Q|[]]. apply (og_keys_apart out data days _ I1). apply in_or_app. right. right. right. left. auto. }
    do 3 (split; [apply KN2; [tells|auto]|]). apply KN2; [tells|auto].
  - injection R as <- <-. cbn [sy_world sy_coins fst snd] in *.
    exists x0, x1, (mkOgD csv0 csv1 None (Some sh) (t0, l0, t1, l1)), (sy_coins s1). cbn [od_size od_data od_csv0 od_csv1 od_files fst snd]. split; auto. split; auto. split.
    { unfold og_generate. fold sh. unfold bind at 1. rewrite G. unfold bind at 1, lift at 1. rewrite O0. unfold bind at 1, lift at 1. rewrite O1. rewrite S0. reflexivity. }
    repeat (split; [solve [auto]|]). intros w DW. split; [apply (DH w false); auto|]. split; [apply (DH w true); auto|]. split; [apply Z.ltb_ge; auto|].
    do 3 (split; [apply SD; [exact DW|apply KP; tells|apply KN; [tells|auto]]|]). apply SD; [exact DW|apply KP; tells|apply KN; [tells|auto]].
Qed.

Lemma read_missing {T} e (c : codec T) name w : reliable e -> files w (path name) = None -> read_msg e c name w = (step w, Err NotFound).
Proof. intros RE NF. unfold read_msg, read_proto_from_file, scoped, sbind. cbn [posix_open]. rewrite RE, NF. reflexivity. Qed.
Section Run.
Variables e0 e1 : env.
Hypotheses (R0 : reliable e0) (R1 : reliable e1).
Lemma load_original_run e mine other w x y : reliable e -> 1 <= x < ord Gr -> 1 <= y < ord Gr ->
  saved w cpub (mine ++ elgamal_pub) (key_msg x) -> saved w cpub (other ++ elgamal_pub) (key_msg y) -> saved w csec (mine ++ elgamal_key) (bn2bin x) ->
  exists t, load_original cpub csec e mine other w = (mkWorld (files w) t, Ok (key_of x, key_of y, x)).
Proof.
  intros RE BX BY S1 S2 S3. unfold load_original. destruct (read_msg_reliable e cpub _ _ w RE Fpub S1) as (k1 & E1).
  rewrite (sbind_run _ _ _ _ _ (must_run _ _ _ _ E1)). rewrite deser_key by (apply pow_nz; auto). unfold sbind at 1. unfold must at 1, pure, sfail.
  assert (S2' : saved (mkWorld (files w) k1) cpub (other ++ elgamal_pub) (key_msg y)) by exact S2.
  destruct (read_msg_reliable e cpub _ _ _ RE Fpub S2') as (k2 & E2). rewrite (sbind_run _ _ _ _ _ (must_run _ _ _ _ E2)). rewrite deser_key by (apply pow_nz; auto). unfold sbind at 1. unfold must at 1, pure, sfail.
  assert (S3' : saved (mkWorld (files (mkWorld (files w) k1)) k2) csec (mine ++ elgamal_key) (bn2bin x)) by exact S3.
  destruct (read_msg_reliable e csec _ _ _ RE Fsec S3') as (k3 & E3). rewrite (sbind_run _ _ _ _ _ (must_run _ _ _ _ E3)).
  exists k3. unfold sret. replace (of_bytes (bn2bin x)) with x by (symmetry; apply bn2bin_spec; lia). reflexivity.
Qed.
(** a party up to its keys, in a file system that holds its data sets and keys *)
Lemma og_begin e dir mine other csv n ds l x y s : reliable e -> 1 <= x < ord Gr -> 1 <= y < ord Gr ->
  days_hold (sy_world s) dir 1 csv -> length csv = n -> omap dataset_read csv = Ok ds -> omap dataset_elements ds = Ok l ->
  saved (sy_world s) cpub (mine ++ elgamal_pub) (key_msg x) -> saved (sy_world s) cpub (other ++ elgamal_pub) (key_msg y) -> saved (sy_world s) csec (mine ++ elgamal_key) (bn2bin x) ->
  exists k, forall B (f : list (list Z) -> og_keys -> SM sys B), (ds' <-- io (read_days e dir n 1) ;; l' <-- pure (omap dataset_elements ds') ;; ks <-- io (load_original cpub csec e mine other) ;; f l' ks) s
    = f l (key_of x, key_of y, x) (mkSys (mkWorld (files (sy_world s)) k) (sy_coins s)).
Proof.
  intros RE BX BY DH <- DR DL S1 S2 S3. destruct (read_days_run e dir csv RE 1 (sy_world s) ds DH DR) as (k1 & E1).
  set (s1 := mkSys (mkWorld (files (sy_world s)) k1) (sy_coins s)).
  assert (X1 : saved (sy_world s1) cpub (mine ++ elgamal_pub) (key_msg x)) by exact S1. assert (X2 : saved (sy_world s1) cpub (other ++ elgamal_pub) (key_msg y)) by exact S2. assert (X3 : saved (sy_world s1) csec (mine ++ elgamal_key) (bn2bin x)) by exact S3.
  destruct (load_original_run e mine other (sy_world s1) x y RE BX BY X1 X2 X3) as (k2 & E2). exists k2. intros B f.
  rewrite (sbind_run _ _ _ _ _ (io_run _ _ _ _ E1)). fold s1. rewrite (sbind_run (pure (omap dataset_elements ds)) _ s1 s1 l) by (rewrite DL; reflexivity).
  rewrite (sbind_run _ _ _ _ _ (io_run _ _ _ _ E2)). reflexivity.
Qed.
Variables (csize : og_req Gr -> Z) (ssize : og_reply Gr -> Z).
Lemma og_both (P : og_client * og_server Gr -> Prop) data out days start (d : og_deployed Gr) d0 d1 x0 x1 s c0 sv0 :
  (forall w, same_files (sy_world s) w -> days_hold w (p0_dir data) 1 (od_csv0 d) /\ days_hold w (p1_dir data) 1 (od_csv1 d)
         /\ match od_files d with Some f => 0 < start /\ og_files_hold w data f | None => start <= 0 end
         /\ saved w cpub (p0_dir out ++ elgamal_pub) (key_msg x0) /\ saved w cpub (p1_dir out ++ elgamal_pub) (key_msg x1)
         /\ saved w csec (p0_dir out ++ elgamal_key) (bn2bin x0) /\ saved w csec (p1_dir out ++ elgamal_key) (bn2bin x1)) ->
  1 <= x0 < ord Gr -> 1 <= x1 < ord Gr -> length (od_csv0 d) = days -> length (od_csv1 d) = days ->
  load_elements (od_csv0 d) = Ok d0 -> load_elements (od_csv1 d) = Ok d1 ->
  og_server_with stash node (od_files d) days d0 = Ok sv0 -> og_client_with stash node (od_files d) days d1 = Ok c0 ->
  (forall coins, ends_well (fun r => P (fst r)) (run_days oc_finished (og_day_run hash H dec_string (key_of x0) (key_of x1) x0 x1 csize ssize) days (c0, sv0) coins)) ->
  ends P (prog csize ssize e0 e1 data out days (0 <? start) s).
Proof.
  intros HOLD B0 B1 C0 C1 L0 L1 SV CL GO. unfold load_elements in L0, L1. apply obind_Ok in L0 as (ds0 & DR0 & DL0). apply obind_Ok in L1 as (ds1 & DR1 & DL1).
  unfold prog_original. apply ends_bind.
  destruct (HOLD (sy_world s) (fun f => eq_refl)) as (D0 & _ & F & P0 & P1 & S0 & _).
  assert (Z0 : exists k, og_zero cpub csec cet coprf stash node e0 data out days (0 <? start) s = (mkSys (mkWorld (files (sy_world s)) k) (sy_coins s), Ok (sv0, (key_of x0, key_of x1, x0)))).
  { unfold og_zero. destruct (og_begin e0 _ (p0_dir out) (p1_dir out) _ _ _ _ _ _ _ R0 B0 B1 D0 C0 DR0 DL0 P0 P1 S0) as (k & EQ).
    rewrite EQ. clear EQ. unfold og_server_with in SV. destruct (od_files d) as [f|].
    - destruct F as (PS & F1 & F2 & F3). rewrite (proj2 (Z.ltb_lt 0 start) PS). set (w1 := mkWorld (files (sy_world s)) k).
      destruct (tree_deserialize (deser_node deser_plain) (of_enc f)) as [t|c| |] eqn:TD; try discriminate. apply obind_Ok in SV as (m & IM & SV).
      assert (F2' : saved w1 cet (p0_dir data ++ encrypted_tree) (of_enc f)) by exact F2. destruct (read_msg_reliable e0 cet _ _ _ R0 Fet F2') as (k2 & E2).
      assert (F3' : saved (mkWorld (files w1) k2) coprf (p0_dir data ++ elements_ec) (of_oprf f)) by exact F3. destruct (read_msg_reliable e0 coprf _ _ _ R0 Foprf F3') as (k3 & E3).
      exists k3. erewrite sbind_run; [|apply io_run; erewrite sbind_run; [|apply must_run; exact E2]; rewrite TD; erewrite sbind_run; [|reflexivity]; erewrite sbind_run; [|apply must_run; exact E3]; rewrite IM; reflexivity].
      cbn [obind] in SV. injection SV as <-. reflexivity.
    - rewrite (proj2 (Z.ltb_ge 0 start) F). exists k. injection SV as <-. reflexivity. }
  destruct Z0 as (k & ->). apply ends_bind. cbn [fst snd]. set (s1 := mkSys _ _).
  destruct (HOLD (sy_world s1) (fun f => eq_refl)) as (_ & D1 & F' & P0' & P1' & _ & S1').
  assert (Z1 : exists k, og_one cpub csec cpt stash node e1 data out days (0 <? start) s1 = (mkSys (mkWorld (files (sy_world s)) k) (sy_coins s), Ok (c0, (key_of x1, key_of x0, x1)))).
  { unfold og_one. destruct (og_begin e1 _ (p1_dir out) (p0_dir out) _ _ _ _ _ _ _ R1 B1 B0 D1 C1 DR1 DL1 P1' P0' S1') as (k' & EQ).
    rewrite EQ. clear EQ. unfold og_client_with in CL. destruct (od_files d) as [f|].
    - destruct F' as (PS & F1 & F2 & F3). rewrite (proj2 (Z.ltb_lt 0 start) PS). set (w1 := mkWorld (files (sy_world s1)) k').
      destruct (tree_deserialize deser_pnode (of_plain f)) as [t|c| |] eqn:TD; try discriminate.
      assert (F1' : saved w1 cpt (p1_dir data ++ plaintext_tree) (of_plain f)) by exact F1. destruct (read_msg_reliable e1 cpt _ _ _ R1 Fpt F1') as (k2 & E2).
      exists k2. erewrite sbind_run; [|apply io_run; erewrite sbind_run; [|apply must_run; exact E2]; rewrite TD; reflexivity]. injection CL as <-. reflexivity.
    - rewrite (proj2 (Z.ltb_ge 0 start) F'). exists k'. injection CL as <-. reflexivity. }
  destruct Z1 as (k' & ->). cbn [fst snd]. apply ends_rand. cbn [sy_coins]. apply GO.
Qed.
(** C68.  The setup program has run, in some environment and with success, and its
    files were not changed since: the size it printed is the number of elements
    party zero reports on the last day, unless party one's stash overflowed; then
    party zero reports at most that many. *)
Definition og_set_up (e : env) (data out : bytes) (days daily start shared max : Z) (expected : bool) (size : option Z) (w : world) : Prop :=
  flags days daily start shared max
  /\ exists sets s s', setup_program e data out days daily start shared max expected s = (s', Ok (size, sets))
       /\ og_different H days daily start shared sets /\ og_delivered data out days (sy_world s') w.
Theorem C68_announced : forall e data out days daily start shared max expected size s,
  (forall x, length (hash x) = 256%nat) -> 2 * 10 ^ 15 <= ord Gr -> int32 stash -> int32 node ->
  og_set_up e data out days daily start shared max expected (Some size) (sy_world s) ->
  ends (fun '(c, sv) => Z.of_nat (og_day sv) = days /\ Z.of_nat (length (og_inter sv)) <= size
          /\ (no_overflow (oc_tree c) -> Z.of_nat (length (og_inter sv)) = size))
    (prog csize ssize e0 e1 data out (Z.to_nat days) (0 <? start) s).
Proof.
  intros e data out days daily start shared max expected size s HH BG IS IN (FL & sets & s0 & s' & ST & (DF & NC) & DV).
  destruct (og_setup_Ok _ _ _ _ _ _ _ _ _ _ _ _ FL ST) as (x0 & x1 & d & t & B0 & B1 & GE & E1 & E2 & C0 & C1 & HOLD). cbn [fst snd] in *.
  pose proof FL as (U1 & U2 & U3 & FS & MX & TB).
  assert (WS : og_was_setup Gr hash H dec_string (key_of x1) x0 x1 stash node days daily start shared max expected d).
  { split; auto. split; [eauto|]. rewrite E2. destruct sets as [[[t0 l0] t1] l1]. split; auto. }
  assert (OS : og_setting Gr hash (key_of x0) (key_of x1) x0 x1) by (split; [auto|]; split; [auto|]; split; apply key_drawn; auto).
  assert (NCO : let '(t0, l0, t1, l1) := od_data d in no_coincidence (start + days * daily) (shared_size (start + days * daily) shared) (all_elements t0 l0) (all_elements t1 l1)).
  { rewrite E2. destruct sets as [[[t0 l0] t1] l1]. exact DF. }
  destruct (og_deployed_facts hash H dec_string x0 x1 stash node HH IS IN _ _ _ _ _ _ _ _ _ U1 U2 U3 FS MX TB GE NCO) as (a0 & b0 & a1 & b1 & L0 & L1 & LD & LB & _ & _ & FH & _).
  assert (DN : length b0 = Z.to_nat days) by lia.
  destruct (FH (Z.to_nat days) b0 b1) as (c & sv & SV & CL & _).
  apply (og_both _ data out (Z.to_nat days) start d b0 b1 x0 x1 s c sv); auto.
  { intros w SF. apply HOLD. intros f IF. rewrite SF. auto. }
  intros coins.
  pose proof (C54_announced Gr hash H dec_string (key_of x0) (key_of x1) x0 x1 csize ssize stash node days daily start shared max expected d size (Z.to_nat days) coins OS IS IN WS ltac:(unfold uint32 in U1; lia) E1) as X.
  unfold og_deployed_run, og_prepared, bind, lift in X. rewrite L0, L1, DN, SV, CL in X.
  destruct (run_days _ _ _ _ coins) as [[[c' sv'] t']|cc| |]; auto.
Qed.
(** Without initial sets the setup program writes no trees; the programs import
    them unless told not to (--trees is on by default): unless there are trees
    from before, party zero does not start. *)
Theorem C68_no_trees : forall e data out days daily start shared max expected size s,
  og_set_up e data out days daily start shared max expected size (sy_world s) ->
  files (sy_world s) (path (p0_dir data ++ encrypted_tree)) = None ->
  (forall x, length (hash x) = 256%nat) -> int32 stash -> int32 node ->
  start <= 0 /\ snd (prog csize ssize e0 e1 data out (Z.to_nat days) true s) = Abort.
Proof.
  intros e data out days daily start shared max expected size s (FL & sets & s0 & s' & ST & (DF & NC) & DV) NF HH IS IN.
  destruct (og_setup_Ok _ _ _ _ _ _ _ _ _ _ _ _ FL ST) as (x0 & x1 & d & t & B0 & B1 & GE & E1 & E2 & C0 & C1 & HOLD). cbn [fst snd] in *.
  pose proof FL as (U1 & U2 & U3 & FS & MX & TB). destruct (HOLD (sy_world s) DV) as (D0 & _ & F & P0 & P1 & S0 & _).
  assert (NCO : let '(t0, l0, t1, l1) := od_data d in no_coincidence (start + days * daily) (shared_size (start + days * daily) shared) (all_elements t0 l0) (all_elements t1 l1)).
  { rewrite E2. destruct sets as [[[t0 l0] t1] l1]. exact DF. }
  destruct (og_deployed_facts hash H dec_string x0 x1 stash node HH IS IN _ _ _ _ _ _ _ _ _ U1 U2 U3 FS MX TB GE NCO) as (a0 & b0 & a1 & b1 & L0 & _).
  unfold load_elements in L0. apply obind_Ok in L0 as (ds0 & DR0 & DL0).
  split. { destruct (od_files d) as [f|]; auto. destruct F as (_ & _ & (_ & Q) & _). congruence. }
  unfold prog_original. unfold sbind at 1. unfold og_zero. 
  destruct (og_begin e0 _ (p0_dir out) (p1_dir out) _ _ _ _ _ _ _ R0 B0 B1 D0 C0 DR0 DL0 P0 P1 S0) as (k & EQ).
  rewrite EQ. clear EQ. cbn iota. unfold sbind at 1. unfold io at 1, zoom at 1. cbn [sy_world sy_coins]. unfold sbind at 1. unfold must at 1.
  rewrite (read_missing e0 cet (p0_dir data ++ encrypted_tree) (mkWorld (files (sy_world s)) k) R0 NF). reflexivity.
Qed.
End Run.
End Statements.

(** ** Examples: the file system and codecs of C67, and lists of strings with
    points; one initial element and one day, both common *)
Require Import Ascii.
Section Examples.
Definition p_string : pcodec string := mkP
  (fun s => p_enc (p_list p_z) (map (fun a => Z.of_nat (nat_of_ascii a)) (list_ascii_of_string s)))
  (fun s => let '(l, r) := p_dec (p_list p_z) s in (string_of_list_ascii (map (fun z => ascii_of_nat (Z.to_nat z)) l), r)).
Lemma good_string : pgood p_string.
Proof.
  intros s r. unfold p_string. cbn [p_enc p_dec]. rewrite (good_list _ good_z). f_equal. rewrite map_map, (map_ext _ (fun a => a)), map_id by (intros a; rewrite Nat2Z.id; apply ascii_nat_embedding). apply string_of_list_ascii_of_string.
Qed.
Definition ex_oprf : codec (list (string * wpoint exG)) := mkCodec (p_enc (p_list (p_pair p_string p_point))) (fun s => fst (p_dec (p_list (p_pair p_string p_point)) s)).
Example ex_oprf_codec : faithful ex_oprf.
Proof. intros t. unfold ex_oprf. cbn [c_ser c_parse]. rewrite <- (app_nil_r (p_enc _ t)). rewrite (good_list _ (good_pair _ _ good_string good_point)). reflexivity. Qed.
Definition ex_label (_ : Z) : string := "x"%string.
Definition ex_orig (start : Z) (run : Z -> sys -> bool) : bool :=
  match og_setup_program ex_pub ex_sec ex_pt ex_et ex_oprf ex_bits ex_H ex_label 2 2 ex_env ex_data ex_out 1 1 start (1 + start) 5 true (mkSys ex_fs (PropsData.ex_coins 7)) with
  | (s, Ok (Some size, (tree0, days0, tree1, days1))) =>
      Nat.eqb (length (distinct (all_elements tree0 days0 ++ all_elements tree1 days1))) (Z.to_nat (1 + start)) && run size (mkSys (sy_world s) ex_tape)
  | _ => false end.
Example ex_C68 : ex_orig 1 (fun size s =>
  match prog_original ex_pub ex_sec ex_pt ex_et ex_oprf ex_bits ex_H ex_label 2 2 zero_size zero_size ex_env ex_env ex_data ex_out 1 true s with
  | (_, Ok (c, sv)) => (Z.of_nat (length (og_inter sv)) =? size) && (0 <? size) && (og_day sv =? 1)%nat && no_overflowb (oc_tree c)
  | _ => false end) = true.
Proof. vm_cast_no_check (eq_refl true). Qed.
(** without an initial set: with --trees=false the size is reported, with the
    default the program ends *)
Example ex_C68_no_trees : ex_orig 0 (fun size s =>
  match prog_original ex_pub ex_sec ex_pt ex_et ex_oprf ex_bits ex_H ex_label 2 2 zero_size zero_size ex_env ex_env ex_data ex_out 1 false s,
        prog_original ex_pub ex_sec ex_pt ex_et ex_oprf ex_bits ex_H ex_label 2 2 zero_size zero_size ex_env ex_env ex_data ex_out 1 true s with
  | (_, Ok (c, sv)), (_, Abort) => (Z.of_nat (length (og_inter sv)) =? size) && (0 <? size) && (og_day sv =? 1)%nat
      && match files (sy_world s) (path (p0_dir ex_data ++ encrypted_tree)) with None => true | Some _ => false end
  | _, _ => false end) = true.
Proof. vm_cast_no_check (eq_refl true). Qed.
End Examples.

Print Assumptions C68_only.
Print Assumptions C68_announced.
Print Assumptions C68_no_trees.
