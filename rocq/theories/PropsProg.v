(** * C67: the addition-only programs, through the files they exchange.

    Programs: ProgModel.v (setup with its key, data and tree files, then party
    one and party zero as processes of their own).  The numbers the setup
    program prints are the outputs of the run, for every content of the file
    system, every environment in which setup reports success, and every
    environment of the parties in which reads work. *)
Require Import String.
Require Import List Arith Lia ZArith Permutation Bool Znumtheory.
Import ListNotations.
From Verif Require Import Prelude NumTheory TreeModel TreeSpec TreeHistory Coins Group ElGamalModel ElGamalProofs BytesModel BytesProofs ContextModel CipherModel PaillierModel PaillierProofs PropsPaillier WireModel PropsWire SyncModel SyncSpec PropsSync FlagModel CsvModel CsvSpec CsvProofs PropsCsv DataModel DataSpec DataProofs PropsData AddModel AddSpec AddProofs AddRun AddStart PropsAdd SetupModel SetupProofs PropsSetup FileModel FileSpec FileProofs PropsFile KeyModel KeyProofs PropsKeys BigPrime DeployModel DeployProofs PropsDeploy ProgModel ProgProofs.
Local Open Scope Z_scope.

(** ** Specification *)
(** every file of a deployment: key files under [out], data sets and trees under
    [data] *)
Definition program_files (data out : bytes) (days : Z) : list bytes := threshold_files out ++ data_files data (Z.to_nat days).
(** [w'] has the files of the deployment as [w] has them; all other files and the
    progress of time are arbitrary *)
Definition delivered (data out : bytes) (days : Z) (w w' : world) : Prop := forall f, In f (program_files data out days) -> files w' f = files w f.
(** a program that ends, with its result or with an error status: no abort, no
    undefined behaviour *)
Definition ends {S A} (P : A -> Prop) (r : S * outcome A) : Prop := ends_well P (snd r).
(** the strings drawn for the data were all different *)
Definition different (days daily start shared : Z) (sets : dataset * list dataset * dataset * list dataset) : Prop :=
  let '(tree0, days0, tree1, days1) := sets in let n := start + days * daily in
  no_coincidence n (if shared <? 0 then n / 8 else shared) (all_elements tree0 days0) (all_elements tree1 days1).

Section Statements.
Context {Gr : group}.
Variables (cpub : codec (pub_msg (Gr := Gr))) (csec : codec sec_msg) (cthr : codec thr_msg).
Variables (cpt : codec (tree_file pnode)) (cet : codec (tree_file (list (welem Gr)))).
Variable hash : Z -> list bool.
Variables stash node : nat.
Variable two_k_ary : bool.
Variable fuel : nat.
Notation setup_program := (setup_program cpub csec cthr cpt cet hash stash node two_k_ary fuel).
Notation start_party := (start_party cpub csec cthr cpt cet stash node two_k_ary fuel).

(** C67.  Whatever the environment does and whatever the setup program reports,
    only the files of the deployment change. *)
Lemma touches_io {A} l (m : SM world A) : (forall w w' o, m w = (w', o) -> same_except l w w') -> touches l (io m).
Proof.
  intros H s s' o R. unfold io, zoom in R. destruct (m (sy_world s)) as [w' o'] eqn:E1. injection R as <- <-. cbn [sy_world]. eapply H; eauto.
Qed.
Lemma only_bind {A B} l (m : SM world A) (f : A -> SM world B) : (forall w w' o, m w = (w', o) -> same_except l w w') -> (forall a w w' o, f a w = (w', o) -> same_except l w w') ->
  forall w w' o, sbind m f w = (w', o) -> same_except l w w'.
Proof.
  intros Hm Hf w w' o H. unfold sbind in H. destruct (m w) as [w1 [a|c| |]] eqn:E1; try (injection H as <- <-; eapply Hm; eauto; fail).
  intros g NI. rewrite (Hf a w1 w' o H g NI). apply (Hm w w1 _ E1 g NI).
Qed.
Lemma write_days_only e data k : forall day l0 l1 w w' o, 0 <= day -> write_days e (p0_dir data) (p1_dir data) k day l0 l1 w = (w', o) ->
  same_except (csv_paths false data day k ++ csv_paths true data day k) w w'.
Proof.
  induction k as [|k IH]; intros day l0 l1 w w' o GD H; cbn [write_days] in H; assert (GD' : 0 <= day + 1) by lia; [injection H as <- <-; intros f _; auto|].
  destruct l0 as [|x0 r0]; [injection H as <- <-; intros f _; auto|]. destruct l1 as [|x1 r1]; [injection H as <- <-; intros f _; auto|].
  rewrite !csv_paths_S. revert w w' o H. apply only_bind.
  - intros w w' o H f NI. apply (write_csv_only _ _ _ _ _ _ H). intros [<-|[]]. apply NI. left. reflexivity.
  - intros []. apply only_bind.
    + intros w w' o H f NI. apply (write_csv_only _ _ _ _ _ _ H). intros [<-|[]]. apply NI. right. apply in_or_app. right. left. reflexivity.
    + intros [] w w' o H f NI. apply (IH _ _ _ _ _ _ GD' H). intros Q. apply NI. apply in_app_or in Q as [Q|Q]; [right; apply in_or_app; left; auto|right; apply in_or_app; right; right; auto].
Qed.
Lemma touches_encrypter l e dir f : touches l (io (load_encrypter cpub e dir f)).
Proof.
  intros s s' o H g _. unfold io, zoom in H. destruct (load_encrypter cpub e dir f (sy_world s)) as [w' o'] eqn:E1. injection H as <- <-. cbn [sy_world].
  unfold load_encrypter, sbind in E1. destruct (read_msg e cpub (dir ++ f) (sy_world s)) as [w1 o1] eqn:R1.
  pose proof (read_msg_files _ _ _ _ _ _ R1) as X. destruct o1 as [m|c| |]; try (injection E1 as <- <-; apply X).
Qed.
Lemma touches_files {A C} ins mk enc ser deser serp l e (dt : list A) pd ed : In (path (pd ++ plaintext_tree)) l -> In (path (ed ++ encrypted_tree)) l ->
  touches l (tree_files_written (Gr := Gr) (C := C) cpt cet stash node e ins mk enc ser deser serp dt pd ed).
Proof.
  intros I1 I2. unfold tree_files_written. apply touches_bind; [apply touches_rand|]. intros ts. apply touches_bind; [apply touches_pure|]. intros pm.
  apply touches_bind; [apply touches_write; auto|]. intros _. apply touches_bind; [apply touches_pure|]. intros em. apply touches_write; auto.
Qed.
Theorem C67_only : forall e data out p q bits days daily start shared max func s s' o,
  setup_program e data out p q bits days daily start shared max func s = (s', o) -> same_except (program_files data out days) (sy_world s) (sy_world s').
Proof.
  intros e data out p q bits days daily start shared max func. change (touches (program_files data out days) (setup_program e data out p q bits days daily start shared max func)).
  assert (K : forall f, In f (threshold_files out) -> In f (program_files data out days)) by (intros; apply in_or_app; auto).
  assert (TI : forall w x, In x tree_names -> In (path (party_dir w data ++ x)) (program_files data out days)).
  { intros w x IX. apply in_or_app. right. unfold data_files. apply in_or_app. right. apply in_or_app. right. apply in_trees. eauto. }
  unfold ProgModel.setup_program. apply touches_bind.
  - intros s s' o H f NI. eapply (C52_threshold_only cpub csec cthr); [exact H|]. intros Q. apply NI. auto.
  - intros []. unfold setup_data. cbn zeta. apply touches_bind; [apply touches_rand|]. intros [[[[t0 l0] t1] l1] sum].
    apply touches_bind; [apply touches_io; intros w w' o H f NI; apply (write_days_only _ _ _ _ _ _ _ _ _ Z.le_0_1 H); intros Q; apply NI; apply in_or_app; right; unfold data_files; rewrite app_assoc; apply in_or_app; left; exact Q|].
    intros []. destruct (0 <? start); [|apply touches_ret]. apply touches_bind; [apply touches_pure|]. intros s0.
    apply touches_bind.
    { unfold trees_zero. apply touches_bind; [apply touches_encrypter|]. intros pk. destruct (is_ss func).
      - apply touches_bind; [apply touches_read|]. intros pm. apply touches_bind; [apply touches_rand|]. intros pai. apply touches_files; [apply (TI false)|apply (TI true)]; cbn; auto.
      - apply touches_files; [apply (TI false)|apply (TI true)]; cbn; auto. }
    intros []. apply touches_bind; [apply touches_pure|]. intros s1. apply touches_bind.
    { unfold trees_one. apply touches_bind; [apply touches_encrypter|]. intros pk. apply touches_files; [apply (TI true)|apply (TI false)]; cbn; auto. }
    intros []. apply touches_bind; [apply touches_pure|]. intros r. apply touches_ret.
Qed.

Hypotheses (Fpub : faithful cpub) (Fsec : faithful csec) (Fthr : faithful cthr) (Fpt : faithful cpt) (Fet : faithful cet).
(** what the parties need of a setup *)
Lemma program_made e data out p q bits days daily start shared max func a s s' :
  flags days daily start shared max -> 1 < p -> 1 < q ->
  setup_program e data out p q bits days daily start shared max func s = (s', Ok a) -> different days daily start shared (an_data a) ->
  exists sk0 sk1 n k0 k1 kt kt' pai d, 1 <= sk0 < ord Gr /\ 1 <= sk1 < ord Gr /\ threshold_keygen p q bits kt = Ok ((n, k0, k1), kt') /\ n = p * q /\ 0 <= k0 /\ 0 <= k1
    /\ gpow (Gr := Gr) gen (sk0 + sk1) <> gid
    /\ was_made Gr hash sk0 sk1 n stash node pai days daily start shared max func d
    /\ dp_size d = an_size a /\ dp_sum d = an_sum a /\ length (dp_csv0 d) = Z.to_nat days /\ length (dp_csv1 d) = Z.to_nat days
    /\ forall w, delivered data out days (sy_world s') w ->
         days_hold w (p0_dir data) 1 (dp_csv0 d) /\ days_hold w (p1_dir data) 1 (dp_csv1 d)
         /\ match dp_trees d with Some f => 0 < start /\ trees_hold cpt cet w data f | None => start <= 0 end
         /\ saved w cpub (p0_dir out ++ shared_pub) (key_msg (sk0 + sk1)) /\ saved w cpub (p1_dir out ++ shared_pub) (key_msg (sk0 + sk1))
         /\ saved w csec (p0_dir out ++ elgamal_key) (bn2bin sk0) /\ saved w csec (p1_dir out ++ elgamal_key) (bn2bin sk1)
         /\ saved w cthr (p0_dir out ++ paillier_key) (bn2bin n, bn2bin k0) /\ saved w cthr (p1_dir out ++ paillier_key) (bn2bin n, bn2bin k1).
Proof.
  intros FL Hp Hq H AD. unfold ProgModel.setup_program in H. apply sbind_Ok in H as (s1 & [] & H1 & H).
  apply threshold_saved in H1 as (x0 & x1 & n & k0 & k1 & t & t' & B0 & B1 & KG & NJ & L1 & L2 & L3 & J0 & J1 & K0 & K1 & T0 & T1); [|exact Fpub].
  pose proof (keygen_spec _ _ _ _ _ _ _ _ Hp Hq KG) as (En & _). assert (Hn : 1 < n) by nia.
  pose proof FL as (U1 & U2 & U3 & FS & MX & TB).
  destruct (setup_data_Ok cpub cthr cpt cet Fpub Fthr hash stash node two_k_ary fuel e data out _ _ _ _ _ _ _ _ _ _ _ _ U1 U2 U3 FS MX TB J0 J1 NJ Hn T0 H)
    as (pai & d & PO & MD & E1 & E2 & E3 & D0 & D1 & C0 & C1 & TH & SE).
  exists x0, x1, n, k0, k1, t, t', pai, d. split; [auto|]. split; [auto|]. split; [auto|]. split; [auto|]. split; [auto|]. split; [auto|]. split; [auto|]. split.
  { unfold was_made. split; [exact FL|]. split; [intros Q; split; auto|]. split; [apply MD; auto|]. unfold all_different. rewrite E3. exact AD. }
  split; [auto|]. split; [auto|]. split; [auto|]. split; [auto|]. intros w DW.
  assert (KS : forall T (c : codec T) f m, In (path f) (threshold_files out) -> saved (sy_world s1) c f m -> saved w c f m).
  { intros T c f m IN SV. assert (SV' : saved (sy_world s') c f m) by (eapply saved_keep; [exact SV|exact SE|apply keys_apart with out; auto]).
    destruct SV' as (Q1 & Q2). split; auto. rewrite DW; auto. apply in_or_app. auto. }
  assert (TS : forall T (c : codec T) v x m, In x tree_names -> saved (sy_world s') c (party_dir v data ++ x) m -> saved w c (party_dir v data ++ x) m).
  { intros T c v x m IX (Q1 & Q2). split; auto. rewrite DW; auto. apply in_or_app. right. unfold data_files. apply in_or_app. right. apply in_or_app. right. apply in_trees. eauto. }
  assert (DH : forall v csv, length csv = Z.to_nat days -> days_hold (sy_world s') (party_dir v data) 1 csv -> days_hold w (party_dir v data) 1 csv).
  { intros v csv LC. assert (G : forall i, (i < length csv)%nat -> files w (path (day_file (party_dir v data) (1 + Z.of_nat i))) = files (sy_world s') (path (day_file (party_dir v data) (1 + Z.of_nat i)))).
    { intros i Li. apply DW. apply in_or_app. right. unfold data_files. rewrite LC in Li. destruct v; [apply in_or_app; right; apply in_or_app; left|apply in_or_app; left]; apply in_csv; exists i; auto. }
    clear LC. revert G. generalize 1 as day. induction csv as [|c csv IH]; intros day G X; [exact I|]. cbn [days_hold] in *. destruct X as (X1 & X2). split.
    - specialize (G O). rewrite Z.add_0_r in G. rewrite G; auto. cbn [length]. lia.
    - apply IH; auto. intros i Li. specialize (G (S i)). replace (day + 1 + Z.of_nat i) with (day + Z.of_nat (S i)) by lia. apply G. cbn [length]. lia. }
  split; [apply (DH false); auto|]. split; [apply (DH true); auto|]. split.
  { destruct (dp_trees d) as [f|]; auto. destruct TH as (P & T1' & T2' & T3' & T4'). split; auto. split; [apply (TS _ _ false)|split; [apply (TS _ _ false)|split; [apply (TS _ _ true)|apply (TS _ _ true)]]]; cbn; auto. }
  do 5 (split; [apply KS; [tells|assumption]|]). apply KS; [tells|assumption].
Qed.

Lemma ends_bind {S A B} (P : B -> Prop) (m : SM S A) (f : A -> SM S B) s :
  match m s with (s1, Ok a) => ends P (f a s1) | (_, Err _) => True | _ => False end -> ends P (sbind m f s).
Proof. unfold ends, sbind. destruct (m s) as [s1 [a|c| |]]; cbn [snd ends_well]; auto. Qed.
Lemma ends_rand {A} (P : A -> Prop) (m : M A) s : ends_well (fun r => P (fst r)) (m (sy_coins s)) -> ends P (rand m s).
Proof. unfold ends, rand. destruct (m (sy_coins s)) as [[a t]|c| |]; cbn [snd ends_well fst]; auto. Qed.
Lemma import_Ok {A C N N'} (de : N -> outcome (TreeModel.node A)) (de' : N' -> outcome (TreeModel.node C)) f g ts :
  import_trees de de' f g = Ok ts -> tree_deserialize de f = Ok (fst ts) /\ tree_deserialize de' g = Ok (snd ts).
Proof. unfold import_trees. destruct (tree_deserialize de f); [|discriminate..]. destruct (tree_deserialize de' g); [|discriminate..]. intros Q. injection Q as <-. auto. Qed.
Lemma loads_Ok {L} (csv : list bytes) (load : dataset -> outcome L) l : (let! ds := omap dataset_read csv in omap load ds) = Ok l ->
  exists ds, omap dataset_read csv = Ok ds /\ omap load ds = Ok l.
Proof. intros H. apply obind_Ok in H as (ds & A & B). eauto. Qed.

(** both parties have started: what is left is the protocol *)
Section Both.
Variables e0 e1 : env.
Hypotheses (R0 : reliable e0) (R1 : reliable e1).
Variables (data out : bytes) (days daily start shared max : Z).
Variables (sk0 sk1 n k0 k1 : Z) (d : deployed Gr) (w : world).
Hypotheses (Hn : 1 < n) (OD : two_k_ary = true -> Z.odd n = true) (GS0 : 0 <= sk0) (GS1 : 0 <= sk1) (GK0 : 0 <= k0) (GK1 : 0 <= k1) (NZ : gpow (Gr := Gr) gen (sk0 + sk1) <> gid).
Hypotheses (LC0 : length (dp_csv0 d) = Z.to_nat days) (LC1 : length (dp_csv1 d) = Z.to_nat days).
Hypothesis HOLD : forall v, same_files w v -> days_hold v (p0_dir data) 1 (dp_csv0 d) /\ days_hold v (p1_dir data) 1 (dp_csv1 d)
         /\ match dp_trees d with Some f => 0 < start /\ trees_hold cpt cet v data f | None => start <= 0 end
         /\ saved v cpub (p0_dir out ++ shared_pub) (key_msg (sk0 + sk1)) /\ saved v cpub (p1_dir out ++ shared_pub) (key_msg (sk0 + sk1))
         /\ saved v csec (p0_dir out ++ elgamal_key) (bn2bin sk0) /\ saved v csec (p1_dir out ++ elgamal_key) (bn2bin sk1)
         /\ saved v cthr (p0_dir out ++ paillier_key) (bn2bin n, bn2bin k0) /\ saved v cthr (p1_dir out ++ paillier_key) (bn2bin n, bn2bin k1).
Lemma both {A0 C0 L0 A1 C1 L1 B} (P : B -> Prop) (de0 : pnode -> outcome (TreeModel.node A0)) (de0' : list (welem Gr) -> outcome (TreeModel.node C0)) (load0 : dataset -> outcome L0)
    (de1 : pnode -> outcome (TreeModel.node A1)) (de1' : list (welem Gr) -> outcome (TreeModel.node C1)) (load1 : dataset -> outcome L1)
    (ts0 : tree A0 * tree C0) (ts1 : tree A1 * tree C1) l0 l1 (go : party -> party -> M B) s :
  sy_world s = w ->
  (let! ds := omap dataset_read (dp_csv0 d) in omap load0 ds) = Ok l0 -> (let! ds := omap dataset_read (dp_csv1 d) in omap load1 ds) = Ok l1 ->
  trees_for stash node (fun f => import_trees de0 de0' (p0_plaintext f) (p0_encrypted f)) d = Ok ts0 -> trees_for stash node (fun f => import_trees de1 de1' (p1_plaintext f) (p1_encrypted f)) d = Ok ts1 ->
  (forall P0 P1 coins, thr_object n P0 -> thr_object n P1 ->
     ends_well (fun r => P (fst r)) (go (mkParty ts1 (key_of (sk0 + sk1)) sk1 n k1 P1 l1) (mkParty ts0 (key_of (sk0 + sk1)) sk0 n k0 P0 l0) coins)) ->
  ends P (sbind (start_party e1 de1 de1' load1 (p1_dir data) (p1_dir out) (Z.to_nat days) (0 <? start))
     (fun p1 => sbind (start_party e0 de0 de0' load0 (p0_dir data) (p0_dir out) (Z.to_nat days) (0 <? start)) (fun p0 => rand (go p1 p0))) s).
Proof.
  intros W LD0 LD1 T0 T1 GO. apply loads_Ok in LD0 as (ds0 & DR0 & DL0). apply loads_Ok in LD1 as (ds1 & DR1 & DL1). subst w. apply ends_bind.
  destruct (HOLD (sy_world s) (fun f => eq_refl)) as (D0 & D1 & TH & J0 & J1 & S0 & S1 & Q0 & Q1).
  pose proof (start_run cpub csec cthr cpt cet Fpub Fsec Fthr Fpt Fet stash node two_k_ary fuel e1 R1 de1 de1' load1 (p1_dir data) (p1_dir out) (Z.to_nat days) (0 <? start)
    (dp_csv1 d) ds1 ts1 l1 (sk0 + sk1) sk1 n k1 s Hn OD D1 LC1 DR1 DL1) as ST.
  assert (TT : if 0 <? start then exists pm em, saved (sy_world s) cpt (p1_dir data ++ plaintext_tree) pm /\ saved (sy_world s) cet (p1_dir data ++ encrypted_tree) em
      /\ tree_deserialize de1 pm = Ok (fst ts1) /\ tree_deserialize de1' em = Ok (snd ts1) else ts1 = (tree_new stash node, tree_new stash node)).
  { unfold trees_for in T1. destruct (dp_trees d) as [f|].
    - destruct TH as (PS & _ & _ & H3 & H4). replace (0 <? start) with true by (symmetry; apply Z.ltb_lt; auto). apply import_Ok in T1 as (A & A'). exists (p1_plaintext f), (p1_encrypted f). auto.
    - replace (0 <? start) with false by (symmetry; apply Z.ltb_ge; auto). injection T1 as <-. auto. }
  specialize (ST TT J1 NZ S1 Q1 GS1 GK1).
  destruct (start_party e1 de1 de1' load1 (p1_dir data) (p1_dir out) (Z.to_nat days) (0 <? start) s) as [s1 [pa1|c| |]]; auto. destruct ST as (SF1 & OB1 & EP1).
  apply ends_bind. clear TT D0 D1 TH J0 J1 S0 S1 Q0 Q1.
  destruct (HOLD (sy_world s1) SF1) as (D0 & D1 & TH & J0 & J1 & S0 & S1 & Q0 & Q1).
  pose proof (start_run cpub csec cthr cpt cet Fpub Fsec Fthr Fpt Fet stash node two_k_ary fuel e0 R0 de0 de0' load0 (p0_dir data) (p0_dir out) (Z.to_nat days) (0 <? start)
    (dp_csv0 d) ds0 ts0 l0 (sk0 + sk1) sk0 n k0 s1 Hn OD D0 LC0 DR0 DL0) as ST.
  assert (TT : if 0 <? start then exists pm em, saved (sy_world s1) cpt (p0_dir data ++ plaintext_tree) pm /\ saved (sy_world s1) cet (p0_dir data ++ encrypted_tree) em
      /\ tree_deserialize de0 pm = Ok (fst ts0) /\ tree_deserialize de0' em = Ok (snd ts0) else ts0 = (tree_new stash node, tree_new stash node)).
  { unfold trees_for in T0. destruct (dp_trees d) as [f|].
    - destruct TH as (PS & H1 & H2 & _ & _). replace (0 <? start) with true by (symmetry; apply Z.ltb_lt; auto). apply import_Ok in T0 as (A & A'). exists (p0_plaintext f), (p0_encrypted f). auto.
    - replace (0 <? start) with false by (symmetry; apply Z.ltb_ge; auto). injection T0 as <-. auto. }
  specialize (ST TT J0 NZ S0 Q0 GS0 GK0).
  destruct (start_party e0 de0 de0' load0 (p0_dir data) (p0_dir out) (Z.to_nat days) (0 <? start) s1) as [s2 [pa0|c| |]]; auto. destruct ST as (SF0 & OB0 & EP0).
  apply ends_rand. rewrite EP0, EP1. apply GO; auto.
Qed.
End Both.

(** the conditions of the theorems: a hash of 256 bits, a group with more elements
    than two sets of strings can have, two primes; an exponent table needs an
    odd modulus *)
Definition sound_setting (p q : Z) : Prop :=
  (forall x, length (hash x) = 256%nat) /\ 2 * 10 ^ 15 <= ord Gr /\ int32 stash /\ int32 node /\ prime p /\ prime q /\ (two_k_ary = true -> Z.odd (p * q) = true).
(** setup succeeded in some environment, and drew different strings *)
Definition set_up (e : env) (data out : bytes) (p q : Z) (bits : nat) (days daily start shared max : Z) (func : functionality) (a : announced) (w : world) : Prop :=
  flags days daily start shared max /\ (exists s s', setup_program e data out p q bits days daily start shared max func s = (s', Ok a) /\ delivered data out days (sy_world s') w)
  /\ different days daily start shared (an_data a).
Notation prog_ca := (prog_ca cpub csec cthr cpt cet hash stash node two_k_ary fuel).
Notation prog_psi := (prog_psi cpub csec cthr cpt cet hash stash node two_k_ary fuel).
Notation prog_sum := (prog_sum cpub csec cthr cpt cet hash stash node two_k_ary fuel).
Notation prog_ss := (prog_ss cpub csec cthr cpt cet hash stash node two_k_ary fuel).
Variable csize : client_msg Gr -> Z.
Variable ssize : server_msg Gr -> Z.

(** C67.  Cardinality: the announced size is what party zero reports on the last
    day, unless a stash overflowed; then it reports less. *)
Theorem C67_cardinality : forall e e0 e1 data out p q bits days daily start shared max func a s,
  sound_setting p q -> set_up e data out p q bits days daily start shared max func a (sy_world s) -> reliable e0 -> reliable e1 ->
  ends (fun '(c, sv) => Z.of_nat (cl_day c) = days /\ cl_out c <= an_size a /\ (no_loss (cl_my c) (sv_my sv) -> cl_out c = an_size a))
    (prog_ca e0 e1 data out (Z.to_nat days) (0 <? start) csize ssize s).
Proof.
  intros e e0 e1 data out p q bits days daily start shared max func a s (HH & BG & IS & IN & Pp & Pq & OD) (FL & (s0 & s' & ST & DV) & AD) R0 R1.
  assert (Hp : 1 < p) by (destruct Pp; auto). assert (Hq : 1 < q) by (destruct Pq; auto).
  destruct (program_made _ _ _ _ _ _ _ _ _ _ _ _ _ _ _ FL Hp Hq ST AD) as (sk0 & sk1 & n & k0 & k1 & kt & kt' & pai & d & B0 & B1 & KG & En & G0 & G1 & NZ & MD & E1 & E2 & C0 & C1 & HOLD).
  assert (SG : setting Gr hash (key_of (sk0 + sk1)) sk0 sk1) by (split; [exact HH|split; [exact BG|exact (shares_sum [sk1] sk0)]]).
  assert (Hn : 1 < n) by nia. pose proof FL as (U1 & U2 & U3 & FS & MX & TB). pose proof MD as (_ & PR & G & AD').
  destruct (deployed_facts hash stash node pai sk0 sk1 n HH IS IN _ _ _ _ _ _ _ U1 U2 U3 FS MX TB PR G AD') as (t0 & b0 & t1 & b1 & F).
  destruct (trees_plain_agree hash stash node sk0 sk1 n pai _ _ _ _ _ _ _ _ _ _ PR F) as (my0 & other0 & my1 & other1 & T0 & T1 & _).
  destruct F as (L0 & _ & L1 & _). unfold ProgModel.prog_ca, one_elements, zero_elements.
  eapply (both e0 e1 R0 R1 data out days start sk0 sk1 n k0 k1 d (sy_world s)); eauto; try lia.
  { rewrite En. auto. }
  { intros v SV. apply HOLD. intros f IF. rewrite SV. auto. }
  intros P0 P1 coins OB0 OB1. cbn [pa_pk pa_sk pa_trees pa_data].
  pose proof (cardinality_made Gr hash (key_of (sk0 + sk1)) sk0 sk1 csize ssize n stash node pai days daily start shared max func d (Z.to_nat days) coins SG IS IN MD ltac:(unfold uint32 in U1; lia)) as X.
  unfold run_ca, bind, lift in X. rewrite L1, T1, L0, T0, C0, C1 in X. rewrite <- E1.
  change (ca_day2 hash (key_of (sk0 + sk1)) (key_of (sk0 + sk1)) sk0 sk1 csize ssize) with (ca_day hash (key_of (sk0 + sk1)) sk0 sk1 csize ssize).
  destruct (run_days _ _ _ _ coins) as [[[c sv] t]|cc| |]; auto.
Qed.

Theorem C67_intersection : forall dec_string e e0 e1 data out p q bits days daily start shared max func a s,
  sound_setting p q -> set_up e data out p q bits days daily start shared max func a (sy_world s) -> reliable e0 -> reliable e1 ->
  ends (fun '(c, sv) => Z.of_nat (cl_day c) = days /\ Z.of_nat (length (snd (cl_out c))) <= an_size a /\ (no_loss (cl_my c) (sv_my sv) -> Z.of_nat (length (snd (cl_out c))) = an_size a))
    (prog_psi e0 e1 data out (Z.to_nat days) (0 <? start) csize ssize dec_string s).
Proof.
  intros dec_string e e0 e1 data out p q bits days daily start shared max func a s (HH & BG & IS & IN & Pp & Pq & OD) (FL & (s0 & s' & ST & DV) & AD) R0 R1.
  assert (Hp : 1 < p) by (destruct Pp; auto). assert (Hq : 1 < q) by (destruct Pq; auto).
  destruct (program_made _ _ _ _ _ _ _ _ _ _ _ _ _ _ _ FL Hp Hq ST AD) as (sk0 & sk1 & n & k0 & k1 & kt & kt' & pai & d & B0 & B1 & KG & En & G0 & G1 & NZ & MD & E1 & E2 & C0 & C1 & HOLD).
  assert (SG : setting Gr hash (key_of (sk0 + sk1)) sk0 sk1) by (split; [exact HH|split; [exact BG|exact (shares_sum [sk1] sk0)]]).
  assert (Hn : 1 < n) by nia. pose proof FL as (U1 & U2 & U3 & FS & MX & TB). pose proof MD as (_ & PR & G & AD').
  destruct (deployed_facts hash stash node pai sk0 sk1 n HH IS IN _ _ _ _ _ _ _ U1 U2 U3 FS MX TB PR G AD') as (t0 & b0 & t1 & b1 & F).
  destruct (trees_plain_agree hash stash node sk0 sk1 n pai _ _ _ _ _ _ _ _ _ _ PR F) as (my0 & other0 & my1 & other1 & T0 & T1 & _).
  destruct F as (L0 & _ & L1 & _). unfold ProgModel.prog_psi, one_elements, zero_elements.
  eapply (both e0 e1 R0 R1 data out days start sk0 sk1 n k0 k1 d (sy_world s)); eauto; try lia.
  { rewrite En. auto. }
  { intros v SV. apply HOLD. intros f IF. rewrite SV. auto. }
  intros P0 P1 coins OB0 OB1. cbn [pa_pk pa_sk pa_trees pa_data pa_n pa_pai pa_share].
  pose proof (intersection_made Gr hash (key_of (sk0 + sk1)) sk0 sk1 csize ssize n stash node pai dec_string days daily start shared max func d (Z.to_nat days) coins SG IS IN MD ltac:(unfold uint32 in U1; lia)) as X.
  unfold run_psi, bind, lift in X. rewrite L1, T1, L0, T0, C0, C1 in X. rewrite <- E1.
  change (psi_day2 hash (key_of (sk0 + sk1)) (key_of (sk0 + sk1)) sk0 sk1 csize ssize dec_string) with (psi_day hash (key_of (sk0 + sk1)) sk0 sk1 csize ssize dec_string).
  unfold psi_out in *. destruct (run_days _ _ _ _ coins) as [[[c sv] t]|cc| |]; auto.
Qed.

(** Sum: size and sum.  [start * max <= 2^31]: the sum over the initial sets is
    computed in an int. *)
Theorem C67_sum : forall e e0 e1 data out p q bits days daily start shared max func a s,
  sound_setting p q -> set_up e data out p q bits days daily start shared max func a (sy_world s) -> reliable e0 -> reliable e1 ->
  func <> SS -> start * max <= 2 ^ 31 -> (start + days * daily) * max <= ord Gr -> days < 2 ^ 31 ->
  ends (fun '(c, sv) => Z.of_nat (cl_day c) = days /\ fst (cl_out c) <= an_size a /\ snd (cl_out c) <= an_sum a
          /\ (no_loss (cl_my c) (sv_my sv) -> fst (cl_out c) = an_size a /\ snd (cl_out c) = an_sum a))
    (prog_sum e0 e1 data out (Z.to_nat days) (0 <? start) csize ssize s).
Proof.
  intros e e0 e1 data out p q bits days daily start shared max func a s (HH & BG & IS & IN & Pp & Pq & OD) (FL & (s0 & s' & ST & DV) & AD) R0 R1 NE SM TM DB.
  assert (Hp : 1 < p) by (destruct Pp; auto). assert (Hq : 1 < q) by (destruct Pq; auto).
  destruct (program_made _ _ _ _ _ _ _ _ _ _ _ _ _ _ _ FL Hp Hq ST AD) as (sk0 & sk1 & n & k0 & k1 & kt & kt' & pai & d & B0 & B1 & KG & En & G0 & G1 & NZ & MD & E1 & E2 & C0 & C1 & HOLD).
  assert (SG : setting Gr hash (key_of (sk0 + sk1)) sk0 sk1) by (split; [exact HH|split; [exact BG|exact (shares_sum [sk1] sk0)]]).
  assert (Hn : 1 < n) by nia. pose proof FL as (U1 & U2 & U3 & FS & MX & TB). pose proof MD as (_ & PR & G & AD').
  destruct (deployed_facts hash stash node pai sk0 sk1 n HH IS IN _ _ _ _ _ _ _ U1 U2 U3 FS MX TB PR G AD') as (t0 & b0 & t1 & b1 & F).
  destruct (trees_value_agree hash stash node sk0 sk1 n _ _ _ _ _ _ _ _ _ _ NE F) as (my0 & other0 & my1 & other1 & T0 & T1 & _).
  destruct F as (_ & L0 & L1 & _). specialize (L0 (fun a => a)). unfold ProgModel.prog_sum, one_elements, zero_pairs.
  eapply (both e0 e1 R0 R1 data out days start sk0 sk1 n k0 k1 d (sy_world s)); eauto; try lia.
  { rewrite En. auto. }
  { intros v SV. apply HOLD. intros f IF. rewrite SV. auto. }
  intros P0 P1 coins OB0 OB1. cbn [pa_pk pa_sk pa_trees pa_data pa_n pa_pai pa_share].
  pose proof (sum_made Gr hash (key_of (sk0 + sk1)) sk0 sk1 csize ssize n stash node pai days daily start shared max func d (Z.to_nat days) coins SG IS IN MD ltac:(unfold uint32 in U1; lia) NE SM TM DB) as X.
  unfold run_sum, bind, lift in X. rewrite L1, T1, L0, T0, C0, C1 in X. rewrite <- E1, <- E2.
  change (sum_day2 hash (key_of (sk0 + sk1)) (key_of (sk0 + sk1)) sk0 sk1 csize ssize) with (sum_day hash (key_of (sk0 + sk1)) sk0 sk1 csize ssize).
  destruct (run_days _ _ _ _ coins) as [[[c sv] t]|cc| |]; auto.
Qed.

(** Secret shares: the number of shares of each party. *)
Theorem C67_shares : forall e e0 e1 data out p q bits days daily start shared max a s,
  sound_setting p q -> p <> q -> set_up e data out p q bits days daily start shared max SS a (sy_world s) -> reliable e0 -> reliable e1 ->
  ends (fun '(c, sv) => Z.of_nat (cl_day c) = days /\ length (sv_shares sv) = length (cl_out c) /\ Z.of_nat (length (cl_out c)) <= an_size a
          /\ (no_loss (cl_my c) (sv_my sv) -> Z.of_nat (length (cl_out c)) = an_size a))
    (prog_ss e0 e1 data out (Z.to_nat days) (0 <? start) csize ssize s).
Proof.
  intros e e0 e1 data out p q bits days daily start shared max a s (HH & BG & IS & IN & Pp & Pq & OD) NE (FL & (s0 & s' & ST & DV) & AD) R0 R1.
  assert (Hp : 1 < p) by (destruct Pp; auto). assert (Hq : 1 < q) by (destruct Pq; auto).
  destruct (program_made _ _ _ _ _ _ _ _ _ _ _ _ _ _ _ FL Hp Hq ST AD) as (sk0 & sk1 & n & k0 & k1 & kt & kt' & pai & d & B0 & B1 & KG & En & G0 & G1 & NZ & MD & E1 & E2 & C0 & C1 & HOLD).
  assert (SG : setting Gr hash (key_of (sk0 + sk1)) sk0 sk1) by (split; [exact HH|split; [exact BG|exact (shares_sum [sk1] sk0)]]).
  assert (Hn : 1 < n) by nia. pose proof FL as (U1 & U2 & U3 & FS & MX & TB). pose proof MD as (_ & PR & G & AD').
  destruct (deployed_facts hash stash node pai sk0 sk1 n HH IS IN _ _ _ _ _ _ _ U1 U2 U3 FS MX TB PR G AD') as (t0 & b0 & t1 & b1 & F).
  destruct (trees_paillier_agree hash stash node sk0 sk1 n _ _ _ _ _ _ _ _ _ _ eq_refl F) as (my0 & other0 & my1 & other1 & T0 & T1 & _).
  destruct F as (_ & L0 & L1 & _). specialize (L0 ss_payload). unfold ProgModel.prog_ss, one_elements, zero_pairs.
  eapply (both e0 e1 R0 R1 data out days start sk0 sk1 n k0 k1 d (sy_world s)); eauto; try lia.
  { rewrite En. auto. }
  { intros v SV. apply HOLD. intros f IF. rewrite SV. auto. }
  intros P0 P1 coins OB0 OB1. cbn [pa_pk pa_sk pa_trees pa_data pa_n pa_pai pa_share].
  pose proof (shares_made Gr hash (key_of (sk0 + sk1)) sk0 sk1 csize ssize n P0 P1 k0 k1 stash node pai p q bits kt kt' days daily start shared max d (Z.to_nat days) coins SG IS IN MD ltac:(unfold uint32 in U1; lia) Pp Pq NE KG OB0 OB1) as X.
  unfold run_ss, bind, lift in X. rewrite L1, T1, L0, T0, C0, C1 in X. rewrite <- E1.
  change (ss_day2 hash (key_of (sk0 + sk1)) (key_of (sk0 + sk1)) sk0 sk1 csize ssize n n P0 P1 k0 k1) with (ss_day hash (key_of (sk0 + sk1)) sk0 sk1 csize ssize n P0 P1 k0 k1).
  destruct (run_days _ _ _ _ coins) as [[[c sv] t]|cc| |]; auto.
Qed.
End Statements.

(** ** A read error in a data set is not noticed *)
Lemma whole_lines_cut l r : ~ In newline l -> forall k cur, whole_lines (firstn k (l ++ newline :: r)) cur =
  if (k <=? length l)%nat then [] else cur ++ l ++ newline :: whole_lines (firstn (k - S (length l)) r) [].
Proof.
  induction l as [|c l IH]; intros NI k cur; destruct k as [|k]; cbn [firstn app length whole_lines Nat.leb]; auto.
  - change (newline =? newline) with true. cbn iota. replace (S k - 1)%nat with k by lia. auto.
  - destruct (Z.eqb_spec c newline) as [->|NC]; [exfalso; apply NI; left; auto|]. rewrite IH by (intros Q; apply NI; right; auto). rewrite Nat.sub_succ. destruct (k <=? length l)%nat; auto. rewrite <- !app_assoc. auto.
Qed.
Lemma write_cut b es : Forall clean es -> forall vs file k, write_rows es b vs = Ok file ->
  exists m, (m <= length es)%nat /\ write_rows (firstn m es) b (firstn m vs) = Ok (whole_lines (firstn k file) []).
Proof.
  induction es as [|e es IH]; intros F vs file k H; cbn [write_rows] in H.
  - injection H as <-. exists O. split; auto. destruct k; auto.
  - apply Forall_cons_iff in F as ((N0 & N10) & F). destruct b.
    + destruct vs as [|v vs]; [discriminate|]. apply obind_Ok in H as (r & W & H).
      assert (EF : file = (escape_for_csv e ++ comma :: dec_int v) ++ newline :: r) by (rewrite <- app_assoc; symmetry; revert H; generalize (escape_for_csv e); intros x H; injection H as <-; reflexivity).
      rewrite EF. rewrite whole_lines_cut.
      2:{ clear H. intros H. apply in_app_iff in H as [H|[H|H]]; [eapply escape_no_newline; eauto|discriminate|]. destruct (dec_int_plain v) as (_ & PV). rewrite Forall_forall in PV. specialize (PV _ H). tauto. }
      destruct (k <=? _)%nat; [exists O; split; [lia|reflexivity]|]. destruct (IH F vs r (k - S (length (escape_for_csv e ++ comma :: dec_int v)))%nat W) as (m & Lm & E). exists (S m). cbn [length firstn write_rows app]. split; [lia|]. rewrite E. cbn [obind]. f_equal. rewrite <- app_assoc. reflexivity.
    + apply obind_Ok in H as (r & W & H). assert (EF : file = escape_for_csv e ++ newline :: r) by (symmetry; revert H; generalize (escape_for_csv e); intros x H; injection H as <-; reflexivity).
      rewrite EF, whole_lines_cut by (apply escape_no_newline; auto).
      destruct (k <=? _)%nat; [exists O; split; [lia|reflexivity]|]. destruct (IH F vs r (k - S (length (escape_for_csv e)))%nat W) as (m & Lm & E). exists (S m). cbn [length firstn write_rows app]. split; [lia|].
      assert (X : forall es vs vs', write_rows es false vs = write_rows es false vs') by (clear; induction es as [|e es IH]; intros vs vs'; cbn [write_rows]; auto; rewrite (IH vs vs'); auto).
      rewrite (X _ _ (firstn m vs)), E. reflexivity.
Qed.
Lemma Forall_first {A} (P : A -> Prop) m l : Forall P l -> Forall P (firstn m l).
Proof. intros F. revert m. induction F; intros [|m]; cbn [firstn]; auto. Qed.
(** C67 (a finding).  If reading a data set file fails after [k] bytes, the party
    goes on, with the first rows of the set and without any error. *)
Theorem C67_truncated_read : forall d file name e w k,
  Forall clean (d_elements d) -> Forall int64 (d_values d) -> d_values d = [] \/ length (d_values d) = length (d_elements d) ->
  dataset_write d = Ok file -> files w name = Some file -> fault e (tick w) = None -> fault e (tick w + 1) = Some k ->
  exists m, (m <= length (d_elements d))%nat /\ snd (read_csv e name w) = Ok (mkDataset (firstn m (d_elements d)) (firstn m (d_values d))).
Proof.
  intros [es vs] file name e w k CL IV LE W FI F1 F2. cbn [d_elements d_values] in *. unfold dataset_write in W. cbn [d_elements d_values] in W.
  destruct (write_cut _ _ CL _ _ k W) as (m & Lm & E). exists m. split; auto. unfold read_csv. rewrite F1, FI. cbn [snd]. unfold step. cbn [tick]. rewrite <- (Nat.add_1_r (tick w)), F2.
  destruct (C41_roundtrip (mkDataset (firstn m es) (firstn m vs))) as (f' & W' & R'); cbn [d_elements d_values]; [apply Forall_first; auto|apply Forall_first; auto|destruct LE as [->|LE]; [left; destruct m; auto|right; rewrite !firstn_length; lia]|].
  replace (whole_lines (firstn k file) []) with f'; [exact R'|]. unfold dataset_write in W'. cbn [d_elements d_values] in W'.
  destruct vs as [|v vs]; [destruct m; cbn [firstn length Nat.eqb negb] in *; congruence|]. destruct m as [|m]; [cbn in *; congruence|]. cbn [firstn length Nat.eqb negb] in *. congruence.
Qed.

(** ** Examples: a group of large prime order, codecs that store lists behind
    their length, a file system without faults *)
Record pcodec (T : Type) := mkP { p_enc : T -> list Z; p_dec : list Z -> T * list Z }.
Arguments mkP {T}. Arguments p_enc {T}. Arguments p_dec {T}.
Definition pgood {T} (c : pcodec T) : Prop := forall t r, p_dec c (p_enc c t ++ r) = (t, r).
Definition p_z : pcodec Z := mkP (fun z => [z]) (fun s => match s with [] => (0, []) | z :: r => (z, r) end).
Fixpoint dec_list {T} (c : pcodec T) (k : nat) (s : list Z) : list T * list Z :=
  match k with O => ([], s) | S k' => let '(t, r) := p_dec c s in let '(l, r') := dec_list c k' r in (t :: l, r') end.
Definition p_list {T} (c : pcodec T) : pcodec (list T) :=
  mkP (fun l => Z.of_nat (length l) :: concat (map (p_enc c) l)) (fun s => match s with [] => ([], []) | n :: r => dec_list c (Z.to_nat n) r end).
Definition p_pair {T U} (c : pcodec T) (d : pcodec U) : pcodec (T * U) :=
  mkP (fun x => p_enc c (fst x) ++ p_enc d (snd x)) (fun s => let '(t, r) := p_dec c s in let '(u, r') := p_dec d r in ((t, u), r')).
Definition p_point : pcodec (wpoint exG) := mkP (fun w => [point_code w]) (fun s => match s with [] => (WBad, []) | z :: r => (point_of z, r) end).
Definition p_wct : pcodec (wpoint exG * wpoint exG) := p_pair p_point p_point.
Definition p_welem : pcodec (welem exG) := mkP
  (fun w => match w with
            | WNoPayload c => 0 :: p_enc p_wct c | WPaillier c b => 1 :: p_enc (p_pair p_wct (p_list p_z)) (c, b) | WElGamal c d => 2 :: p_enc (p_pair p_wct p_wct) (c, d)
            | WDeletion a b => 3 :: p_enc (p_pair (p_list p_z) (p_list p_z)) (a, b) | WOnlyPaillier a => 4 :: p_enc (p_list p_z) a | WUnset => [5] end)
  (fun s => match s with
            | [] => (WUnset, [])
            | t :: r =>
                if t =? 0 then let '(c, r') := p_dec p_wct r in (WNoPayload c, r')
                else if t =? 1 then let '(c, r') := p_dec (p_pair p_wct (p_list p_z)) r in (WPaillier (fst c) (snd c), r')
                else if t =? 2 then let '(c, r') := p_dec (p_pair p_wct p_wct) r in (WElGamal (fst c) (snd c), r')
                else if t =? 3 then let '(c, r') := p_dec (p_pair (p_list p_z) (p_list p_z)) r in (WDeletion (fst c) (snd c), r')
                else if t =? 4 then let '(c, r') := p_dec (p_list p_z) r in (WOnlyPaillier c, r')
                else (WUnset, r) end).
Definition p_file {N} (c : pcodec N) : codec (tree_file N) := mkCodec
  (fun f => p_enc (p_pair (p_pair p_z p_z) (p_pair (p_pair p_z p_z) (p_list c))) (f_stash f, f_node f, (f_actual f, f_depth f, f_nodes f)))
  (fun s => let '((a, b, (c', d, l)), _) := p_dec (p_pair (p_pair p_z p_z) (p_pair (p_pair p_z p_z) (p_list c))) s in mkFile a b c' d l).
Lemma good_z : pgood p_z. Proof. intros t r. reflexivity. Qed.
Lemma good_pair {T U} (c : pcodec T) (d : pcodec U) : pgood c -> pgood d -> pgood (p_pair c d).
Proof. intros A B [t u] r. unfold p_pair. cbn [p_enc p_dec fst snd]. rewrite <- app_assoc, A, B. auto. Qed.
Lemma good_list {T} (c : pcodec T) : pgood c -> pgood (p_list c).
Proof.
  intros A l r. unfold p_list. cbn [p_enc p_dec app]. rewrite Nat2Z.id. induction l as [|t l IH]; cbn [length map concat dec_list]; auto. rewrite <- app_assoc, A, IH. auto.
Qed.
Lemma good_point : pgood p_point. Proof. intros t r. unfold p_point. cbn [p_enc p_dec app]. rewrite point_of_code. auto. Qed.
Lemma good_welem : pgood p_welem.
Proof.
  assert (W : pgood p_wct) by (apply good_pair; apply good_point). assert (B : pgood (p_list p_z)) by (apply good_list, good_z).
  intros [c|c b|c d|a b|a|] r; unfold p_welem; cbn [p_enc p_dec app Z.eqb Pos.eqb].
  - rewrite W. auto.
  - rewrite (good_pair _ _ W B). auto.
  - rewrite (good_pair _ _ W W). auto.
  - rewrite (good_pair _ _ B B). auto.
  - rewrite B. auto.
  - auto.
Qed.
Lemma good_file {N} (c : pcodec N) : pgood c -> faithful (p_file c).
Proof.
  intros G [a b c' d l]. unfold p_file. cbn [c_ser c_parse f_stash f_node f_actual f_depth f_nodes].
  assert (Z2 : pgood (p_pair p_z p_z)) by (apply good_pair; apply good_z).
  pose proof (good_pair _ _ Z2 (good_pair _ _ Z2 (good_list _ G)) (a, b, (c', d, l)) []) as X. rewrite app_nil_r in X. rewrite X. auto.
Qed.
Definition ex_pt : codec (tree_file pnode) := p_file (p_pair (p_list (p_pair (p_list p_z) (p_list p_z))) p_z).
Definition ex_et : codec (tree_file (list (welem exG))) := p_file (p_list p_welem).
Example ex_tree_codecs : faithful ex_pt /\ faithful ex_et.
Proof.
  assert (B : pgood (p_list p_z)) by (apply good_list, good_z). split; apply good_file; [apply good_pair; [apply good_list, good_pair; auto|apply good_z]|apply good_list, good_welem].
Qed.
Definition ex_data : bytes := [100; slash].
Definition ex_program (start : Z) (func : functionality) (run : announced -> sys -> bool) : bool :=
  match setup_program ex_pub ex_sec ex_thr ex_pt ex_et ex_bits 2 2 false 5 ex_env ex_data ex_out mid_p mid_q 51 1 1 start (1 + start) 5 func (mkSys ex_fs (ex_coins 7)) with
  | (s, Ok a) =>
      let '(tree0, days0, tree1, days1) := an_data a in
      Nat.eqb (length (distinct (all_elements tree0 days0 ++ all_elements tree1 days1))) (Z.to_nat (1 + start)) && run a (mkSys (sy_world s) ex_tape)
  | _ => false end.
Example ex_C67_ca : ex_program 1 CA (fun a s =>
  match prog_ca ex_pub ex_sec ex_thr ex_pt ex_et ex_bits 2 2 false 5 ex_env ex_env ex_data ex_out 1 true zero_size zero_size s with
  | (_, Ok (c, sv)) => (cl_out c =? an_size a) && (0 <? an_size a) && (cl_day c =? 1)%nat && no_overflowb (cl_my c) && no_overflowb (sv_my sv)
  | _ => false end) = true.
Proof. vm_cast_no_check (eq_refl true). Qed.
Example ex_C67_psi : ex_program 0 PSI (fun a s =>
  match prog_psi ex_pub ex_sec ex_thr ex_pt ex_et ex_bits 2 2 false 5 ex_env ex_env ex_data ex_out 1 false zero_size zero_size (fun _ => "x"%string) s with
  | (_, Ok (c, sv)) => (Z.of_nat (length (snd (cl_out c))) =? an_size a) && (0 <? an_size a) && (cl_day c =? 1)%nat && no_overflowb (cl_my c) && no_overflowb (sv_my sv)
  | _ => false end) = true.
Proof. vm_cast_no_check (eq_refl true). Qed.
Example ex_C67_sum : ex_program 0 SUM (fun a s =>
  match prog_sum ex_pub ex_sec ex_thr ex_pt ex_et ex_bits 2 2 false 5 ex_env ex_env ex_data ex_out 1 false zero_size zero_size s with
  | (_, Ok (c, sv)) => (fst (cl_out c) =? an_size a) && (snd (cl_out c) =? an_sum a) && (0 <? an_size a) && (cl_day c =? 1)%nat && no_overflowb (cl_my c) && no_overflowb (sv_my sv)
  | _ => false end) = true.
Proof. vm_cast_no_check (eq_refl true). Qed.
Example ex_C67_ss : ex_program 0 SS (fun a s =>
  match prog_ss ex_pub ex_sec ex_thr ex_pt ex_et ex_bits 2 2 false 5 ex_env ex_env ex_data ex_out 1 false zero_size zero_size s with
  | (_, Ok (c, sv)) => (Z.of_nat (length (cl_out c)) =? an_size a) && (length (sv_shares sv) =? length (cl_out c))%nat && (0 <? an_size a) && (cl_day c =? 1)%nat && no_overflowb (cl_my c) && no_overflowb (sv_my sv)
  | _ => false end) = true.
Proof. vm_cast_no_check (eq_refl true). Qed.
Example ex_sound : sound_setting (Gr := exG) ex_bits 2 2 false mid_p mid_q.
Proof. destruct ex_setting as (A & B & _). destruct mid_primes. unfold sound_setting, int32. repeat (split; [solve [auto; lia]|]). discriminate. Qed.
(** a set of two elements, of which a read error after 8 bytes leaves one *)
Example ex_C67_truncated :
  (let d := mkDataset [[49]; [50]] [7; 9] in
   match dataset_write d with
   | Ok f => match read_csv (mkEnv (fun t => if (t =? 1)%nat then Some 8%nat else None) (tie ex_env) 0 (fun _ => [])) ex_data (set_file ex_fs ex_data (Some f)) with
             | (_, Ok r) => list_eqb (concat (d_elements r)) [49] && list_eqb (d_values r) [7]
             | _ => false end
   | _ => false end) = true.
Proof. reflexivity. Qed.

Print Assumptions C67_only.
Print Assumptions C67_cardinality.
Print Assumptions C67_intersection.
Print Assumptions C67_sum.
Print Assumptions C67_shares.
Print Assumptions C67_truncated_read.
