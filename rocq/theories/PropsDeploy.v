(** * C51: the output the setup program announces is the output of the run.

    Program: DeployModel.v (data generation, CSV files, initial trees, both
    parties reading them and running the protocol). *)
Require Import String.
Require Import List Arith Lia ZArith Permutation Bool Znumtheory.
Import ListNotations.
From Verif Require Import Prelude TreeModel TreeSpec TreeHistory Coins Group ElGamalModel ElGamalProofs BytesModel CipherModel PaillierModel PaillierProofs PropsPaillier WireModel PropsWire SyncModel SyncSpec PropsSync FlagModel CsvModel DataModel DataSpec DataProofs PropsData AddModel AddSpec AddProofs AddRun AddStart PropsAdd BigPrime SetupModel SetupProofs PropsSetup DeployModel DeployProofs.
Local Open Scope Z_scope.

(** ** Specification *)
(** the flags of the setup program: types, and fewer than 2^30 elements *)
Definition flags (days daily start shared max : Z) : Prop :=
  uint32 days /\ uint32 daily /\ uint32 start /\ - 2 ^ 31 <= shared < 2 ^ 31 /\ 0 < max < 2 ^ 31 /\ start + days * daily < 2 ^ 30.
(** the strings drawn for the data were all different (they are drawn from 10^15) *)
Definition all_different {Gr} (days daily start shared : Z) (d : deployed Gr) : Prop :=
  let '(tree0, days0, tree1, days1) := dp_data d in let n := start + days * daily in
  no_coincidence n (if shared <? 0 then n / 8 else shared) (all_elements tree0 days0) (all_elements tree1 days1).

Section Facts.
Context {Gr : group}.
Variable hash : Z -> list bool.
Variables stash node : nat.
Variables sk0 sk1 : Z.
Variable n : Z.
Variable pai0 : pub.
Notation RepP := (fun (a : Z) (c : ct Gr) => decrypt (sk0 + sk1) c = gpow gen a).
Notation RepE := (fun (a : Z * Z) (c : ct Gr * ct Gr) => decrypt (sk0 + sk1) (fst c) = gpow gen (fst a) /\ decrypt (sk0 + sk1) (snd c) = gpow gen (snd a)).
Notation RepS := (fun (a : Z * Z) (c : ct Gr * Z) => decrypt (sk0 + sk1) (fst c) = gpow gen (fst a) /\ 0 <= snd a < n /\ ct_of n (snd a) (snd c)).
Lemma trees_plain_agree days daily start max func d s0 b0 s1 b1 : (func = SS -> 1 < n /\ thr_object n pai0) -> facts hash stash node (Gr := Gr) sk0 sk1 n days daily start max func d s0 b0 s1 b1 ->
  exists my0 other0 my1 other1, trees_for stash node import_zero_no_payload d = Ok (my0, other0) /\ trees_for stash node import_one_no_payload d = Ok (my1, other1)
  /\ agree hash sk0 sk1 (fun x : Z => x) pad_elem RepP my0 other0 my1 other1 (map fst s0) s1.
Proof.
  intros PR F. destruct F as (_ & _ & _ & _ & _ & _ & _ & _ & _ & _ & W & _). unfold trees_for. destruct (dp_trees d) as [f|].
  - destruct (load_plain stash node hash sk0 sk1 n pai0 func s0 s1 PR f W) as (my0 & other0 & my1 & other1 & L0 & L1 & _ & _ & AG). exists my0, other0, my1, other1. auto.
  - destruct W as (-> & ->). do 4 eexists. split; [reflexivity|]. split; [reflexivity|]. apply agree_new.
Qed.
Lemma trees_value_agree days daily start max func d s0 b0 s1 b1 : func <> SS -> facts hash stash node (Gr := Gr) sk0 sk1 n days daily start max func d s0 b0 s1 b1 ->
  exists my0 other0 my1 other1, trees_for stash node import_zero_payload d = Ok (my0, other0) /\ trees_for stash node import_one_sum d = Ok (my1, other1)
  /\ agree hash sk0 sk1 (@fst Z Z) pad_entry RepE my0 other0 my1 other1 s0 s1.
Proof.
  intros PR F. destruct F as (_ & _ & _ & _ & _ & _ & _ & _ & _ & _ & W & _). unfold trees_for. destruct (dp_trees d) as [f|].
  - destruct (load_value stash node hash sk0 sk1 n func s0 s1 f W PR) as (my0 & other0 & my1 & other1 & L0 & L1 & _ & _ & AG). exists my0, other0, my1, other1. auto.
  - destruct W as (-> & ->). do 4 eexists. split; [reflexivity|]. split; [reflexivity|]. apply agree_new.
Qed.
Lemma trees_paillier_agree days daily start max func d s0 b0 s1 b1 : func = SS -> facts hash stash node (Gr := Gr) sk0 sk1 n days daily start max func d s0 b0 s1 b1 ->
  exists my0 other0 my1 other1, trees_for stash node import_zero_payload d = Ok (my0, other0) /\ trees_for stash node import_one_ss d = Ok (my1, other1)
  /\ agree hash sk0 sk1 (@fst Z Z) pad_entry RepS my0 other0 my1 other1 s0 s1.
Proof.
  intros PR F. destruct F as (_ & _ & _ & _ & _ & _ & _ & _ & _ & _ & W & _). unfold trees_for. destruct (dp_trees d) as [f|].
  - destruct (load_paillier stash node hash sk0 sk1 n func s0 s1 f W PR) as (my0 & other0 & my1 & other1 & L0 & L1 & _ & _ & AG). exists my0, other0, my1, other1. auto.
  - destruct W as (-> & ->). do 4 eexists. split; [reflexivity|]. split; [reflexivity|]. apply agree_new.
Qed.
End Facts.
Lemma common_map_fst (l : list (Z * Z)) l1 : common (fun x => x) (map fst l) l1 = map fst (common fst l l1).
Proof. unfold common. induction l as [|a l IH]; auto. cbn [map filter]. rewrite IH. destruct (mem (fst a) l1); auto. Qed.
Lemma proper_map_fst (l : list (list (Z * Z))) : proper fst l -> proper (fun x => x) (map (map fst) l).
Proof. intros (A & B & C). unfold proper. rewrite <- concat_map, map_id, map_length. split; auto. split; auto. apply Forall_map. exact B. Qed.
Lemma total_below max (l : list (Z * Z)) : 0 < max -> Forall (fun a => 0 <= snd a < max) l -> total (map snd l) <= Z.of_nat (length l) * (max - 1).
Proof. intros M. induction 1 as [|a l Ha F IH]; unfold total in *; cbn [map fold_right length]; [lia|]. rewrite Nat2Z.inj_succ. lia. Qed.
Lemma filter_len {A} (p : A -> bool) l : (length (filter p l) <= length l)%nat.
Proof. induction l as [|a l IH]; cbn [filter length]; [lia|]. destruct (p a); cbn [length]; lia. Qed.
Lemma upto_all {A} k (d : list (list A)) : (length d <= k)%nat -> upto k d = concat d.
Proof. intros L. unfold upto. rewrite firstn_all2 by auto. auto. Qed.

Section Statements.
Variables (Gr : group) (hash : Z -> list bool) (pk : pubkey Gr) (sk0 sk1 : Z).
Variables (csize : client_msg Gr -> Z) (ssize : server_msg Gr -> Z).
Variables (n : Z) (pai0 pai1 : pub) (psk0 psk1 : Z).
Variables (stash node : nat).
(** the setup program with these flags and coins left [d]; all strings differed *)
Definition was_setup (days daily start shared max : Z) (func : functionality) (d : deployed Gr) : Prop :=
  flags days daily start shared max /\ paillier_ready func n pai0
  /\ (exists coins coins', generate_data hash pk stash node pai0 days daily start shared max func coins = Ok (d, coins'))
  /\ all_different days daily start shared d.

(** the same for a setup program whose parts were run with separate coins and
    the Paillier object [pai] *)
Definition was_made (pai : pub) (days daily start shared max : Z) (func : functionality) (d : deployed Gr) : Prop :=
  flags days daily start shared max /\ paillier_ready func n pai
  /\ made hash stash node pai sk0 sk1 days daily start shared max func d /\ all_different days daily start shared d.
Lemma setup_made days daily start shared max func d : setting Gr hash pk sk0 sk1 -> was_setup days daily start shared max func d -> was_made pai0 days daily start shared max func d.
Proof. intros (_ & _ & EP) (FL & PR & (c0 & c1 & G) & AD). apply pk_shares in EP. subst pk. apply generate_made in G. unfold was_made. auto. Qed.

(** C51.  With possible flags the setup program ends normally or with an error
    status.  [start * start < 2^31]: its comparison of the initial sets counts in
    an int, and nothing excludes that all strings are the same. *)
Theorem C51_setup : forall days daily start shared max func coins,
  setting Gr hash pk sk0 sk1 -> int32 stash -> int32 node -> flags days daily start shared max -> paillier_ready func n pai0 ->
  shared <= start + days * daily -> start * start < 2 ^ 31 ->
  ends_well (fun _ => True) (generate_data hash pk stash node pai0 days daily start shared max func coins).
Proof.
  intros days daily start shared max func tp (HH & BG & EP) IS IN (U1 & U2 & U3 & FL & MX & TB) PR SH SQ. apply pk_shares in EP. subst pk.
  eapply deploy_total; eauto.
Qed.

Lemma cardinality_made : forall pai days daily start shared max func d k coins,
  setting Gr hash pk sk0 sk1 -> int32 stash -> int32 node -> was_made pai days daily start shared max func d -> days <= Z.of_nat k ->
  ends_well (fun '((c, s), _) => Z.of_nat (cl_day c) = days /\ cl_out c <= dp_size d /\ (no_loss (cl_my c) (sv_my s) -> cl_out c = dp_size d))
    (run_ca hash pk stash node sk0 sk1 csize ssize d k coins).
Proof.
  intros pai days daily start shared max func d k tp (HH & BG & EP) IS IN ((U1 & U2 & U3 & FL & MX & TB) & PR & G & AD) DK. apply pk_shares in EP. subst pk.
  destruct (deployed_facts hash stash node pai sk0 sk1 n HH IS IN _ _ _ _ _ _ _ U1 U2 U3 FL MX TB PR G AD) as (s0 & b0 & s1 & b1 & F).
  destruct (trees_plain_agree hash stash node sk0 sk1 n pai _ _ _ _ _ _ _ _ _ _ PR F) as (my0 & other0 & my1 & other1 & T0 & T1 & AG).
  destruct F as (L0 & _ & L1 & LB & LC0 & LC1 & LBB & P0 & P1 & _ & _ & SZ & _).
  unfold run_ca. unfold bind, lift. rewrite L1, T1, L0, T0.
  assert (LM : length (map (map fst) b0) = length b0) by apply map_length.
  pose proof (ca_start Gr hash sk0 sk1 csize ssize HH BG my0 other0 my1 other1 (repeat 0 (length b0)) (map fst s0) s1 (map (map fst) b0) b1 k tp AG ltac:(rewrite LM; auto) (proper_map_fst _ P0) P1) as X.
  rewrite LM in X. unfold client_with, server_with. cbn [fst snd]. rewrite LC0, LC1.
  destruct (run_days _ _ k _ tp) as [[[c s] tp2]| | |]; auto. cbn [ends_well] in *.
  destruct X as (DA & _ & found & (mi & PM & MI) & O). assert (KD : cl_day c = length b0) by lia. split; [lia|].
  rewrite (upto_all (cl_day c) (map (map fst) b0)), (upto_all (cl_day c) b1) in PM by lia. rewrite <- concat_map, <- map_app, !common_map_fst in PM.
  apply Permutation_length in PM. rewrite !app_length, !map_length in PM. rewrite SZ, O. split; [lia|]. intros NL. rewrite (MI NL) in PM. cbn [length] in PM. lia.
Qed.
(** C51.  The announced intersection size is what party zero reports on the last
    day, unless a stash overflowed; then it reports less. *)
Theorem C51_cardinality : forall days daily start shared max func d k coins,
  setting Gr hash pk sk0 sk1 -> int32 stash -> int32 node -> was_setup days daily start shared max func d -> days <= Z.of_nat k ->
  ends_well (fun '((c, s), _) => Z.of_nat (cl_day c) = days /\ cl_out c <= dp_size d /\ (no_loss (cl_my c) (sv_my s) -> cl_out c = dp_size d))
    (run_ca hash pk stash node sk0 sk1 csize ssize d k coins).
Proof. intros days daily start shared max func d k coins ST IS IN WS. apply setup_made in WS; auto. eapply cardinality_made; eauto. Qed.

Lemma intersection_made : forall pai dec_string days daily start shared max func d k coins,
  setting Gr hash pk sk0 sk1 -> int32 stash -> int32 node -> was_made pai days daily start shared max func d -> days <= Z.of_nat k ->
  ends_well (fun '((c, s), _) => Z.of_nat (cl_day c) = days /\ Z.of_nat (length (snd (cl_out c))) <= dp_size d
               /\ (no_loss (cl_my c) (sv_my s) -> Z.of_nat (length (snd (cl_out c))) = dp_size d))
    (run_psi hash pk stash node sk0 sk1 csize ssize dec_string d k coins).
Proof.
  intros pai dec_string days daily start shared max func d k tp (HH & BG & EP) IS IN ((U1 & U2 & U3 & FL & MX & TB) & PR & G & AD) DK. apply pk_shares in EP. subst pk.
  destruct (deployed_facts hash stash node pai sk0 sk1 n HH IS IN _ _ _ _ _ _ _ U1 U2 U3 FL MX TB PR G AD) as (s0 & b0 & s1 & b1 & F).
  destruct (trees_plain_agree hash stash node sk0 sk1 n pai _ _ _ _ _ _ _ _ _ _ PR F) as (my0 & other0 & my1 & other1 & T0 & T1 & AG).
  destruct F as (L0 & _ & L1 & LB & LC0 & LC1 & LBB & P0 & P1 & _ & _ & SZ & _).
  unfold run_psi. unfold bind, lift. rewrite L1, T1, L0, T0.
  assert (LM : length (map (map fst) b0) = length b0) by apply map_length.
  pose proof (psi_start Gr hash sk0 sk1 csize ssize HH BG dec_string my0 other0 my1 other1 (repeat 0 (length b0)) (map fst s0) s1 (map (map fst) b0) b1 k tp AG ltac:(rewrite LM; auto) (proper_map_fst _ P0) P1) as X.
  rewrite LM in X. unfold client_with, server_with. cbn [fst snd]. rewrite LC0, LC1. unfold psi_out in *.
  destruct (run_days _ _ k _ tp) as [[[c s] tp2]| | |]; auto. cbn [ends_well] in *.
  destruct X as (DA & _ & found & (mi & PM & MI) & O). assert (KD : cl_day c = length b0) by lia. split; [lia|].
  rewrite (upto_all (cl_day c) (map (map fst) b0)), (upto_all (cl_day c) b1) in PM by lia. rewrite <- concat_map, <- map_app, !common_map_fst in PM.
  apply Permutation_length in PM. rewrite !app_length, !map_length in PM. rewrite SZ, O, map_length. split; [lia|]. intros NL. rewrite (MI NL) in PM. cbn [length] in PM. lia.
Qed.
(** ... and the number of elements it reports *)
Theorem C51_intersection : forall dec_string days daily start shared max func d k coins,
  setting Gr hash pk sk0 sk1 -> int32 stash -> int32 node -> was_setup days daily start shared max func d -> days <= Z.of_nat k ->
  ends_well (fun '((c, s), _) => Z.of_nat (cl_day c) = days /\ Z.of_nat (length (snd (cl_out c))) <= dp_size d
               /\ (no_loss (cl_my c) (sv_my s) -> Z.of_nat (length (snd (cl_out c))) = dp_size d))
    (run_psi hash pk stash node sk0 sk1 csize ssize dec_string d k coins).
Proof. intros dec_string days daily start shared max func d k coins ST IS IN WS. apply setup_made in WS; auto. eapply intersection_made; eauto. Qed.

Lemma sum_made : forall pai days daily start shared max func d k coins,
  setting Gr hash pk sk0 sk1 -> int32 stash -> int32 node -> was_made pai days daily start shared max func d -> days <= Z.of_nat k ->
  func <> SS -> start * max <= 2 ^ 31 -> (start + days * daily) * max <= ord Gr -> days < 2 ^ 31 ->
  ends_well (fun '((c, s), _) => Z.of_nat (cl_day c) = days /\ fst (cl_out c) <= dp_size d /\ snd (cl_out c) <= dp_sum d
               /\ (no_loss (cl_my c) (sv_my s) -> fst (cl_out c) = dp_size d /\ snd (cl_out c) = dp_sum d))
    (run_sum hash pk stash node sk0 sk1 csize ssize d k coins).
Proof.
  intros pai days daily start shared max func d k tp (HH & BG & EP) IS IN ((U1 & U2 & U3 & FL & MX & TB) & PR & G & AD) DK NE SM TM DB. apply pk_shares in EP. subst pk.
  destruct (deployed_facts hash stash node pai sk0 sk1 n HH IS IN _ _ _ _ _ _ _ U1 U2 U3 FL MX TB PR G AD) as (s0 & b0 & s1 & b1 & F).
  destruct (trees_value_agree hash stash node sk0 sk1 n _ _ _ _ _ _ _ _ _ _ NE F) as (my0 & other0 & my1 & other1 & T0 & T1 & AG).
  pose proof F as (_ & L0 & L1 & LB & LC0 & LC1 & LBB & P0 & P1 & VA & _ & SZ & SS' & Ls & Lt).
  unfold run_sum. unfold bind, lift. rewrite L1, T1, L0, T0.
  assert (LM : map (map (fun a : Z * Z => a)) b0 = b0) by (rewrite (map_ext _ (fun a => a)); [apply map_id|intros; apply map_id]). rewrite LM.
  assert (V0 : Forall (fun a => 0 <= snd a) (s0 ++ concat b0)) by (eapply Forall_impl; [|exact VA]; cbn; lia).
  assert (TT : total (map snd (s0 ++ concat b0)) < ord Gr).
  { pose proof (total_below max _ ltac:(lia) VA) as X. rewrite Lt in X. unfold uint32 in *. assert (2 * 10 ^ 15 > 0) by reflexivity. nia. }
  assert (TI : total (map snd (common fst s0 s1)) < 2 ^ 31).
  { apply Forall_app in VA as (VA0 & _). pose proof (total_below max (common fst s0 s1) ltac:(lia) (common_sub _ _ _ VA0)) as X. pose proof (filter_len (fun a => mem (fst a) s1) s0) as Y. unfold common in *. unfold uint32 in U3. nia. }
  specialize (SS' TI).
  pose proof (sum_start Gr hash sk0 sk1 csize ssize HH BG my0 other0 my1 other1 (repeat 0 (length b0)) s0 s1 b0 b1 k tp AG LBB P0 P1 V0 TT ltac:(lia)) as X.
  unfold client_with, server_with. cbn [fst snd]. rewrite LC0, LC1.
  destruct (run_days _ _ k _ tp) as [[[c s] tp2]| | |]; auto. cbn [ends_well] in *.
  destruct X as (DA & _ & (found & (mi & PM & MI) & O1 & O2) & _). assert (KD : cl_day c = length b0) by lia. split; [lia|].
  rewrite (upto_all (cl_day c) b0), (upto_all (cl_day c) b1) in PM by lia.
  assert (PT : total (map snd (common fst s0 s1)) + total (map snd found) + total (map snd mi) = total (map snd (common fst (s0 ++ concat b0) (s1 ++ concat b1)))).
  { assert (TA : forall a b, total (a ++ b) = total a + total b) by (intros a b; unfold total; induction a as [|x a IH]; cbn [app fold_right]; lia).
    rewrite <- !TA, <- !map_app. assert (TP : forall a b, Permutation a b -> total a = total b) by (intros a b P; unfold total; induction P; cbn [fold_right]; lia).
    apply TP. apply Permutation_map. exact PM. }
  assert (MP : 0 <= total (map snd mi)).
  { apply total_nonneg. assert (Q : Forall (fun a => 0 <= snd a) (common fst (s0 ++ concat b0) (s1 ++ concat b1))) by (apply common_sub; auto).
    rewrite <- PM in Q. rewrite !Forall_app in Q. apply Q. }
  apply Permutation_length in PM. rewrite !app_length in PM. rewrite SZ, SS', O1, O2. split; [lia|]. split; [lia|]. intros NL. rewrite (MI NL) in PM, PT. cbn [length map] in PM, PT. unfold total at 3 in PT. cbn [fold_right] in PT. lia.
Qed.
(** SUM: size and sum.  [start * max <= 2^31]: the sum over the initial sets is
    computed in an int. *)
Theorem C51_sum : forall days daily start shared max func d k coins,
  setting Gr hash pk sk0 sk1 -> int32 stash -> int32 node -> was_setup days daily start shared max func d -> days <= Z.of_nat k ->
  func <> SS -> start * max <= 2 ^ 31 -> (start + days * daily) * max <= ord Gr -> days < 2 ^ 31 ->
  ends_well (fun '((c, s), _) => Z.of_nat (cl_day c) = days /\ fst (cl_out c) <= dp_size d /\ snd (cl_out c) <= dp_sum d
               /\ (no_loss (cl_my c) (sv_my s) -> fst (cl_out c) = dp_size d /\ snd (cl_out c) = dp_sum d))
    (run_sum hash pk stash node sk0 sk1 csize ssize d k coins).
Proof. intros days daily start shared max func d k coins ST IS IN WS. apply setup_made in WS; auto. eapply sum_made; eauto. Qed.

Lemma shares_made : forall pai p q bits kt kt' days daily start shared max d k coins,
  setting Gr hash pk sk0 sk1 -> int32 stash -> int32 node -> was_made pai days daily start shared max SS d -> days <= Z.of_nat k ->
  prime p -> prime q -> p <> q -> threshold_keygen p q bits kt = Ok ((n, psk0, psk1), kt') -> thr_object n pai0 -> thr_object n pai1 ->
  ends_well (fun '((c, s), _) => Z.of_nat (cl_day c) = days /\ length (sv_shares s) = length (cl_out c) /\ Z.of_nat (length (cl_out c)) <= dp_size d
               /\ (no_loss (cl_my c) (sv_my s) -> Z.of_nat (length (cl_out c)) = dp_size d))
    (run_ss hash pk stash node pai0 sk0 sk1 csize ssize n pai1 psk0 psk1 d k coins).
Proof.
  intros pai p q bits kt kt' days daily start shared max d k tp (HH & BG & EP) IS IN ((U1 & U2 & U3 & FL & MX & TB) & PR & G & AD) DK Pp Pq NE KG OB0 OB1. apply pk_shares in EP. subst pk.
  destruct (deployed_facts hash stash node pai sk0 sk1 n HH IS IN _ _ _ _ _ _ _ U1 U2 U3 FL MX TB PR G AD) as (s0 & b0 & s1 & b1 & F).
  destruct (trees_paillier_agree hash stash node sk0 sk1 n _ _ _ _ _ _ _ _ _ _ eq_refl F) as (my0 & other0 & my1 & other1 & T0 & T1 & AG).
  destruct F as (_ & L0 & L1 & LB & LC0 & LC1 & LBB & P0 & P1 & VA & _ & SZ & _).
  assert (1 < p) by (destruct Pp; auto). assert (1 < q) by (destruct Pq; auto).
  apply keygen_spec in KG as (En & S1 & S2 & D1 & D2); auto. assert (Hn : 1 < n) by nia.
  unfold run_ss. unfold bind, lift. rewrite L1, T1, L0, T0. set (d0 := map (map ss_payload) b0).
  assert (EC : forall l, concat (map (map ss_payload) l) = map ss_payload (concat l)) by (intros l; rewrite concat_map; auto).
  assert (LD : length b0 = length d0) by (unfold d0; rewrite map_length; auto).
  assert (P0' : proper fst (s0 :: d0)).
  { destruct P0 as (ND0 & EL0 & RR0). unfold proper in *. cbn [concat] in *. unfold d0. rewrite EC. rewrite !map_app, !app_length, map_map, map_length in *. split; [exact ND0|]. split; auto.
    apply Forall_app in EL0 as (EL1 & EL2). apply Forall_app. split; auto. apply Forall_map. eapply Forall_impl; [|exact EL2]. cbn. auto. }
  pose proof (ss_start Gr hash sk0 sk1 csize ssize HH BG p q n psk0 psk1 pai0 pai1 Pp Pq NE En S1 (Z.lt_le_incl _ _ S2) D1 D2 OB0 OB1
    my0 other0 my1 other1 (repeat 0 (length d0)) s0 s1 d0 b1 k tp AG ltac:(lia) P0' P1) as X.
  unfold client_with, server_with. cbn [fst snd]. rewrite LC0, LC1, LD.
  destruct (run_days _ _ k _ tp) as [[[c s] tp2]| | |]; auto. cbn [ends_well] in *.
  destruct X as (DA & _ & O1 & found & (mi & PM & MI) & O2). assert (KD : cl_day c = length b0) by lia. split; [lia|]. split; [auto|].
  rewrite (upto_all (cl_day c) d0), (upto_all (cl_day c) b1) in PM by lia.
  assert (LO : length (cl_out c) = length found). { apply (f_equal (@length _)) in O2. rewrite !map_length, combine_length in O2. lia. }
  assert (CL : forall l l1, length (common fst (s0 ++ map ss_payload l) l1) = length (common fst (s0 ++ l) l1)).
  { intros l l1. unfold common. rewrite !filter_app, !app_length. f_equal. induction l as [|a l IH]; auto. cbn [map filter]. cbn [ss_payload fst]. destruct (mem (fst a) l1); cbn [length]; auto. }
  apply Permutation_length in PM. unfold d0 in PM. rewrite EC, CL, !app_length in PM. rewrite SZ, LO. split; [lia|]. intros NL. rewrite (MI NL) in PM. cbn [length] in PM. lia.
Qed.
(** SS: the number of shares each party ends with *)
Theorem C51_shares : forall p q bits kt kt' days daily start shared max d k coins,
  setting Gr hash pk sk0 sk1 -> int32 stash -> int32 node -> was_setup days daily start shared max SS d -> days <= Z.of_nat k ->
  prime p -> prime q -> p <> q -> threshold_keygen p q bits kt = Ok ((n, psk0, psk1), kt') -> thr_object n pai0 -> thr_object n pai1 ->
  ends_well (fun '((c, s), _) => Z.of_nat (cl_day c) = days /\ length (sv_shares s) = length (cl_out c) /\ Z.of_nat (length (cl_out c)) <= dp_size d
               /\ (no_loss (cl_my c) (sv_my s) -> Z.of_nat (length (cl_out c)) = dp_size d))
    (run_ss hash pk stash node pai0 sk0 sk1 csize ssize n pai1 psk0 psk1 d k coins).
Proof. intros p q bits kt kt' days daily start shared max d k coins ST IS IN WS. apply setup_made in WS; auto. eapply shares_made; eauto. Qed.
End Statements.

(** ** Non-vacuity: one initial element and two days of one element, two of three
    common, in the group of order 2000001980000443 *)
Section Examples.
Definition ex_deployed (func : functionality) (run : Z -> Z -> Z -> pub -> pub -> deployed exG -> bool) : bool := with_keys (fun n k0 k1 P0 P1 =>
  match generate_data ex_bits ex_pk 2 2 P0 2 1 1 2 5 func (ex_coins 7) with
  | Ok (d, _) =>
      let '(tree0, days0, tree1, days1) := dp_data d in
      (length (distinct (all_elements tree0 days0 ++ all_elements tree1 days1)) =? 4)%nat && run n k0 k1 P0 P1 d
  | _ => false end).
Example ex_C51_ca : ex_deployed CA (fun n k0 k1 P0 P1 d =>
  match run_ca ex_bits ex_pk 2 2 4 9 zero_size zero_size d 2 ex_tape with
  | Ok ((c, s), _) => (cl_out c =? dp_size d) && (0 <? dp_size d) && (cl_day c =? 2)%nat && no_overflowb (cl_my c) && no_overflowb (sv_my s)
  | _ => false end) = true.
Proof. vm_cast_no_check (eq_refl true). Qed.
Example ex_C51_psi : ex_deployed PSI (fun n k0 k1 P0 P1 d =>
  match run_psi ex_bits ex_pk 2 2 4 9 zero_size zero_size (fun _ => "x"%string) d 2 ex_tape with
  | Ok ((c, s), _) => (Z.of_nat (length (snd (cl_out c))) =? dp_size d)
  | _ => false end) = true.
Proof. vm_cast_no_check (eq_refl true). Qed.
Example ex_C51_sum : ex_deployed SUM (fun n k0 k1 P0 P1 d =>
  match run_sum ex_bits ex_pk 2 2 4 9 zero_size zero_size d 2 ex_tape with
  | Ok ((c, s), _) => (fst (cl_out c) =? dp_size d) && (snd (cl_out c) =? dp_sum d) && (0 <? dp_sum d)
  | _ => false end) = true.
Proof. vm_cast_no_check (eq_refl true). Qed.
(** secret shares: the elements must be below the modulus *)
Definition mid_p : Z := 33554467.
Definition mid_q : Z := 33554473.
Example mid_primes : prime mid_p /\ prime mid_q.
Proof.
  assert (P1 : prime 56489) by (apply prime_b_prime; vm_compute; reflexivity). assert (P2 : prime 199729) by (apply prime_b_prime; vm_compute; reflexivity).
  split; [apply (pocklington_b_prime _ 56489 594 2 P1)|apply (pocklington_b_prime _ 199729 168 5 P2)]; vm_compute; reflexivity.
Qed.
Example ex_C51_ss :
  match threshold_keygen mid_p mid_q 51 (const_tape 2), pub_new false 5 (mid_p * mid_q) 1 (const_tape 7), pub_new false 5 (mid_p * mid_q) 1 (const_tape 2) with
  | Ok ((n, k0, k1), _), Some (Ok (P0, _)), Some (Ok (P1, _)) =>
      match generate_data ex_bits ex_pk 2 2 P0 1 1 1 1 5 SS (ex_coins 7) with
      | Ok (d, _) => match run_ss ex_bits ex_pk 2 2 P0 4 9 zero_size zero_size n P1 k0 k1 d 1 ex_tape with
          | Ok ((c, s), _) => (Z.of_nat (length (cl_out c)) =? dp_size d) && (length (sv_shares s) =? length (cl_out c))%nat && (dp_size d =? 1)
          | _ => false end
      | _ => false end
  | _, _, _ => false end = true.
Proof. vm_cast_no_check (eq_refl true). Qed.
Example ex_flags : flags 2 1 1 2 5.
Proof. unfold flags, uint32. lia. Qed.
End Examples.

Print Assumptions C51_setup.
Print Assumptions C51_cardinality.
Print Assumptions C51_intersection.
Print Assumptions C51_sum.
Print Assumptions C51_shares.
