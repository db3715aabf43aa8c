(** * C72: whole deployments, with every file and every message as bytes.

    Programs: EndModel.v.  The results of C67 (addition), C68 (original) and C69
    (deletion) hold of the programs that exchange their messages over gRPC. *)
Require Import String.
Require Import List Arith Lia ZArith Bool Znumtheory.
Import ListNotations.
From Verif Require Import Prelude TreeModel TreeDelModel TreeSpec Coins Group ElGamalModel BytesModel CipherModel PaillierModel PropsPaillier WireModel SyncModel SyncSpec PropsSync FlagModel CsvModel DataModel DataSpec PropsData AddModel AddSpec PropsAdd DelModel DelSpec PropsDel PsiSpec PsiSets PropsPsi SetupModel PropsSetup FileModel FileSpec PropsFile KeyModel KeyProofs PropsKeys DeployModel PropsDeploy OrigModel PropsOrig OrigSetupModel PropsOrigSetup DelSetupModel PropsDelSetup ProtoModel ProtoCodec PropsProto PropsCodec OnceModel OnceProofs OnceRun NetModel PropsNet ProgModel PropsProg OrigProgModel PropsOrigProg DelProgModel PropsDelProg PropsPsiCrash PropsDelCrash EndModel.
From Verif Require PsiModel.
Local Open Scope Z_scope.

(** ** Specification *)
(** [sizes]: the outcome of a program that says how long its messages are;
    [direct]: with messages passed directly; [net]: over the network.  The program
    ends over the network as it ends without, if none of its messages is larger
    than a gigabyte, and with an Internal error otherwise. *)
Definition over_net {T} (sizes : sys * outcome (list Z)) (direct net : sys * outcome T) : Prop :=
  match snd sizes with
  | Ok l => if none_too_large l then net = direct else snd net = Err Internal
  | _ => net = direct
  end.

(** ** Proofs *)
Lemma over_bind {X T} (m : SM sys X) (z : X -> SM sys (list Z)) (f g : X -> SM sys T) s :
  (forall x s', over_net (z x s') (f x s') (g x s')) -> over_net (sbind m z s) (sbind m f s) (sbind m g s).
Proof. intros E. unfold sbind, over_net. destruct (m s) as [s' [x|c| |]]; cbn [snd]; try reflexivity. apply E. Qed.
Lemma over_rand {T} (l : tape -> list Z) (d w : M T) s :
  (forall tp, as_direct (none_too_large (l tp)) (d tp) (w tp)) -> over_net (rand (fun tp => Ok (l tp, tp)) s) (rand d s) (rand w s).
Proof.
  intros E. specialize (E (sy_coins s)). unfold over_net, rand, as_direct in *. cbn [snd]. rewrite E. destruct (none_too_large _); reflexivity.
Qed.
Lemma over_ends {T} (Q : T -> Prop) z (d w : sys * outcome T) : over_net z d w -> ends Q d -> ends Q w.
Proof.
  unfold over_net, ends. destruct (snd z) as [l|c| |]; [|intros ->; auto..]. destruct (none_too_large l); [intros ->; auto|]. intros -> _. exact I.
Qed.
Lemma over_outcome {T} z (d w : sys * outcome T) : over_net z d w -> snd w = snd d \/ snd w = Err Internal.
Proof. unfold over_net. destruct (snd z) as [l|c| |]; [|intros ->; auto..]. destruct (none_too_large l); [intros ->; auto|auto]. Qed.

(** *** the days with each party's keys *)
Section TwoKeys.
Context {Gr : group}.
Variable hash : Z -> list bool.
Variables (pk0 pk1 : pubkey Gr) (sk0 sk1 : Z).
Variable csize : client_msg Gr -> Z.
Variable ssize : server_msg Gr -> Z.
Variable dec_string : Z -> string.
Variables n0 n1 : Z.
Variables pai0 pai1 : pub.
Variables psk0 psk1 : Z.
Notation ca_wk := (np_work csize ssize (ca_gen2 hash pk1 sk1)).
Notation psi_wk := (np_work csize ssize (psi_gen2 hash pk1 sk1)).
Notation sum_wk := (sum_work sk1 csize ssize (sum_gen2 hash pk1 sk1)).
Notation ss_wk := (ss_work csize ssize (ss_gen2 hash pk1 sk1 pai1) (fun c p => thr_decrypt n1 psk1 c p)).
Lemma ca_same2 c s tp : ca_day2 hash pk0 pk1 sk0 sk1 csize ssize (c, s) tp = as_day (handle_all ca_wk sv_finish_day) (ca_client hash pk0 sk0 c tp) s.
Proof.
  unfold ca_day2, ca_client, as_day, bind, ret, lift. destruct (ca_gen1 _ _ _ _ _ tp) as [[[my m1] tp1]| | |]; auto. cbn [serial]. rewrite np_all. fold (ca_handle hash pk1 sk1 csize ssize).
  unfold send. fold (even_coins tp1). fold (odd_coins tp1). destruct (ca_handle _ _ _ _ _ _ s _) as [s' [r| | |]]; auto. fold (got r).
  destruct (cl_handle _ _ _ _ _ _); auto.
Qed.
Lemma psi_same2 c s tp : ProgModel.psi_day2 hash pk0 pk1 sk0 sk1 csize ssize dec_string (c, s) tp = as_day (handle_all psi_wk sv_finish_day) (psi_client hash pk0 sk0 dec_string c tp) s.
Proof.
  unfold ProgModel.psi_day2, psi_client, as_day, bind, ret, lift. destruct (psi_gen1 _ _ _ _ _ tp) as [[[my m1] tp1]| | |]; auto. cbn [serial]. rewrite np_all. fold (psi_handle hash pk1 sk1 csize ssize).
  unfold send. fold (even_coins tp1). fold (odd_coins tp1). destruct (psi_handle _ _ _ _ _ _ s _) as [s' [r| | |]]; auto. fold (got r).
  destruct (cl_handle _ _ _ _ _ _); auto.
Qed.
Lemma sum_same2 c s tp : sum_day2 hash pk0 pk1 sk0 sk1 csize ssize (c, s) tp = as_day (handle_all sum_wk sv_finish_day) (sum_client hash pk0 sk0 c tp) s.
Proof.
  unfold sum_day2, sum_client, sum_client_iv, bind, ret. destruct (sum_gen1 _ _ _ _ _ tp) as [[[my m1] tp1]| | |]; auto. cbn [as_day serial]. rewrite sum_all. fold (sum_handle hash pk1 sk1 csize ssize).
  unfold send at 1. fold (even_coins tp1). fold (odd_coins tp1). destruct (sum_handle _ _ _ _ _ _ s _) as [s1 [r| | |]]; auto. fold (got r).
  set (c1 := mkClient _ _ _ _ _ _). unfold cl_handle, bind, ret. destruct (cl_finished c1); auto. destruct (got r) as [[m|w|]| |] eqn:EG; auto.
  - destruct (sum_message_iii pk0 sk0 m c1 (odd_coins tp1)) as [[[c2 w] tp2]| | |]; auto. cbn [serial]. rewrite sum_all. fold (sum_handle hash pk1 sk1 csize ssize).
    unfold send at 1. fold (even_coins tp2). fold (odd_coins tp2). destruct (sum_handle _ _ _ _ _ _ s1 _) as [s2 [r4| | |]]; auto. fold (got r4).
    destruct (cl_finished c2); auto. destruct (got r4) as [[m2|w2|]| |]; auto.
    + destruct (sum_message_iii pk0 sk0 m2 c2 _) as [[[c3 w3] tp3]| | |]; auto. cbn [serial]. rewrite sum_all. fold (sum_handle hash pk1 sk1 csize ssize).
      unfold send. fold (even_coins tp3). fold (odd_coins tp3). destruct (sum_handle _ _ _ _ _ _ s2 _) as [s3 [r5| | |]]; auto.
    + unfold lift. destruct (sum_process_iv pk0 sk0 w2 c2); auto.
  - unfold lift. destruct (sum_process_iv pk0 sk0 w c1) as [c2| | |]; auto. cbn beta iota. destruct (cl_finished c2); auto. rewrite ?EG. destruct (sum_process_iv pk0 sk0 w c2); auto.
Qed.
Lemma ss_same2 c s tp : ss_day2 hash pk0 pk1 sk0 sk1 csize ssize n0 n1 pai0 pai1 psk0 psk1 (c, s) tp = as_day (handle_all ss_wk sv_finish_day) (ss_client hash pk0 sk0 n0 pai0 psk0 c tp) s.
Proof.
  unfold ss_day2, ss_client, bind, ret. destruct (ss_gen1 _ _ _ _ _ _ tp) as [[[my m1] tp1]| | |]; auto. cbn [as_day serial]. rewrite ss_all. fold (ss_handle hash pk1 sk1 csize ssize n1 pai1 psk1).
  unfold send at 1. fold (even_coins tp1). fold (odd_coins tp1). destruct (ss_handle _ _ _ _ _ _ _ _ _ s _) as [s1 [r| | |]]; auto. fold (got r).
  set (c1 := mkClient _ _ _ _ _ _). unfold cl_handle. destruct (cl_finished c1); auto. destruct (got r) as [[m|w|]| |] eqn:EG; auto.
  destruct (ss_message_iii sk0 n0 pai0 psk0 m c1 _) as [[[c2 w] tp2]| | |]; auto. cbn [serial]. rewrite ss_all. fold (ss_handle hash pk1 sk1 csize ssize n1 pai1 psk1).
  unfold send at 1. fold (even_coins tp2). fold (odd_coins tp2). destruct (ss_handle _ _ _ _ _ _ _ _ _ s1 _) as [s2 [r4| | |]]; auto.
Qed.
End TwoKeys.
Section TwoKeysOriginal.
Context {Gr : group}.
Variable hash : Z -> list bool.
Variable H : Z -> Gr.
Variable dec_string : Z -> string.
Variables (mine0 other0 mine1 other1 : pubkey Gr) (x0 x1 : Z).
Variables (csize : og_req Gr -> Z) (ssize : og_reply Gr -> Z).
Notation wk := (og_work hash H dec_string mine0 other0 x0 csize ssize).
Notation og := (og_handle hash H dec_string mine0 other0 x0 csize ssize).
Lemma og_same2 c s tp : og_day2 hash H dec_string csize ssize (mine0, other0, x0) (mine1, other1, x1) (c, s) tp = as_day (handle_all wk og_finish_day) (og_client_day hash H other1 mine1 x1 c tp) s.
Proof.
  unfold og_day2, og_client_day, bind, ret. destruct (oc_message_i _ _ _ _ _ _ tp) as [[[t m1] tp1]| | |]; auto. cbn [as_day serial]. rewrite og_all.
  unfold og_send at 1. fold (even_coins tp1). fold (odd_coins tp1). destruct (og (OQ_I m1) s _) as [s1 [r| | |]]; auto. fold (og_got r).
  destruct (oc_message_iii _ _ _ _) as [[m3 tp2]| | |]; auto. cbn [serial]. rewrite og_all. unfold og_send at 1. fold (even_coins tp2). fold (odd_coins tp2). destruct (og (OQ_III m3) s1 _) as [s2 [r4| | |]]; auto. fold (og_got r4).
  unfold lift. destruct (oc_message_v _ _) as [m5| | |]; auto. cbn [serial]. rewrite og_all. unfold og_send. fold (even_coins (odd_coins tp2)). fold (odd_coins (odd_coins tp2)). destruct (og (OQ_V m5) s2 _) as [s3 [r5| | |]]; auto.
Qed.
End TwoKeysOriginal.

Section Statements.
Context {Gr : group}.
Variables (enc : wpoint Gr -> bytes) (dec : bytes -> wpoint Gr).
Hypothesis enc_dec : forall w, dec (enc w) = w.
Variables (cpub : codec (pub_msg (Gr := Gr))) (csec : codec sec_msg) (cthr : codec thr_msg) (cppub : codec ppub_msg) (cpsec : codec psec_msg).
Variables (cpt : codec (tree_file pnode)) (cet : codec (tree_file (list (welem Gr)))) (coprf : codec (list (string * wpoint Gr))).
Variable hash : Z -> list bool.
Variables stash node : nat.
Variable two_k_ary : bool.
Variable fuel : nat.
Notation cs := (client_size enc).
Notation ss := (server_size enc).
Notation rs := (fun r => bytes_of ServerMessage (to_server enc r)).

(** ** Specification: the messages of a deployment *)
(** the programs of ProgModel, OrigProgModel and DelProgModel, with the sizes of
    their messages for a result *)
Section Messages.
Variables e0 e1 : env.
Variables (data out : bytes) (days : nat) (trees : bool).
Definition measured (l : tape -> list Z) : M (list Z) := fun tp => Ok (l tp, tp).
Notation one_elements := (one_elements cpub csec cthr cpt cet stash node two_k_ary fuel e1 data out days trees).
Notation zero_elements := (zero_elements cpub csec cthr cpt cet stash node two_k_ary fuel e0 data out days trees).
Notation zero_pairs := (zero_pairs cpub csec cthr cpt cet stash node two_k_ary fuel e0 data out days trees).
Definition sizes_ca : SM sys (list Z) :=
  p1 <-- one_elements (deser_node deser_plain) ;; p0 <-- zero_elements ;;
  rand (measured (sizes_of cs rs (ca_handle hash (pa_pk p1) (pa_sk p1) cs ss)
    (all_days cl_finished (ca_client hash (pa_pk p0) (pa_sk p0)) days (client_with (pa_trees p0) days (pa_data p0) 0)) (server_with (pa_trees p1) days (pa_data p1)))).
Definition sizes_psi (dec_string : Z -> string) : SM sys (list Z) :=
  p1 <-- one_elements (deser_node deser_plain) ;; p0 <-- zero_elements ;;
  rand (measured (sizes_of cs rs (psi_handle hash (pa_pk p1) (pa_sk p1) cs ss)
    (all_days cl_finished (psi_client hash (pa_pk p0) (pa_sk p0) dec_string) days (client_with (pa_trees p0) days (pa_data p0) (([], []) : psi_out (Gr := Gr)))) (server_with (pa_trees p1) days (pa_data p1)))).
Definition sizes_sum : SM sys (list Z) :=
  p1 <-- one_elements (deser_node deser_elgamal) ;; p0 <-- zero_pairs sum_payload ;;
  rand (measured (sizes_of cs rs (sum_handle hash (pa_pk p1) (pa_sk p1) cs ss)
    (all_days cl_finished (sum_client hash (pa_pk p0) (pa_sk p0)) days (client_with (pa_trees p0) days (pa_data p0) (0, 0))) (server_with (pa_trees p1) days (pa_data p1)))).
Definition sizes_ss : SM sys (list Z) :=
  p1 <-- one_elements (deser_node deser_paillier) ;; p0 <-- zero_pairs ss_payload ;;
  rand (measured (sizes_of cs rs (ss_handle hash (pa_pk p1) (pa_sk p1) cs ss (pa_n p1) (pa_pai p1) (pa_share p1))
    (all_days cl_finished (ss_client hash (pa_pk p0) (pa_sk p0) (pa_n p0) (pa_pai p0) (pa_share p0)) days (client_with (pa_trees p0) days (pa_data p0) [])) (server_with (pa_trees p1) days (pa_data p1)))).
Definition sizes_original (H : Z -> Gr) (dec_string : Z -> string) : SM sys (list Z) :=
  z <-- og_zero cpub csec cet coprf stash node e0 data out days trees ;;
  o <-- og_one cpub csec cpt stash node e1 data out days trees ;;
  let '(mine0, other0, x0) := snd z in
  let '(mine1, other1, x1) := snd o in
  rand (measured (sizes_of (og_req_size enc) (fun r => bytes_of ServerMessage (to_og_reply enc r)) (og_handle hash H dec_string mine0 other0 x0 (og_req_size enc) (og_reply_size enc))
    (all_days oc_finished (og_client_day hash H other1 mine1 x1) days (fst o)) (fst z))).
Notation start_del_party := (start_del_party cppub cpsec cpt cet stash node two_k_ary fuel).
Variable circuit_input : Z -> outcome (list bool).
Definition sizes_deletion : SM sys (list Z) :=
  p1 <-- start_del_party e1 (p1_dir data) (p1_dir out) days trees ;;
  p0 <-- start_del_party e0 (p0_dir data) (p0_dir out) days trees ;;
  rand (measured (trace_sizes (del_sizes Gr enc hash (dp_pub p1) (dp_pub p0) (dp_priv p0) (dp_priv p1)) (del_day (Gr := Gr) hash circuit_input (dp_pub p1) (dp_pub p0) (dp_priv p0) (dp_priv p1)) days
    (del_start_with (dp_trees p0) (dp_trees p1) (dp_data p0) (dp_data p1)))).
Definition sizes_deletion_psi : SM sys (list Z) :=
  p1 <-- start_del_party e1 (p1_dir data) (p1_dir out) days trees ;;
  p0 <-- start_del_party e0 (p0_dir data) (p0_dir out) days trees ;;
  rand (measured (trace_sizes (psi_sizes Gr enc hash (dp_pub p1) (dp_pub p0) (dp_priv p0) (dp_priv p1)) (PsiModel.psi_day2 (Gr := Gr) hash circuit_input (dp_pub p1) (dp_pub p0) (dp_priv p0) (dp_priv p1)) days
    (psi_start_with stash node (dp_trees p0) (dp_trees p1) (dp_data p0) (dp_data p1)))).

(** C72.  For every file system, every environment of the two processes and all
    coins: the deployed programs end as those with their messages passed directly,
    unless a message is too large. *)
Notation net f := (f enc dec cpub csec cthr cpt cet hash stash node two_k_ary fuel e0 e1 data out days trees).
Notation direct f := (f cpub csec cthr cpt cet hash stash node two_k_ary fuel e0 e1 data out days trees cs ss).
Theorem C72_cardinality : forall s, over_net (sizes_ca s) (direct (@prog_ca Gr) s) (net (@prog_ca_net Gr) s).
Proof.
  intros s. apply over_bind. intros p1 s1. apply over_bind. intros p0 s0. apply over_rand. intros tp.
  eapply (days_direct Gr enc dec enc_dec); [apply np_clean|intros; apply ca_same2|intros; apply np_all].
Qed.
Theorem C72_intersection : forall dec_string s, over_net (sizes_psi dec_string s) (direct (@prog_psi Gr) dec_string s) (net (@prog_psi_net Gr) dec_string s).
Proof.
  intros dec_string s. apply over_bind. intros p1 s1. apply over_bind. intros p0 s0. apply over_rand. intros tp.
  eapply (days_direct Gr enc dec enc_dec); [apply np_clean|intros; apply psi_same2|intros; apply np_all].
Qed.
Theorem C72_sum : forall s, over_net (sizes_sum s) (direct (@prog_sum Gr) s) (net (@prog_sum_net Gr) s).
Proof.
  intros s. apply over_bind. intros p1 s1. apply over_bind. intros p0 s0. apply over_rand. intros tp.
  eapply (days_direct Gr enc dec enc_dec); [apply sum_clean|intros; apply sum_same2|intros; apply sum_all].
Qed.
Theorem C72_shares : forall s, over_net (sizes_ss s) (direct (@prog_ss Gr) s) (net (@prog_ss_net Gr) s).
Proof.
  intros s. apply over_bind. intros p1 s1. apply over_bind. intros p0 s0. apply over_rand. intros tp.
  eapply (days_direct Gr enc dec enc_dec); [apply ss_clean|intros; apply ss_same2|intros; apply ss_all].
Qed.
Theorem C72_original : forall H dec_string s, over_net (sizes_original H dec_string s)
  (prog_original cpub csec cpt cet coprf hash H dec_string stash node (og_req_size enc) (og_reply_size enc) e0 e1 data out days trees s)
  (prog_original_net enc dec cpub csec cpt cet coprf hash stash node e0 e1 data out days trees H dec_string s).
Proof.
  intros H dec_string s. apply over_bind. intros [z [[mine0 other0] x0]] s1. apply over_bind. intros [o [[mine1 other1] x1]] s0. cbn [fst snd]. apply over_rand. intros tp.
  unfold as_direct, og_wired. erewrite against_wire; [|apply C70_network|apply C70_network|apply back_og_req; exact enc_dec|intros; apply back_og_reply; [exact enc_dec|eapply og_replies; eassumption]].
  destruct (none_too_large _); [|reflexivity].
  rewrite (serial_days _ oc_finished _ _ (og_same2 hash H dec_string mine0 other0 mine1 other1 x0 x1 (og_req_size enc) (og_reply_size enc)) days o z tp). unfold against.
  destruct (all_days oc_finished _ days o tp) as [[p tp1]| | |]; try reflexivity. rewrite (serial_ext _ _ (og_all hash H dec_string mine0 other0 x0 (og_req_size enc) (og_reply_size enc))). reflexivity.
Qed.
Lemma trace_over {S} b (d w : M (list S)) (st : S) tp : as_direct b (d tp) (w tp) -> as_direct b ((trace <- d ;; ret (st, trace)) tp) ((trace <- w ;; ret (st, trace)) tp).
Proof. unfold as_direct, bind. intros ->. destruct b; reflexivity. Qed.
Theorem C72_deletion : forall s, over_net (sizes_deletion s)
  (prog_deletion cppub cpsec cpt cet hash stash node two_k_ary fuel circuit_input e0 e1 data out days trees s)
  (prog_deletion_net enc dec cppub cpsec cpt cet hash stash node two_k_ary fuel e0 e1 data out days trees circuit_input s).
Proof.
  intros s. apply over_bind. intros p1 s1. apply over_bind. intros p0 s0. cbv zeta. apply over_rand. intros tp. apply trace_over. apply C71_deletion. exact enc_dec.
Qed.
Theorem C72_deletion_psi : forall s, over_net (sizes_deletion_psi s)
  (prog_deletion_psi cppub cpsec cpt cet hash stash node two_k_ary fuel circuit_input e0 e1 data out days trees s)
  (prog_deletion_psi_net enc dec cppub cpsec cpt cet hash stash node two_k_ary fuel e0 e1 data out days trees circuit_input s).
Proof.
  intros s. apply over_bind. intros p1 s1. apply over_bind. intros p0 s0. cbv zeta. apply over_rand. intros tp. apply trace_over. apply C71_deletion_psi. exact enc_dec.
Qed.
End Messages.

(** ** C72.  What the deployments compute: setup has run, with success and drawing
    different strings, and its files were not changed since; then both programs run
    and talk over the network. *)
Hypotheses (Fpub : faithful cpub) (Fsec : faithful csec) (Fthr : faithful cthr) (Fppub : faithful cppub) (Fpsec : faithful cpsec).
Hypotheses (Fpt : faithful cpt) (Fet : faithful cet) (Foprf : faithful coprf).
Variables e0 e1 : env.
Hypotheses (R0 : reliable e0) (R1 : reliable e1).
Notation set_up := (set_up cpub csec cthr cpt cet hash stash node two_k_ary fuel).
Notation net f data out days trees := (f enc dec cpub csec cthr cpt cet hash stash node two_k_ary fuel e0 e1 data out days trees).
Theorem C72_cardinality_result : forall e data out p q bits days daily start shared max func a s,
  sound_setting (Gr := Gr) hash stash node two_k_ary p q -> set_up e data out p q bits days daily start shared max func a (sy_world s) ->
  ends (fun '(c, sv) => Z.of_nat (cl_day c) = days /\ cl_out c <= an_size a /\ (no_loss (cl_my c) (sv_my sv) -> cl_out c = an_size a))
    (net (@prog_ca_net Gr) data out (Z.to_nat days) (0 <? start) s).
Proof. intros. eapply over_ends; [apply C72_cardinality|]. eapply C67_cardinality; eauto. Qed.
Theorem C72_intersection_result : forall dec_string e data out p q bits days daily start shared max func a s,
  sound_setting (Gr := Gr) hash stash node two_k_ary p q -> set_up e data out p q bits days daily start shared max func a (sy_world s) ->
  ends (fun '(c, sv) => Z.of_nat (cl_day c) = days /\ Z.of_nat (length (snd (cl_out c))) <= an_size a /\ (no_loss (cl_my c) (sv_my sv) -> Z.of_nat (length (snd (cl_out c))) = an_size a))
    (net (@prog_psi_net Gr) data out (Z.to_nat days) (0 <? start) dec_string s).
Proof. intros. eapply over_ends; [apply C72_intersection|]. eapply C67_intersection; eauto. Qed.
Theorem C72_sum_result : forall e data out p q bits days daily start shared max func a s,
  sound_setting (Gr := Gr) hash stash node two_k_ary p q -> set_up e data out p q bits days daily start shared max func a (sy_world s) ->
  func <> SS -> start * max <= 2 ^ 31 -> (start + days * daily) * max <= ord Gr -> days < 2 ^ 31 ->
  ends (fun '(c, sv) => Z.of_nat (cl_day c) = days /\ fst (cl_out c) <= an_size a /\ snd (cl_out c) <= an_sum a
          /\ (no_loss (cl_my c) (sv_my sv) -> fst (cl_out c) = an_size a /\ snd (cl_out c) = an_sum a))
    (net (@prog_sum_net Gr) data out (Z.to_nat days) (0 <? start) s).
Proof. intros. eapply over_ends; [apply C72_sum|]. eapply C67_sum; eauto. Qed.
Theorem C72_shares_result : forall e data out p q bits days daily start shared max a s,
  sound_setting (Gr := Gr) hash stash node two_k_ary p q -> p <> q -> set_up e data out p q bits days daily start shared max SS a (sy_world s) ->
  ends (fun '(c, sv) => Z.of_nat (cl_day c) = days /\ length (sv_shares sv) = length (cl_out c) /\ Z.of_nat (length (cl_out c)) <= an_size a
          /\ (no_loss (cl_my c) (sv_my sv) -> Z.of_nat (length (cl_out c)) = an_size a))
    (net (@prog_ss_net Gr) data out (Z.to_nat days) (0 <? start) s).
Proof. intros. eapply over_ends; [apply C72_shares|]. eapply C67_shares; eauto. Qed.
Theorem C72_original_result : forall H dec_string e data out days daily start shared max expected size s,
  (forall x, length (hash x) = 256%nat) -> 2 * 10 ^ 15 <= ord Gr -> PropsSetup.int32 stash -> PropsSetup.int32 node ->
  og_set_up cpub csec cpt cet coprf hash H dec_string stash node e data out days daily start shared max expected (Some size) (sy_world s) ->
  ends (fun '(c, sv) => Z.of_nat (og_day sv) = days /\ Z.of_nat (length (og_inter sv)) <= size
          /\ (no_overflow (oc_tree c) -> Z.of_nat (length (og_inter sv)) = size))
    (prog_original_net enc dec cpub csec cpt cet coprf hash stash node e0 e1 data out (Z.to_nat days) (0 <? start) H dec_string s).
Proof. intros. eapply over_ends; [apply C72_original|]. eapply C68_announced; eauto. Qed.

Variable circuit_input : Z -> outcome (list bool).
Theorem C72_deletion_result : forall p0 q0 p1 q1 V0 V1 e data out days daily start max func sum sets s,
  del_setting hash stash node two_k_ary p0 q0 p1 q1 V0 V1 days daily start max -> func = CA \/ func = SUM ->
  del_set_up cppub cpsec cpt cet hash stash node two_k_ary p0 q0 p1 q1 e data out days daily start max func sum sets (sy_world s) ->
  exists tree0 tree1 h0 h1, sets_are sets days start tree0 tree1 h0 h1 /\
  let l0 := history_of (rows tree0) h0 in let l1 := history_of (rows tree1) h1 in
  match snd (prog_deletion_net enc dec cppub cpsec cpt cet hash stash node two_k_ary fuel e0 e1 data out (Z.to_nat days) (0 <? start) circuit_input s) with
  | Ok ((c0, s0, _), trace) => Z.of_nat (length trace) = days /\
      (start = 0 -> DelSpec.holds (pt_my (dc_party c0)) (upto 1 l0) /\ DelSpec.holds (pt_my (ds_party s0)) (upto 1 l1)) /\
      forall j c sv rounds, nth_error trace j = Some (c, sv, rounds) ->
        DelSpec.holds (pt_my (dc_party c0)) (upto 1 l0) -> DelSpec.holds (pt_my (ds_party s0)) (upto 1 l1) ->
        (forall i st, (i <= j)%nat -> nth_error trace i = Some st -> lucky_day circuit_input p0 q0 p1 q1 l0 l1 (S i) st) ->
        dc_result c = (score func (held_after (rows tree0) (firstn (S j) h0)) (held_after (rows tree1) (firstn (S j) h1)) - score func (rows tree0) (rows tree1)) mod 2 ^ 64 /\
        (Z.of_nat (S j) = days -> dc_result c = sum mod 2 ^ 64)
  | Err _ => True
  | _ => ~ forall x, returns (circuit_input x)
  end.
Proof.
  intros p0 q0 p1 q1 V0 V1 e data out days daily start max func sum sets s DS FN SU.
  destruct (C69_change_of_result cppub cpsec cpt cet hash stash node two_k_ary fuel Fppub Fpsec Fpt Fet e0 e1 R0 R1 circuit_input _ _ _ _ _ _ _ _ _ _ _ _ _ _ _ _ s DS FN SU) as (t0 & t1 & h0 & h1 & SA & X).
  exists t0, t1, h0, h1. split; [exact SA|]. cbv zeta in X |- *.
  destruct (over_outcome _ _ _ (C72_deletion e0 e1 data out (Z.to_nat days) (0 <? start) circuit_input s)) as [E|E]; rewrite E; [exact X|exact I].
Qed.
(** ... without --import *)
Theorem C72_deletion_not_imported : forall p0 q0 p1 q1 V0 V1 e data out days daily start max func sum sets s,
  del_setting hash stash node two_k_ary p0 q0 p1 q1 V0 V1 days daily start max ->
  del_set_up cppub cpsec cpt cet hash stash node two_k_ary p0 q0 p1 q1 e data out days daily start max func sum sets (sy_world s) ->
  exists tree0 tree1 h0 h1, sets_are sets days start tree0 tree1 h0 h1 /\
  let d0 := map (fun day => map as_number (DataSpec.written day)) h0 in let d1 := map (fun day => map as_number (DataSpec.written day)) h1 in
  match snd (prog_deletion_net enc dec cppub cpsec cpt cet hash stash node two_k_ary fuel e0 e1 data out (Z.to_nat days) false circuit_input s) with
  | Ok (_, trace) => Z.of_nat (length trace) = days /\
      forall j c sv rounds, nth_error trace j = Some (c, sv, rounds) ->
        (forall i st, (i <= j)%nat -> nth_error trace i = Some st -> lucky_day circuit_input p0 q0 p1 q1 d0 d1 i st) ->
        dc_result c = inner (upto (S j) d0) (upto (S j) d1) mod 2 ^ 64
  | Err _ => True
  | _ => ~ forall x, returns (circuit_input x)
  end.
Proof.
  intros p0 q0 p1 q1 V0 V1 e data out days daily start max func sum sets s DS SU.
  destruct (C69_not_imported cppub cpsec cpt cet hash stash node two_k_ary fuel Fppub Fpsec Fpt Fet e0 e1 R0 R1 circuit_input _ _ _ _ _ _ _ _ _ _ _ _ _ _ _ _ s DS SU) as (t0 & t1 & h0 & h1 & SA & X).
  exists t0, t1, h0, h1. split; [exact SA|]. cbv zeta in X |- *.
  destruct (over_outcome _ _ _ (C72_deletion e0 e1 data out (Z.to_nat days) false circuit_input s)) as [E|E]; rewrite E; [exact X|exact I].
Qed.
Theorem C72_deletion_psi_result : forall p0 q0 p1 q1 V0 V1 e data out days daily start max sum sets s,
  del_setting hash stash node two_k_ary p0 q0 p1 q1 V0 V1 days daily start max -> 2 ^ 65 <= p0 * q0 -> 2 ^ 65 <= p1 * q1 ->
  del_set_up cppub cpsec cpt cet hash stash node two_k_ary p0 q0 p1 q1 e data out days daily start max PSI sum sets (sy_world s) ->
  exists tree0 tree1 h0 h1, sets_are sets days start tree0 tree1 h0 h1 /\
  (no_zero_element tree0 h0 -> no_zero_element tree1 h1 ->
  let l0 := history_of (rows tree0) h0 in let l1 := history_of (rows tree1) h1 in
  let meet := meet_after tree0 tree1 h0 h1 in
  forall c0 s0 di0 trace, snd (prog_deletion_psi_net enc dec cppub cpsec cpt cet hash stash node two_k_ary fuel e0 e1 data out (Z.to_nat days) (0 <? start) circuit_input s) = Ok ((c0, s0, di0), trace) ->
  Z.of_nat (length trace) = days /\ (start = 0 -> DelSpec.holds (PsiModel.pg_my (PsiModel.ps_party s0)) (upto 1 l1)) /\
  forall j c sv di, nth_error trace j = Some (c, sv, di) -> DelSpec.holds (PsiModel.pg_my (PsiModel.ps_party s0)) (upto 1 l1) ->
    (forall i st, (i <= j)%nat -> nth_error trace i = Some st -> lucky_psi_day circuit_input p0 q0 p1 q1 l0 l1 (S i) st) ->
    PsiModel.pc_result c = (Z.of_nat (length (meet (S j))) - Z.of_nat (length (meet 0%nat))) mod 2 ^ 64 /\
    (Z.of_nat (S j) = days -> PsiModel.pc_result c = sum mod 2 ^ 64) /\
    signed_change (PsiModel.pc_set c) (meet (S j)) (meet 0%nat) /\
    (start = 0 -> same_set (PsiModel.pc_set c) (meet (S j)))).
Proof.
  intros p0 q0 p1 q1 V0 V1 e data out days daily start max sum sets s DS N0 N1 SU.
  destruct (C69_psi cppub cpsec cpt cet hash stash node two_k_ary fuel Fppub Fpsec Fpt Fet e0 e1 R0 R1 circuit_input _ _ _ _ _ _ _ _ _ _ _ _ _ _ _ s DS N0 N1 SU) as (t0 & t1 & h0 & h1 & SA & X).
  exists t0, t1, h0, h1. split; [exact SA|]. intros Z0 Z1. specialize (X Z0 Z1). cbv zeta in X |- *. intros c0 s0 di0 trace EQ.
  destruct (over_outcome _ _ _ (C72_deletion_psi e0 e1 data out (Z.to_nat days) (0 <? start) circuit_input s)) as [E|E]; rewrite E in EQ; [exact (X _ _ _ _ EQ)|discriminate].
Qed.
(** ... and it crashes only in the way of C22_no_crash: on a set that contains 2^63 *)
Theorem C72_deletion_psi_no_crash : forall p0 q0 p1 q1 V0 V1 e data out days daily start max sum sets s,
  del_setting hash stash node two_k_ary p0 q0 p1 q1 V0 V1 days daily start max -> 2 ^ 65 <= p0 * q0 -> 2 ^ 65 <= p1 * q1 -> (forall x, returns (circuit_input x)) ->
  del_set_up cppub cpsec cpt cet hash stash node two_k_ary p0 q0 p1 q1 e data out days daily start max PSI sum sets (sy_world s) ->
  exists tree0 tree1 h0 h1, sets_are sets days start tree0 tree1 h0 h1 /\
  (no_zero_element tree0 h0 -> no_zero_element tree1 h1 ->
  let l0 := history_of (rows tree0) h0 in let l1 := history_of (rows tree1) h1 in
  let n := Z.to_nat days in let import := 0 <? start in
  match snd (prog_deletion_psi_net enc dec cppub cpsec cpt cet hash stash node two_k_ary fuel e0 e1 data out n import circuit_input s) with
  | Ok _ | Err _ => True
  | Abort => False
  | UB => exists s1 s2 one zero,
      start_del_party cppub cpsec cpt cet stash node two_k_ary fuel e1 (p1_dir data) (p1_dir out) n import s = (s1, Ok one) /\
      start_del_party cppub cpsec cpt cet stash node two_k_ary fuel e0 (p0_dir data) (p0_dir out) n import s1 = (s2, Ok zero) /\
      let st := psi_start_with stash node (dp_trees zero) (dp_trees one) (dp_data zero) (dp_data one) in
      (DelSpec.holds (PsiModel.pg_my (PsiModel.ps_party (snd (fst st)))) (upto 1 l1) ->
       stopped_by_2_63 (Gr := Gr) hash circuit_input (dp_pub one) (dp_pub zero) (dp_priv zero) (dp_priv one)
         (fun i day => lucky_psi_day circuit_input p0 q0 p1 q1 l0 l1 (S i) day) n st (sy_coins s2))
  end).
Proof.
  intros p0 q0 p1 q1 V0 V1 e data out days daily start max sum sets s DS N0 N1 CI SU.
  destruct (C69_psi_no_crash cppub cpsec cpt cet hash stash node two_k_ary fuel Fppub Fpsec Fpt Fet e0 e1 R0 R1 circuit_input _ _ _ _ _ _ _ _ _ _ _ _ _ _ _ s DS N0 N1 CI SU) as (t0 & t1 & h0 & h1 & SA & X).
  exists t0, t1, h0, h1. split; [exact SA|]. intros Z0 Z1. specialize (X Z0 Z1). cbv zeta in X |- *.
  destruct (over_outcome _ _ _ (C72_deletion_psi e0 e1 data out (Z.to_nat days) (0 <? start) circuit_input s)) as [E|E]; rewrite E; [exact X|exact I].
Qed.
End Statements.

(** C72.  With protobuf's bytes in the files too (C70): every file and every message
    of a deployment. *)
Theorem C72_protobuf : forall (Gr : group) (enc : wpoint Gr -> bytes) (dec : bytes -> wpoint Gr), (forall w, dec (enc w) = w) ->
  forall jpub jsec jthr jpt jet,
  exists (cpub : codec (pub_msg (Gr := Gr))) csec cthr cpt cet,
  is_protobuf cpub ElGamalPublicKey (to_pub enc) (of_pub dec) jpub (fun _ => True) /\ is_protobuf csec ElGamalSecretKey to_sec get jsec (fun _ => True) /\
  is_protobuf cthr ThresholdPaillierKey to_thr of_thr jthr (fun _ => True) /\
  is_protobuf cpt PlaintextTree (to_tree to_pnode) (of_tree of_pnode) jpt (fun f => Forall int32_node (f_nodes f) /\ int32_tree f) /\
  is_protobuf cet EncryptedTree (to_tree (map (to_welem enc))) (of_tree (map (of_welem dec))) jet int32_tree /\
  forall hash stash node two_k_ary fuel e e0 e1 data out p q bits days daily start shared max func a s,
  reliable e0 -> reliable e1 -> sound_setting (Gr := Gr) hash stash node two_k_ary p q ->
  set_up cpub csec cthr cpt cet hash stash node two_k_ary fuel e data out p q bits days daily start shared max func a (sy_world s) ->
  ends (fun '(c, sv) => Z.of_nat (cl_day c) = days /\ cl_out c <= an_size a /\ (no_loss (cl_my c) (sv_my sv) -> cl_out c = an_size a))
    (prog_ca_net enc dec cpub csec cthr cpt cet hash stash node two_k_ary fuel e0 e1 data out (Z.to_nat days) (0 <? start) s).
Proof.
  intros Gr enc dec ED jpub jsec jthr jpt jet.
  destruct (C70_faithful_codecs enc dec ED jpub jsec jthr (fun _ => (None, None)) (fun _ => (None, (None, None))) (fun _ => (None, None)) jpt jet (fun _ => [])) as ((c1 & F1 & P1) & (c2 & F2 & P2) & (c3 & F3 & P3) & _ & _ & _ & (c4 & F4 & P4) & (c5 & F5 & P5) & _).
  exists c1, c2, c3, c4, c5. split; [exact P1|]. split; [exact P2|]. split; [exact P3|]. split; [exact P4|]. split; [exact P5|].
  intros. eapply C72_cardinality_result; eauto.
Qed.

(** ** Examples: the deployment of ex_C67 over the network, with messages of up to
    999 bytes *)
Example ex_C72 : ex_program 0 CA (fun a s =>
  let sizes := sizes_ca ex_enc ex_pub ex_sec ex_thr ex_pt ex_et ex_bits 2 2 false 5 ex_env ex_env ex_data ex_out 1 false s in
  match prog_ca_net ex_enc ex_dec ex_pub ex_sec ex_thr ex_pt ex_et ex_bits 2 2 false 5 ex_env ex_env ex_data ex_out 1 false s with
  | (_, Ok (c, sv)) => (cl_out c =? an_size a) && (0 <? an_size a) && (cl_day c =? 1)%nat
  | _ => false end &&
  match snd sizes with Ok l => (length l =? 2)%nat && forallb (fun n => (0 <? n) && (n <? 1000)) l | _ => false end) = true.
Proof. vm_cast_no_check (eq_refl true). Qed.
Example ex_C72_dec : forall w, ex_dec (ex_enc w) = w.
Proof. exact ex_enc_dec. Qed.

Print Assumptions C72_cardinality.
Print Assumptions C72_intersection.
Print Assumptions C72_sum.
Print Assumptions C72_shares.
Print Assumptions C72_original.
Print Assumptions C72_deletion.
Print Assumptions C72_deletion_psi.
Print Assumptions C72_cardinality_result.
Print Assumptions C72_intersection_result.
Print Assumptions C72_sum_result.
Print Assumptions C72_shares_result.
Print Assumptions C72_original_result.
Print Assumptions C72_deletion_result.
Print Assumptions C72_deletion_not_imported.
Print Assumptions C72_deletion_psi_result.
Print Assumptions C72_deletion_psi_no_crash.
Print Assumptions C72_protobuf.
