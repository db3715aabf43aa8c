(** * C72: all the deployments, with protobuf's bytes in every file and message.

    C72_protobuf (PropsEnd.v) says this of the cardinality protocol; here the same
    codecs serve every protocol. *)
Require Import String.
Require Import List Arith Lia ZArith Bool Znumtheory.
Import ListNotations.
From Verif Require Import Prelude TreeModel TreeDelModel TreeSpec Coins Group ElGamalModel BytesModel CipherModel PaillierModel PropsPaillier WireModel SyncModel SyncSpec PropsSync FlagModel CsvModel DataModel DataSpec PropsData AddModel AddSpec PropsAdd DelModel DelSpec PropsDel PsiSpec PsiSets PropsPsi SetupModel PropsSetup FileModel FileSpec PropsFile KeyModel KeyProofs PropsKeys DeployModel PropsDeploy OrigModel PropsOrig OrigSetupModel PropsOrigSetup DelSetupModel PropsDelSetup ProtoModel ProtoCodec PropsProto PropsCodec OnceModel OnceProofs OnceRun NetModel PropsNet ProgModel PropsProg OrigProgModel PropsOrigProg DelProgModel PropsDelProg PropsPsiCrash PropsDelCrash EndModel PropsEnd.
From Verif Require PsiModel.
Local Open Scope Z_scope.

(** ** Specification *)
(** the codecs write and parse the bytes of protobuf's messages: keys, trees and the
    table of OPRF values *)
Definition protobuf_files {Gr : group} (enc : wpoint Gr -> bytes) (dec : bytes -> wpoint Gr) cpub csec cthr cppub cpsec cpt cet coprf jpub jsec jthr jppub jpsec jpt jet joprf : Prop :=
  is_protobuf cpub ElGamalPublicKey (to_pub enc) (of_pub dec) jpub (fun _ => True) /\ is_protobuf csec ElGamalSecretKey to_sec get jsec (fun _ => True) /\
  is_protobuf cthr ThresholdPaillierKey to_thr of_thr jthr (fun _ => True) /\
  is_protobuf cppub PaillierPublicKey to_ppub of_ppub jppub (fun m => int32 (snd m)) /\ is_protobuf cpsec PaillierPrivateKey to_psec of_psec jpsec (fun m => int32 (snd m)) /\
  is_protobuf cpt PlaintextTree (to_tree to_pnode) (of_tree of_pnode) jpt (fun f => Forall int32_node (f_nodes f) /\ int32_tree f) /\
  is_protobuf cet EncryptedTree (to_tree (map (to_welem enc))) (of_tree (map (of_welem dec))) jet int32_tree /\
  is_protobuf coprf OPRF (map (to_kv enc)) (map (of_kv dec)) joprf (fun _ => True).

(** C72.  For every serialization of points that can be read back there are codecs
    with protobuf's bytes such that every protocol's deployment, with all its files
    and all its messages as bytes, computes what C72 says. *)
Theorem C72_protobuf_all : forall (Gr : group) (enc : wpoint Gr -> bytes) (dec : bytes -> wpoint Gr), (forall w, dec (enc w) = w) ->
  forall jpub jsec jthr jppub jpsec jpt jet joprf,
  exists (cpub : codec (pub_msg (Gr := Gr))) csec cthr cppub cpsec cpt cet coprf,
  protobuf_files enc dec cpub csec cthr cppub cpsec cpt cet coprf jpub jsec jthr jppub jpsec jpt jet joprf /\
  forall hash stash node two_k_ary fuel e0 e1, reliable e0 -> reliable e1 ->
  let set_up := set_up cpub csec cthr cpt cet hash stash node two_k_ary fuel in
  (** the intersection *)
  (forall dec_string e data out p q bits days daily start shared max func a s,
    sound_setting (Gr := Gr) hash stash node two_k_ary p q -> set_up e data out p q bits days daily start shared max func a (sy_world s) ->
    ends (fun '(c, sv) => Z.of_nat (cl_day c) = days /\ Z.of_nat (length (snd (cl_out c))) <= an_size a /\ (no_loss (cl_my c) (sv_my sv) -> Z.of_nat (length (snd (cl_out c))) = an_size a))
      (prog_psi_net enc dec cpub csec cthr cpt cet hash stash node two_k_ary fuel e0 e1 data out (Z.to_nat days) (0 <? start) dec_string s)) /\
  (** its sum *)
  (forall e data out p q bits days daily start shared max func a s,
    sound_setting (Gr := Gr) hash stash node two_k_ary p q -> set_up e data out p q bits days daily start shared max func a (sy_world s) ->
    func <> SS -> start * max <= 2 ^ 31 -> (start + days * daily) * max <= ord Gr -> days < 2 ^ 31 ->
    ends (fun '(c, sv) => Z.of_nat (cl_day c) = days /\ fst (cl_out c) <= an_size a /\ snd (cl_out c) <= an_sum a
            /\ (no_loss (cl_my c) (sv_my sv) -> fst (cl_out c) = an_size a /\ snd (cl_out c) = an_sum a))
      (prog_sum_net enc dec cpub csec cthr cpt cet hash stash node two_k_ary fuel e0 e1 data out (Z.to_nat days) (0 <? start) s)) /\
  (** its size as shares *)
  (forall e data out p q bits days daily start shared max a s,
    sound_setting (Gr := Gr) hash stash node two_k_ary p q -> p <> q -> set_up e data out p q bits days daily start shared max SS a (sy_world s) ->
    ends (fun '(c, sv) => Z.of_nat (cl_day c) = days /\ length (sv_shares sv) = length (cl_out c) /\ Z.of_nat (length (cl_out c)) <= an_size a
            /\ (no_loss (cl_my c) (sv_my sv) -> Z.of_nat (length (cl_out c)) = an_size a))
      (prog_ss_net enc dec cpub csec cthr cpt cet hash stash node two_k_ary fuel e0 e1 data out (Z.to_nat days) (0 <? start) s)) /\
  (** the original protocol *)
  (forall H dec_string e data out days daily start shared max expected size s,
    (forall x, length (hash x) = 256%nat) -> 2 * 10 ^ 15 <= ord Gr -> PropsSetup.int32 stash -> PropsSetup.int32 node ->
    og_set_up cpub csec cpt cet coprf hash H dec_string stash node e data out days daily start shared max expected (Some size) (sy_world s) ->
    ends (fun '(c, sv) => Z.of_nat (og_day sv) = days /\ Z.of_nat (length (og_inter sv)) <= size
            /\ (no_overflow (oc_tree c) -> Z.of_nat (length (og_inter sv)) = size))
      (prog_original_net enc dec cpub csec cpt cet coprf hash stash node e0 e1 data out (Z.to_nat days) (0 <? start) H dec_string s)) /\
  (** with deletion: cardinality and sum *)
  (forall circuit_input, forall p0 q0 p1 q1 V0 V1 e data out days daily start max func sum sets s,
    del_setting hash stash node two_k_ary p0 q0 p1 q1 V0 V1 days daily start max -> func = CA \/ func = SUM ->
    del_set_up cppub cpsec cpt cet hash stash node two_k_ary p0 q0 p1 q1 e data out days daily start max func sum sets (sy_world s) ->
    exists tree0 tree1 h0 h1, sets_are sets days start tree0 tree1 h0 h1 /\
    let l0 := history_of (rows tree0) h0 in let l1 := history_of (rows tree1) h1 in
    match snd (prog_deletion_net enc dec cppub cpsec cpt cet hash stash node two_k_ary fuel e0 e1 data out (Z.to_nat days) (0 <? start) circuit_input s) with
    | Ok ((c0, s0, _), trace) => Z.of_nat (length trace) = days /\
        (start = 0 -> DelSpec.holds (pt_my (dc_party c0)) (upto 1 l0) /\ DelSpec.holds (pt_my (ds_party s0)) (upto 1 l1)) /\
        forall j c sv rounds, nth_error trace j = Some (c, sv, rounds) ->
          DelSpec.holds (pt_my (dc_party c0)) (upto 1 l0) -> DelSpec.holds (pt_my (ds_party s0)) (upto 1 l1) ->
          (forall i st, (i <= j)%nat -> nth_error trace i = Some st -> lucky_day circuit_input p0 q0 p1 q1 l0 l1 (S i) st) ->
          dc_result c = (score func (held_after (rows tree0) (firstn (S j) h0)) (held_after (rows tree1) (firstn (S j) h1)) - score func (rows tree0) (rows tree1)) mod 2 ^ 64 /\
          (Z.of_nat (S j) = days -> dc_result c = sum mod 2 ^ 64)
    | Err _ => True
    | _ => ~ forall x, returns (circuit_input x)
    end) /\
  (** ... without --import *)
  (forall circuit_input, forall p0 q0 p1 q1 V0 V1 e data out days daily start max func sum sets s,
    del_setting hash stash node two_k_ary p0 q0 p1 q1 V0 V1 days daily start max ->
    del_set_up cppub cpsec cpt cet hash stash node two_k_ary p0 q0 p1 q1 e data out days daily start max func sum sets (sy_world s) ->
    exists tree0 tree1 h0 h1, sets_are sets days start tree0 tree1 h0 h1 /\
    let d0 := map (fun day => map as_number (DataSpec.written day)) h0 in let d1 := map (fun day => map as_number (DataSpec.written day)) h1 in
    match snd (prog_deletion_net enc dec cppub cpsec cpt cet hash stash node two_k_ary fuel e0 e1 data out (Z.to_nat days) false circuit_input s) with
    | Ok (_, trace) => Z.of_nat (length trace) = days /\
        forall j c sv rounds, nth_error trace j = Some (c, sv, rounds) ->
          (forall i st, (i <= j)%nat -> nth_error trace i = Some st -> lucky_day circuit_input p0 q0 p1 q1 d0 d1 i st) ->
          dc_result c = inner (upto (S j) d0) (upto (S j) d1) mod 2 ^ 64
    | Err _ => True
    | _ => ~ forall x, returns (circuit_input x)
    end) /\
  (** ... the intersection *)
  (forall circuit_input, forall p0 q0 p1 q1 V0 V1 e data out days daily start max sum sets s,
    del_setting hash stash node two_k_ary p0 q0 p1 q1 V0 V1 days daily start max -> 2 ^ 65 <= p0 * q0 -> 2 ^ 65 <= p1 * q1 ->
    del_set_up cppub cpsec cpt cet hash stash node two_k_ary p0 q0 p1 q1 e data out days daily start max PSI sum sets (sy_world s) ->
    exists tree0 tree1 h0 h1, sets_are sets days start tree0 tree1 h0 h1 /\
    (no_zero_element tree0 h0 -> no_zero_element tree1 h1 ->
    let l0 := history_of (rows tree0) h0 in let l1 := history_of (rows tree1) h1 in
    let meet := meet_after tree0 tree1 h0 h1 in
    forall c0 s0 di0 trace, snd (prog_deletion_psi_net enc dec cppub cpsec cpt cet hash stash node two_k_ary fuel e0 e1 data out (Z.to_nat days) (0 <? start) circuit_input s) = Ok ((c0, s0, di0), trace) ->
    Z.of_nat (length trace) = days /\ (start = 0 -> DelSpec.holds (PsiModel.pg_my (PsiModel.ps_party s0)) (upto 1 l1)) /\
    forall j c sv di, nth_error trace j = Some (c, sv, di) -> DelSpec.holds (PsiModel.pg_my (PsiModel.ps_party s0)) (upto 1 l1) ->
      (forall i st, (i <= j)%nat -> nth_error trace i = Some st -> lucky_psi_day circuit_input p0 q0 p1 q1 l0 l1 (S i) st) ->
      PsiModel.pc_result c = (Z.of_nat (length (meet (S j))) - Z.of_nat (length (meet 0%nat))) mod 2 ^ 64 /\
      (Z.of_nat (S j) = days -> PsiModel.pc_result c = sum mod 2 ^ 64) /\
      signed_change (PsiModel.pc_set c) (meet (S j)) (meet 0%nat) /\
      (start = 0 -> same_set (PsiModel.pc_set c) (meet (S j))))) /\
  (** ... and its crashes *)
  (forall circuit_input, forall p0 q0 p1 q1 V0 V1 e data out days daily start max sum sets s,
    del_setting hash stash node two_k_ary p0 q0 p1 q1 V0 V1 days daily start max -> 2 ^ 65 <= p0 * q0 -> 2 ^ 65 <= p1 * q1 -> (forall x, returns (circuit_input x)) ->
    del_set_up cppub cpsec cpt cet hash stash node two_k_ary p0 q0 p1 q1 e data out days daily start max PSI sum sets (sy_world s) ->
    exists tree0 tree1 h0 h1, sets_are sets days start tree0 tree1 h0 h1 /\
    (no_zero_element tree0 h0 -> no_zero_element tree1 h1 ->
    let l0 := history_of (rows tree0) h0 in let l1 := history_of (rows tree1) h1 in
    let n := Z.to_nat days in let import := 0 <? start in
    match snd (prog_deletion_psi_net enc dec cppub cpsec cpt cet hash stash node two_k_ary fuel e0 e1 data out n import circuit_input s) with
    | Ok _ | Err _ => True
    | Abort => False
    | UB => exists s1 s2 one zero,
        start_del_party cppub cpsec cpt cet stash node two_k_ary fuel e1 (p1_dir data) (p1_dir out) n import s = (s1, Ok one) /\
        start_del_party cppub cpsec cpt cet stash node two_k_ary fuel e0 (p0_dir data) (p0_dir out) n import s1 = (s2, Ok zero) /\
        let st := psi_start_with stash node (dp_trees zero) (dp_trees one) (dp_data zero) (dp_data one) in
        (DelSpec.holds (PsiModel.pg_my (PsiModel.ps_party (snd (fst st)))) (upto 1 l1) ->
         stopped_by_2_63 (Gr := Gr) hash circuit_input (dp_pub one) (dp_pub zero) (dp_priv zero) (dp_priv one)
           (fun i day => lucky_psi_day circuit_input p0 q0 p1 q1 l0 l1 (S i) day) n st (sy_coins s2))
    end)).
Proof.
  intros Gr enc dec ED jpub jsec jthr jppub jpsec jpt jet joprf.
  destruct (C70_faithful_codecs enc dec ED jpub jsec jthr jppub jpsec (fun _ => (None, None)) jpt jet joprf) as ((c1 & F1 & P1) & (c2 & F2 & P2) & (c3 & F3 & P3) & (c6 & F6 & P6) & (c7 & F7 & P7) & _ & (c4 & F4 & P4) & (c5 & F5 & P5) & (c8 & F8 & P8)).
  exists c1, c2, c3, c6, c7, c4, c5, c8. split; [repeat split; auto; first [apply P1|apply P2|apply P3|apply P4|apply P5|apply P6|apply P7|apply P8]|].
  intros hash stash node two_k_ary fuel e0 e1 R0 R1. cbv zeta.
  split; [intros; eapply C72_intersection_result; eauto|]. split; [intros; eapply C72_sum_result; eauto|]. split; [intros; eapply C72_shares_result; eauto|].
  split; [intros; eapply C72_original_result; eauto|]. split; [intros; eapply C72_deletion_result; eauto|]. split; [intros; eapply C72_deletion_not_imported; eauto|].
  split; [intros; eapply C72_deletion_psi_result; eauto|intros; eapply C72_deletion_psi_no_crash; eauto].
Qed.
