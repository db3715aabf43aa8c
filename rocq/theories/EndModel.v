(** * The programs of all protocols as they are deployed: every file as in
    ProgModel, OrigProgModel and DelProgModel, every message as in NetModel.

    addition/run.cc, original/run.cc, deletion/run.cc and deletion-psi/run.cc, both
    parties: the start of each party as modelled there, then the client's Run
    against the server's Handle over serialized messages (NetModel.over_wire), with
    each party's own keys.  [enc], [dec]: the bytes of a point.  Simplifications:
    as in those files; the two processes meet once both have started, and the
    garbled circuits of the deletion protocols talk over their own connection
    (DelModel). *)
Require Import String.
Require Import List Arith Lia ZArith Bool.
Import ListNotations.
From Verif Require Import Prelude TreeModel TreeDelModel Coins Group ElGamalModel BytesModel CipherModel PaillierModel WireModel SyncModel CsvModel DataModel AddModel SetupModel FileModel KeyModel DeployModel OrigModel OrigSetupModel DelModel DelSetupModel OnceModel ProtoModel ProtoCodec NetModel ProgModel OrigProgModel DelProgModel.
From Verif Require PsiModel.
Local Open Scope Z_scope.

Section End.
Context {Gr : group}.
Variables (enc : wpoint Gr -> bytes) (dec : bytes -> wpoint Gr).
Variables (cpub : codec (pub_msg (Gr := Gr))) (csec : codec sec_msg) (cthr : codec thr_msg) (cppub : codec ppub_msg) (cpsec : codec psec_msg).
Variables (cpt : codec (tree_file pnode)) (cet : codec (tree_file (list (welem Gr)))) (coprf : codec (list (string * wpoint Gr))).
Variable hash : Z -> list bool.
Variables stash node : nat.
Variable two_k_ary : bool.
Variable fuel : nat.
Variables e0 e1 : env.
Variables (data out : bytes) (days : nat) (trees : bool).
Notation cs := (client_size enc).
Notation ss := (server_size enc).
Notation one_elements := (one_elements cpub csec cthr cpt cet stash node two_k_ary fuel e1 data out days trees).
Notation zero_elements := (zero_elements cpub csec cthr cpt cet stash node two_k_ary fuel e0 data out days trees).
Notation zero_pairs := (zero_pairs cpub csec cthr cpt cet stash node two_k_ary fuel e0 data out days trees).

(** ** upsi/addition, one definition per --func: addition/run.cc:44-105 (party zero)
    and 106-181 (party one) *)
Definition prog_ca_net : SM sys (client Gr Z Z * server (ct Gr)) :=
  p1 <-- one_elements (deser_node deser_plain) ;; p0 <-- zero_elements ;;
  rand (against (wired enc dec (ca_handle hash (pa_pk p1) (pa_sk p1) cs ss))
    (all_days cl_finished (ca_client hash (pa_pk p0) (pa_sk p0)) days (client_with (pa_trees p0) days (pa_data p0) 0))
    (server_with (pa_trees p1) days (pa_data p1))).
Definition prog_psi_net (dec_string : Z -> string) : SM sys (client Gr Z (psi_out (Gr := Gr)) * server (ct Gr)) :=
  p1 <-- one_elements (deser_node deser_plain) ;; p0 <-- zero_elements ;;
  rand (against (wired enc dec (psi_handle hash (pa_pk p1) (pa_sk p1) cs ss))
    (all_days cl_finished (psi_client hash (pa_pk p0) (pa_sk p0) dec_string) days (client_with (pa_trees p0) days (pa_data p0) (([], []) : psi_out (Gr := Gr))))
    (server_with (pa_trees p1) days (pa_data p1))).
Definition prog_sum_net : SM sys (client Gr (Z * Z) (Z * Z) * server (ct Gr * ct Gr)) :=
  p1 <-- one_elements (deser_node deser_elgamal) ;; p0 <-- zero_pairs sum_payload ;;
  rand (against (wired enc dec (sum_handle hash (pa_pk p1) (pa_sk p1) cs ss))
    (all_days cl_finished (sum_client hash (pa_pk p0) (pa_sk p0)) days (client_with (pa_trees p0) days (pa_data p0) (0, 0)))
    (server_with (pa_trees p1) days (pa_data p1))).
Definition prog_ss_net : SM sys (client Gr (Z * Z) (list Z) * server (ct Gr * Z)) :=
  p1 <-- one_elements (deser_node deser_paillier) ;; p0 <-- zero_pairs ss_payload ;;
  rand (against (wired enc dec (ss_handle hash (pa_pk p1) (pa_sk p1) cs ss (pa_n p1) (pa_pai p1) (pa_share p1)))
    (all_days cl_finished (ss_client hash (pa_pk p0) (pa_sk p0) (pa_n p0) (pa_pai p0) (pa_share p0)) days (client_with (pa_trees p0) days (pa_data p0) []))
    (server_with (pa_trees p1) days (pa_data p1))).

(** ** upsi/original: original/run.cc:45-100 (party zero, the server) and 105-150 *)
Definition prog_original_net (H : Z -> Gr) (dec_string : Z -> string) : SM sys (og_client * og_server Gr) :=
  z <-- og_zero cpub csec cet coprf stash node e0 data out days trees ;;
  o <-- og_one cpub csec cpt stash node e1 data out days trees ;;
  let '(mine0, other0, x0) := snd z in
  let '(mine1, other1, x1) := snd o in
  rand (against (og_wired enc dec (og_handle hash H dec_string mine0 other0 x0 (og_req_size enc) (og_reply_size enc)))
    (all_days oc_finished (og_client_day hash H other1 mine1 x1) days (fst o)) (fst z)).

(** ** upsi/deletion: deletion/run.cc:51-146 (party zero) and 147-230; and
    upsi/deletion-psi: deletion-psi/run.cc *)
Notation start_del_party := (start_del_party cppub cpsec cpt cet stash node two_k_ary fuel).
Variable circuit_input : Z -> outcome (list bool).
Definition prog_deletion_net : SM sys ((dclient * dserver * (round * round)) * list (dclient * dserver * (round * round))) :=
  p1 <-- start_del_party e1 (p1_dir data) (p1_dir out) days trees ;;
  p0 <-- start_del_party e0 (p0_dir data) (p0_dir out) days trees ;;
  let st := del_start_with (dp_trees p0) (dp_trees p1) (dp_data p0) (dp_data p1) in
  rand (trace <- run_trace (del_day_wired enc dec hash circuit_input (dp_pub p1) (dp_pub p0) (dp_priv p0) (dp_priv p1)) days st ;; ret (st, trace)).
Definition prog_deletion_psi_net : SM sys ((PsiModel.pclient * PsiModel.pserver * PsiModel.day_info) * list (PsiModel.pclient * PsiModel.pserver * PsiModel.day_info)) :=
  p1 <-- start_del_party e1 (p1_dir data) (p1_dir out) days trees ;;
  p0 <-- start_del_party e0 (p0_dir data) (p0_dir out) days trees ;;
  let st := psi_start_with stash node (dp_trees p0) (dp_trees p1) (dp_data p0) (dp_data p1) in
  rand (trace <- run_trace (psi_day_wired enc dec hash circuit_input (dp_pub p1) (dp_pub p0) (dp_priv p0) (dp_priv p1)) days st ;; ret (st, trace)).
End End.
