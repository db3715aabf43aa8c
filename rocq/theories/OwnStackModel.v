(** * The deletion deployments of OwnModel with limited stack.

    As OwnModel, with the circuits of StackModel: each process has [room] bytes of
    stack left whenever it calls GarbledCircuit(bool) (deletion/party.h:179, 186 and
    222, deletion-psi/party.h:186, 202 and 250).  Simplifications: as in those two
    files. *)
Require Import List Arith Lia ZArith Bool.
Import ListNotations.
From Verif Require Import Prelude TreeModel TreeDelModel Coins Group ElGamalModel BytesModel CipherModel PaillierModel WireModel SyncModel CsvModel DataModel AddModel SetupModel FileModel KeyModel DeployModel DelModel DelSetupModel ProtoModel ProtoCodec NetModel ProgModel DelProgModel PsiModel GcModel StackModel OwnModel.
Local Open Scope Z_scope.

Section Days.
Context {Gr : group}.
Variables (z : sizes) (room0 room1 : nat).
Variable hash : Z -> list bool.
Variable circuit_input : Z -> outcome (list bool).
Variables (P0 P1 : pub) (V0 V1 : priv).
Notation handler SV := (client_msg Gr -> SV -> tape -> SV * outcome (option (server_msg Gr))).
(** deletion/run.cc:98-127 and 184-232: OwnModel.del_day_own_by with the circuits
    of StackModel *)
Definition del_day_stack_by (handle : handler dserver) (st : dclient * dserver * (round * round)) : D (dclient * dserver * (round * round)) :=
  '(c, s) <~ dc_run_by hash P1 V0 handle (fst (fst st), ds_reset (snd (fst st))) ;;
  '(rs, other_rs, rounds) <~ del_circuits_stack z room0 room1 circuit_input P0 P1 V0 V1 (dc_party c) (ds_party s) ;;
  dret (mkDC (dc_party c) (dc_data c) (dc_day c) (dc_total c)
         ((dc_result c + (rs + other_rs) mod 2 ^ 64) mod 2 ^ 64), s, rounds).
(** deletion-psi/run.cc:100-123 and 183-219: OwnModel.psi_day_own_by in the same way *)
Definition psi_day_stack_by (handle : handler pserver) (st : pclient * pserver * day_info) : D (pclient * pserver * day_info) :=
  let '(c, s, _) := st in
  '(c1, s1, (mid0, mid1)) <~ psi_run_own_by hash P1 V0 handle (c, ps_reset s) ;;
  '(rs0, rs1, (r0, r1)) <~ psi_circuits_stack z room0 room1 circuit_input P0 P1 V0 V1 (pc_party c1) (ps_party s1) ;;
  us <~ second_phase_run P0 V0 rs0 rs1 ;;
  rs <~ dlift (apply_updates us (pc_result c1, pc_set c1)) ;;
  dret (mkPC (pc_party c1) (pc_data c1) (pc_day c1) (pc_total c1) (fst rs) (snd rs), s1, mkDay mid0 mid1 r0 r1).
End Days.

Section Programs.
Context {Gr : group}.
Variables (enc : wpoint Gr -> bytes) (dec : bytes -> wpoint Gr).
Variables (cppub : codec ppub_msg) (cpsec : codec psec_msg).
Variables (cpt : codec (tree_file pnode)) (cet : codec (tree_file (list (welem Gr)))).
Variable hash : Z -> list bool.
Variables stash node : nat.
Variable two_k_ary : bool.
Variable fuel : nat.
Variables e0 e1 : env.
Variables (data out : bytes) (days : nat) (trees : bool).
Variable circuit_input : Z -> outcome (list bool).
Variables (z : sizes) (room0 room1 : nat).
(** OwnModel.prog_deletion_own and prog_deletion_psi_own with these days *)
Definition prog_deletion_stack : world -> coins3 -> outcome ((dclient * dserver * (round * round)) * list (dclient * dserver * (round * round))) :=
  both_start cppub cpsec cpt cet stash node two_k_ary fuel e0 e1 data out days trees (fun zero one =>
    let st := del_start_with (dp_trees zero) (dp_trees one) (dp_data zero) (dp_data one) in
    trace <~ run_own (del_day_stack_by z room0 room1 hash circuit_input (dp_pub one) (dp_pub zero) (dp_priv zero) (dp_priv one)
                        (wired enc dec (del_handle hash (dp_pub one) (dp_priv one)))) days st ;;
    dret (st, trace)).
Definition prog_deletion_psi_stack : world -> coins3 -> outcome ((pclient * pserver * day_info) * list (pclient * pserver * day_info)) :=
  both_start cppub cpsec cpt cet stash node two_k_ary fuel e0 e1 data out days trees (fun zero one =>
    let st := psi_start_with stash node (dp_trees zero) (dp_trees one) (dp_data zero) (dp_data one) in
    trace <~ run_own (psi_day_stack_by z room0 room1 hash circuit_input (dp_pub one) (dp_pub zero) (dp_priv zero) (dp_priv one)
                        (wired enc dec (PsiModel.psi_handle hash (dp_pub one) (dp_priv one)))) days st ;;
    dret (st, trace)).
End Programs.
