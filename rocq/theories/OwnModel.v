(** * The deletion deployments as their two processes run them: files as in
    DelProgModel, messages as in NetModel, coins and secure computations as in
    GcModel.

    deletion/run.cc:51-146 (party zero) and 147-232 (party one), deletion-psi/run.cc:
    51-140 and 141-219.  Each process has its own generator, from its start on
    (PublicPaillier draws while the keys are read); party one also has rand().
    Simplifications: as in those files; party one starts first. *)
Require Import List Arith Lia ZArith Bool.
Import ListNotations.
From Verif Require Import Prelude TreeModel TreeDelModel Coins Group ElGamalModel BytesModel CipherModel PaillierModel WireModel SyncModel CsvModel DataModel AddModel SetupModel FileModel KeyModel DeployModel DelModel DelSetupModel ProtoModel ProtoCodec NetModel ProgModel DelProgModel PsiModel GcModel.
Local Open Scope Z_scope.

(** ** The days of GcModel with the server's Handle as a parameter; the bodies are
    those of GcModel.dc_run_own, del_day_own, exchange_own, psi_run_own and
    psi_day_own, which are these with the handlers themselves *)
Section Days.
Context {Gr : group}.
Variable hash : Z -> list bool.
Variable circuit_input : Z -> outcome (list bool).
Variables (P0 P1 : pub) (V0 V1 : priv).
Notation handler SV := (client_msg Gr -> SV -> tape -> SV * outcome (option (server_msg Gr))).
(** deletion/party_zero.cc:43-49 *)
Definition dc_run_by (handle : handler dserver) (st : dclient * dserver) : D (dclient * dserver) :=
  let '(c, s) := st in
  match nth_error (dc_data c) (dc_day c) with
  | None => dlift UB
  | Some es =>
      '(p1, m1) <~ at_zero (del_gen1 hash P1 V0 es (reset_gc (dc_party c))) ;;
      '(s', r) <~ at_one (send handle (C_party_zero (P0_I m1)) s) ;;
      c' <~ dlift (dc_handle V0 r (mkDC p1 (dc_data c) (dc_day c) (dc_total c) (dc_result c))) ;;
      dret (c', s')
  end.
(** deletion/run.cc:98-127 and 184-232 *)
Definition del_day_own_by (handle : handler dserver) (st : dclient * dserver * (round * round)) : D (dclient * dserver * (round * round)) :=
  '(c, s) <~ dc_run_by handle (fst (fst st), ds_reset (snd (fst st))) ;;
  '(rs, other_rs, rounds) <~ del_circuits_run circuit_input P0 P1 V0 V1 (dc_party c) (ds_party s) ;;
  dret (mkDC (dc_party c) (dc_data c) (dc_day c) (dc_total c)
         ((dc_result c + (rs + other_rs) mod 2 ^ 64) mod 2 ^ 64), s, rounds).
(** deletion-psi/party_zero.cc:50-64 *)
Definition exchange_by (handle : handler pserver) (es : list entry) (st : pclient * pserver) : D (pclient * pserver) :=
  let '(c, s) := st in
  '(p1, m1) <~ at_zero (psi_gen1 hash P1 V0 es (pc_party c)) ;;
  '(s', r) <~ at_one (send handle (C_party_zero (P0_I m1)) s) ;;
  c' <~ dlift (pc_handle V0 r (pc_with p1 c)) ;;
  dret (c', s').
Definition psi_run_own_by (handle : handler pserver) (st : pclient * pserver) : D (pclient * pserver * (tree entry * tree entry)) :=
  let '(c, s) := st in
  let c1 := pc_with (preset (pc_party c)) c in
  match nth_error (pc_data c) (pc_day c) with
  | None => dlift UB
  | Some (dels, adds) =>
      '(c2, s2) <~ exchange_by handle dels (c1, s) ;;
      '(c3, s3) <~ exchange_by handle adds (c2, s2) ;;
      dret (mkPC (pc_party c3) (pc_data c3) (S (pc_day c3)) (pc_total c3) (pc_result c3) (pc_set c3), s3,
           (pg_my (pc_party c2), pg_my (ps_party s2)))
  end.
(** deletion-psi/run.cc:100-123 and 183-219 *)
Definition psi_day_own_by (handle : handler pserver) (st : pclient * pserver * day_info) : D (pclient * pserver * day_info) :=
  let '(c, s, _) := st in
  '(c1, s1, (mid0, mid1)) <~ psi_run_own_by handle (c, ps_reset s) ;;
  '(rs0, rs1, (r0, r1)) <~ psi_circuits_run circuit_input P0 P1 V0 V1 (pc_party c1) (ps_party s1) ;;
  us <~ second_phase_run P0 V0 rs0 rs1 ;;
  rs <~ dlift (apply_updates us (pc_result c1, pc_set c1)) ;;
  dret (mkPC (pc_party c1) (pc_data c1) (pc_day c1) (pc_total c1) (fst rs) (snd rs), s1, mkDay mid0 mid1 r0 r1).
End Days.

(** ** The programs *)
Section Programs.
Context {Gr : group}.
Variables (enc : wpoint Gr -> bytes) (dec : bytes -> wpoint Gr).
Variables (cppub : codec ppub_msg) (cpsec : codec psec_msg).
Variables (cpt : codec (tree_file pnode)) (cet : codec (tree_file (list (welem Gr)))).
Variable hash : Z -> list bool.
Variables stash node : nat.
Variable two_k_ary : bool.
Variable fuel : nat.
Variables e0 e1 : env.
Variables (data out : bytes) (days : nat) (trees : bool).
Notation start_del_party := (start_del_party cppub cpsec cpt cet stash node two_k_ary fuel).
(** both processes up to the first message, each with its own generator; then
    [go], with the generators where the starts left them *)
Definition both_start {A} (go : del_party -> del_party -> D A) (w : world) (co : coins3) : outcome A :=
  match start_del_party e1 (p1_dir data) (p1_dir out) days trees (mkSys w (c_one co)) with
  | (s1, Ok one) =>
      match start_del_party e0 (p0_dir data) (p0_dir out) days trees (mkSys (sy_world s1) (c_zero co)) with
      | (s0, Ok zero) => match go zero one (mkC3 (c_rand co) (sy_coins s0) (sy_coins s1)) with Ok (a, _) => Ok a | Err c => Err c | Abort => Abort | UB => UB end
      | (_, Err c) => Err c | (_, Abort) => Abort | (_, UB) => UB
      end
  | (_, Err c) => Err c | (_, Abort) => Abort | (_, UB) => UB
  end.
Variable circuit_input : Z -> outcome (list bool).
(** upsi/deletion: the states the parties start with and those at the end of
    each day *)
Definition prog_deletion_own : world -> coins3 -> outcome ((dclient * dserver * (round * round)) * list (dclient * dserver * (round * round))) :=
  both_start (fun zero one =>
    let st := del_start_with (dp_trees zero) (dp_trees one) (dp_data zero) (dp_data one) in
    trace <~ run_own (del_day_own_by hash circuit_input (dp_pub one) (dp_pub zero) (dp_priv zero) (dp_priv one)
                        (wired enc dec (del_handle hash (dp_pub one) (dp_priv one)))) days st ;;
    dret (st, trace)).
(** upsi/deletion-psi *)
Definition prog_deletion_psi_own : world -> coins3 -> outcome ((pclient * pserver * day_info) * list (pclient * pserver * day_info)) :=
  both_start (fun zero one =>
    let st := psi_start_with stash node (dp_trees zero) (dp_trees one) (dp_data zero) (dp_data one) in
    trace <~ run_own (psi_day_own_by hash circuit_input (dp_pub one) (dp_pub zero) (dp_priv zero) (dp_priv one)
                        (wired enc dec (PsiModel.psi_handle hash (dp_pub one) (dp_priv one)))) days st ;;
    dret (st, trace)).
End Programs.
