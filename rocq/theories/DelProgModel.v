(** * The programs of the two constructions with deletions, through the files they
    exchange: upsi/deletion/setup.cc and upsi/deletion-psi/setup.cc (GenerateData
    and main, the same text up to the defaults of flags) and the two run.cc, for
    both parties.

    As ProgModel: the setup program, party zero (the client) and party one (the
    server) are separate processes that meet in the file system of FileModel.
    Simplifications: the safe primes drawn for the two keys are arguments (C40 has
    their generation); printing is left out, and the number the setup program
    prints is a result; messages between the parties, and the garbled circuits,
    are those of DelModel and PsiModel; --start_size has its default, so that no
    mock trees are made (C55 has them). *)
Require Import List Arith Lia ZArith Bool.
Import ListNotations.
From Verif Require Import Prelude TreeModel TreeDelModel Coins Group ElGamalModel BytesModel CipherModel PaillierModel WireModel SyncModel FlagModel CsvModel DataModel AddModel SetupModel FileModel KeyModel DeployModel ProgModel DelModel PsiModel DelSetupModel.
Local Open Scope Z_scope.

Section DelProg.
Context {Gr : group}.
Variables (cppub : codec ppub_msg) (cpsec : codec psec_msg).
Variables (cpt : codec (tree_file pnode)) (cet : codec (tree_file (list (welem Gr)))).
Variable hash : Z -> list bool.
Variables stash node : nat.          (* twice DEFAULT_STASH_SIZE, DEFAULT_NODE_SIZE *)
Variable two_k_ary : bool.           (* --two_k_ary_exp *)
Variable fuel : nat.

(** PrivatePaillier(ctx, proto), paillier.cc:455-459 *)
Definition private_key (m : psec_msg) : outcome priv := priv_new two_k_ary (of_bytes (fst (fst m))) (of_bytes (snd (fst m))) (Z.to_nat (snd m)).
(** PublicPaillier(ctx, proto), paillier.cc:375-378.  It draws until a number is
    prime to the modulus; a program that is still drawing after [fuel] numbers has
    not ended, which is recorded as an error. *)
Definition public_key (m : ppub_msg) : M pub := fun t =>
  match pub_new two_k_ary fuel (of_bytes (fst m)) (Z.to_nat (snd m)) t with Some o => o | None => Err Internal end.

(** ** The setup program *)
Section Setup.
Variable e : env.
(** GenerateTrees for datasets, setup_util.cc:268-295 *)
Definition del_tree_files (tree : dataset) (key_dir plain_dir enc_dir : bytes) : SM sys unit :=
  m <-- io (read_msg e cpsec (key_dir ++ paillier_key)) ;;
  V <-- pure (private_key m) ;;
  daily <-- pure (dataset_pairs tree) ;;
  tree_files_written cpt cet stash node e (insert_del hash) pad_payload (enc_deletion (pv_n V) (priv_encrypt V)) ser_deletion deser_deletion ser_pnode_payload daily plain_dir enc_dir.
(** GenerateData, setup.cc:39-78: the number printed and (not printed) the
    generated sets *)
Definition del_setup_data (data out : bytes) (days daily start max_value : Z) (func : functionality) : SM sys (Z * (dataset * list dataset * dataset * list dataset)) :=
  g <-- rand (generate_deletion days daily start (u32 max_value) func) ;;
  let '(tree0, days0, tree1, days1, sum) := g in
  io (write_days e (p0_dir data) (p1_dir data) (Z.to_nat days) 1 days0 days1) ;;;
  (if 0 <? start then
     del_tree_files tree0 (p0_dir out) (p0_dir data) (p1_dir data) ;;;
     del_tree_files tree1 (p1_dir out) (p1_dir data) (p0_dir data)
   else sret tt) ;;;
  sret (sum, (tree0, days0, tree1, days1)).
(** main, setup.cc:79-111 *)
Definition del_setup_program (data out : bytes) (p0 q0 p1 q1 : Z) (days daily start max_value : Z) (func : functionality) :=
  generate_paillier_keys cppub cpsec e (p0_dir out) (p1_dir out) p0 q0 p1 q1 ;;;
  del_setup_data data out days daily start max_value func.
End Setup.

(** ** A party up to the first message: run.cc:51-85 and 147-178, the constructors
    deletion/party.h:36-62, roles.h:75-110, LoadData party_zero.cc:19-24 and
    party_one.h:25-33 (and their counterparts in deletion-psi) *)
Record del_party := mkDelParty {
  dp_trees : tree entry * tree (Z * Z);
  dp_priv : priv;                    (* its own key *)
  dp_pub : pub;                      (* the other party's *)
  dp_data : list (list entry) }.
Definition start_del_party (e : env) (dir keys : bytes) (days : nat) (import : bool) : SM sys del_party :=
  ds <-- io (read_days e dir days 1) ;;
  ts <-- io (if import then load_trees cpt cet e deser_pnode_payload (deser_node deser_deletion) dir else sret (tree_new stash node, tree_new stash node)) ;;
  sm <-- io (must (read_msg e cpsec (keys ++ paillier_key))) ;;
  V <-- pure (private_key sm) ;;
  pm <-- io (must (read_msg e cppub (keys ++ paillier_pub))) ;;
  P <-- rand (public_key pm) ;;
  l <-- pure (omap dataset_pairs ds) ;;
  sret (mkDelParty ts V P l).

Variable circuit_input : Z -> outcome (list bool).
(** both programs of upsi/deletion; [e0], [e1]: the environments of the two
    processes; the states the parties start with and the states at the end of
    each day *)
Definition prog_deletion (e0 e1 : env) (data out : bytes) (days : nat) (import : bool) : SM sys ((dclient * dserver * (round * round)) * list (dclient * dserver * (round * round))) :=
  p1 <-- start_del_party e1 (p1_dir data) (p1_dir out) days import ;;
  p0 <-- start_del_party e0 (p0_dir data) (p0_dir out) days import ;;
  let st := del_start_with (dp_trees p0) (dp_trees p1) (dp_data p0) (dp_data p1) in
  rand (trace <- run_trace (del_day (Gr := Gr) hash circuit_input (dp_pub p1) (dp_pub p0) (dp_priv p0) (dp_priv p1)) days st ;; ret (st, trace)).
(** ... of upsi/deletion-psi *)
Definition prog_deletion_psi (e0 e1 : env) (data out : bytes) (days : nat) (import : bool) : SM sys ((pclient * pserver * day_info) * list (pclient * pserver * day_info)) :=
  p1 <-- start_del_party e1 (p1_dir data) (p1_dir out) days import ;;
  p0 <-- start_del_party e0 (p0_dir data) (p0_dir out) days import ;;
  let st := psi_start_with stash node (dp_trees p0) (dp_trees p1) (dp_data p0) (dp_data p1) in
  rand (trace <- run_trace (psi_day2 (Gr := Gr) hash circuit_input (dp_pub p1) (dp_pub p0) (dp_priv p0) (dp_priv p1)) days st ;; ret (st, trace)).
End DelProg.
