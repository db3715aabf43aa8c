(** * The two constructions with deletions from their setup programs to the result:
    upsi/deletion/setup.cc:39-78 and upsi/deletion-psi/setup.cc:39-78
    (GenerateData, the same text), GenerateTrees for datasets
    (upsi/util/setup_util.cc:268-295), the constructors importing the trees
    (upsi/roles.h:75-110) and both halves of the two run.cc.

    As in DeployModel a CSV file is its bytes and a file with a protobuf message
    is that message; directories, key files and printing are not modelled: the
    setup program uses the two key pairs of the parties (C52), and the number it
    prints is a field of the result. *)
Require Import List Arith Lia ZArith Bool.
Import ListNotations.
From Verif Require Import Prelude TreeModel TreeDelModel Coins Group ElGamalModel BytesModel ContextModel CipherModel PaillierModel WireModel SyncModel FlagModel CsvModel DataModel AddModel SetupModel DeployModel DelModel PsiModel.
Local Open Scope Z_scope.

Section DelSetup.
Context {Gr : group}.
Variable hash : Z -> list bool.
Variables P0 P1 : pub.
Variables V0 V1 : priv.
Variables stash node : nat.          (* twice DEFAULT_STASH_SIZE, DEFAULT_NODE_SIZE *)

(** GenerateTrees for datasets, setup_util.cc:268-295, with the key in
    [key_dir]/paillier.key *)
Definition trees_deletion (V : priv) (data : list entry) : M (tree_file pnode * tree_file (list (welem Gr))) :=
  generate_trees (Gr := Gr) stash node (insert_del hash) pad_payload (enc_deletion (pv_n V) (priv_encrypt V)) ser_deletion deser_deletion ser_pnode_payload data.
(** setup.cc:62-73: each party's tree is encrypted under its own key, goes in the
    clear to its own directory and encrypted to the other's *)
Definition del_setup_trees (start0 start1 : list entry) : M (tree_files Gr) :=
  f0 <- trees_deletion V0 start0 ;;
  f1 <- trees_deletion V1 start1 ;;
  ret (mkFiles (fst f0) (snd f1) (fst f1) (snd f0)).

(** what the setup program leaves behind and prints; [dd_data] is not written
    anywhere (the generated sets before they are written) *)
Record del_deployed := mkDelD {
  dd_csv0 : list bytes; dd_csv1 : list bytes; dd_trees : option (tree_files Gr); dd_expected : Z;
  dd_data : dataset * list dataset * dataset * list dataset }.
(** setup.cc:55-61: p0_days[day] for all days asked for; an index beyond the end
    of the vector is undefined *)
Definition first_days (days : Z) (l : list dataset) : outcome (list bytes) :=
  if Z.of_nat (length l) <? days then UB else omap dataset_write (firstn (Z.to_nat days) l).
(** GenerateData, setup.cc:39-78 *)
Definition del_generate (days daily start max_value : Z) (func : functionality) : M del_deployed :=
  '(tree0, days0, tree1, days1, sum) <- generate_deletion days daily start (u32 max_value) func ;;
  csv0 <- lift (first_days days days0) ;;
  csv1 <- lift (first_days days days1) ;;
  let data := (tree0, days0, tree1, days1) in
  if 0 <? start then
    start0 <- lift (dataset_pairs tree0) ;;
    start1 <- lift (dataset_pairs tree1) ;;
    trees <- del_setup_trees start0 start1 ;;
    ret (mkDelD csv0 csv1 (Some trees) sum data)
  else
    ret (mkDelD csv0 csv1 None sum data).

(** HasTree<ElementAndPayload, PaillierPair> (deletion/party.h:14, roles.h:75-110):
    --import exactly if the setup program wrote trees *)
Definition import_del_zero (f : tree_files Gr) := import_trees deser_pnode_payload (deser_node (@deser_deletion Gr)) (p0_plaintext f) (p0_encrypted f).
Definition import_del_one (f : tree_files Gr) := import_trees deser_pnode_payload (deser_node (@deser_deletion Gr)) (p1_plaintext f) (p1_encrypted f).
Definition del_trees_for (import : tree_files Gr -> outcome (tree entry * tree (Z * Z))) (files : option (tree_files Gr)) : outcome (tree entry * tree (Z * Z)) :=
  match files with Some f => import f | None => Ok (tree_new stash node, tree_new stash node) end.
(** ReadDailyDatasets, data_util.cc:205-217, then LoadData, party_zero.cc:17-22,
    and the constructor, party_one.h:25-33 *)
Definition load_entries (csv : list bytes) : outcome (list (list entry)) :=
  let! ds := omap dataset_read csv in omap dataset_pairs ds.

(** the two parties of upsi/deletion constructed with these trees; otherwise as
    [del_start] *)
Definition del_start_with (t0 t1 : tree entry * tree (Z * Z)) (d0 d1 : list (list entry)) : dclient * dserver * (round * round) :=
  (mkDC (mkParty (fst t0) (snd t0) [] [] []) d0 0 (length d0) 0, mkDS (mkParty (fst t1) (snd t1) [] [] []) d1 0 false, ((0, 0), (0, 0))).
(** ... and of upsi/deletion-psi *)
Definition psi_start_with (t0 t1 : tree entry * tree (Z * Z)) (d0 d1 : list (list entry)) : pclient * pserver * day_info :=
  (mkPC (mkPP (fst t0) (snd t0) [] [] []) (map load_day d0) 0 (length d0) 0 [],
   mkPS (mkPP (fst t1) (snd t1) [] [] []) (map load_day d1) 0 false false,
   mkDay (tree_new stash node) (tree_new stash node) [] []).

Variable circuit_input : Z -> outcome (list bool).
(** run.cc of both parties: the states the parties start with, then the states at
    the end of each of the first [k] days *)
Definition del_deployed_run (d : del_deployed) (k : nat) : M ((dclient * dserver * (round * round)) * list (dclient * dserver * (round * round))) :=
  d1 <- lift (load_entries (dd_csv1 d)) ;; t1 <- lift (del_trees_for import_del_one (dd_trees d)) ;;
  d0 <- lift (load_entries (dd_csv0 d)) ;; t0 <- lift (del_trees_for import_del_zero (dd_trees d)) ;;
  let st := del_start_with t0 t1 d0 d1 in
  trace <- run_trace (del_day (Gr := Gr) hash circuit_input P0 P1 V0 V1) k st ;; ret (st, trace).
Definition psi_deployed_run (d : del_deployed) (k : nat) : M ((pclient * pserver * day_info) * list (pclient * pserver * day_info)) :=
  d1 <- lift (load_entries (dd_csv1 d)) ;; t1 <- lift (del_trees_for import_del_one (dd_trees d)) ;;
  d0 <- lift (load_entries (dd_csv0 d)) ;; t0 <- lift (del_trees_for import_del_zero (dd_trees d)) ;;
  let st := psi_start_with t0 t1 d0 d1 in
  trace <- run_trace (psi_day2 (Gr := Gr) hash circuit_input P0 P1 V0 V1) k st ;; ret (st, trace).
End DelSetup.
Arguments del_deployed : clear implicits.
