(** * From generated data to results: upsi/addition/setup.cc:41-124
    (GenerateData with --data and --expected) and the two run.cc that read what
    it wrote.

    A CSV file is its bytes (CsvModel), a tree file its message (SetupModel).
    Directories, key files and printing are not modelled: the setup program
    encrypts with the parties' joint key, and the numbers it prints are fields of
    the result. *)
Require Import String.
Require Import List Arith Lia ZArith Bool.
Import ListNotations.
From Verif Require Import Prelude TreeModel Coins Group ElGamalModel BytesModel CipherModel PaillierModel WireModel SyncModel FlagModel CsvModel DataModel AddModel SetupModel.
Local Open Scope Z_scope.

(** conversion to int *)
Definition to_int (x : Z) : Z := (x + 2 ^ 31) mod 2 ^ 32 - 2 ^ 31.
(** setup.cc:46-52: the default for --shared_size *)
Definition shared_size (total flag : Z) : Z := if flag <? 0 then total / 8 else flag.
(** setup.cc:98-107, the inner and the outer loop: [initial_ca] and
    [initial_sum] are ints; the values are int64 *)
Fixpoint count_row (e : bytes) (v : Z) (e1 : list bytes) (acc : Z * Z) : outcome (Z * Z) :=
  match e1 with
  | [] => Ok acc
  | x :: r =>
      if same_string e x then
        if fst acc =? 2 ^ 31 - 1 then UB
        else if (snd acc + v <? 2 ^ 63) && (- 2 ^ 63 <=? snd acc + v) then count_row e v r (fst acc + 1, to_int (snd acc + v)) else UB
      else count_row e v r acc
  end.
Fixpoint count_rows (es : list bytes) (vs : list Z) (e1 : list bytes) (acc : Z * Z) : outcome (Z * Z) :=
  match es with
  | [] => Ok acc
  | e :: es' => match vs with [] => UB | v :: vs' => let! a := count_row e v e1 acc in count_rows es' vs' e1 a end
  end.

Section Deploy.
Context {Gr : group}.
Variable hash : Z -> list bool.
Variable pk : pubkey Gr.
Variables stash node : nat.
Variable pai0 : pub.

(** what the setup program leaves behind and prints; [dp_data] is not written
    anywhere (the generated sets before they are written) *)
Record deployed := mkDeployed {
  dp_csv0 : list bytes; dp_csv1 : list bytes;       (* p0/<day>.csv, p1/<day>.csv *)
  dp_trees : option (tree_files Gr);
  dp_size : Z; dp_sum : Z;                           (* "expected output" *)
  dp_data : dataset * list dataset * dataset * list dataset }.
(** GenerateData, setup.cc:41-124 *)
Definition generate_data (days daily start shared_flag max_value : Z) (func : functionality) : M deployed :=
  let total := u32 (start + u32 (days * daily)) in
  let shared := shared_size total shared_flag in
  '(tree0, days0, tree1, days1, sum) <- generate_add_only days daily start (u32 shared) (u32 max_value) ;;
  csv0 <- lift (omap dataset_write days0) ;;
  csv1 <- lift (omap dataset_write days1) ;;
  let data := (tree0, days0, tree1, days1) in
  if 0 <? start then
    start0 <- lift (dataset_pairs tree0) ;;
    start1 <- lift (dataset_elements tree1) ;;
    trees <- setup_trees stash node hash pk func pai0 start0 start1 ;;
    '(ca, isum) <- lift (count_rows (d_elements tree0) (d_values tree0) (d_elements tree1) (0, 0)) ;;
    ret (mkDeployed csv0 csv1 (Some trees) (shared - ca) (sum - isum) data)
  else
    ret (mkDeployed csv0 csv1 None shared sum data).

(** ReadDailyDatasets, data_util.cc:205-217, then LoadData, party_zero.cc:21-26
    and 77-87 (the [payload] is GetPayload), and party_one.h:19-25 *)
Definition load_elements (csv : list bytes) : outcome (list (list Z)) :=
  let! ds := omap dataset_read csv in omap dataset_elements ds.
Definition load_pairs (payload : Z * Z -> Z * Z) (csv : list bytes) : outcome (list (list (Z * Z))) :=
  let! ds := omap dataset_read csv in
  omap (fun d => let! l := dataset_pairs d in Ok (map payload l)) ds.
(** HasTree: --trees is given exactly if the setup program wrote trees *)
Definition trees_for {A C} (import : tree_files Gr -> outcome (tree A * tree C)) (d : deployed) : outcome (tree A * tree C) :=
  match dp_trees d with Some f => import f | None => Ok (tree_new stash node, tree_new stash node) end.

Variables sk0 sk1 : Z.
Variable csize : client_msg Gr -> Z.
Variable ssize : server_msg Gr -> Z.
(** run.cc of both parties, one definition per functionality; [k] bounds the
    number of days observed *)
Definition run_ca (d : deployed) (k : nat) :=
  d1 <- lift (load_elements (dp_csv1 d)) ;; t1 <- lift (trees_for import_one_no_payload d) ;;
  d0 <- lift (load_elements (dp_csv0 d)) ;; t0 <- lift (trees_for import_zero_no_payload d) ;;
  run_days cl_finished (ca_day hash pk sk0 sk1 csize ssize) k
    (client_with t0 (length (dp_csv0 d)) d0 0, server_with t1 (length (dp_csv1 d)) d1).
Definition run_psi (dec_string : Z -> string) (d : deployed) (k : nat) :=
  d1 <- lift (load_elements (dp_csv1 d)) ;; t1 <- lift (trees_for import_one_no_payload d) ;;
  d0 <- lift (load_elements (dp_csv0 d)) ;; t0 <- lift (trees_for import_zero_no_payload d) ;;
  run_days cl_finished (psi_day hash pk sk0 sk1 csize ssize dec_string) k
    (client_with t0 (length (dp_csv0 d)) d0 (([], []) : psi_out (Gr := Gr)), server_with t1 (length (dp_csv1 d)) d1).
Definition run_sum (d : deployed) (k : nat) :=
  d1 <- lift (load_elements (dp_csv1 d)) ;; t1 <- lift (trees_for import_one_sum d) ;;
  d0 <- lift (load_pairs (fun a => a) (dp_csv0 d)) ;; t0 <- lift (trees_for import_zero_payload d) ;;
  run_days cl_finished (sum_day hash pk sk0 sk1 csize ssize) k
    (client_with t0 (length (dp_csv0 d)) d0 (0, 0), server_with t1 (length (dp_csv1 d)) d1).
Definition run_ss (n : Z) (pai1 : pub) (psk0 psk1 : Z) (d : deployed) (k : nat) :=
  d1 <- lift (load_elements (dp_csv1 d)) ;; t1 <- lift (trees_for import_one_ss d) ;;
  d0 <- lift (load_pairs ss_payload (dp_csv0 d)) ;; t0 <- lift (trees_for import_zero_payload d) ;;
  run_days cl_finished (ss_day hash pk sk0 sk1 csize ssize n pai0 pai1 psk0 psk1) k
    (client_with t0 (length (dp_csv0 d)) d0 [], server_with t1 (length (dp_csv1 d)) d1).
End Deploy.
Arguments deployed : clear implicits.
