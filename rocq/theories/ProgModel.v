(** * The programs of the addition-only protocols, through the files they
    exchange: upsi/addition/setup.cc (main with --keys, --data and --expected)
    and upsi/addition/run.cc for both parties.

    Keys, data sets and trees go through the file system of FileModel, where
    every operation may fail.  The setup program, party zero and party one are
    separate processes with their own environments, public keys and Paillier
    objects.

    Simplifications: the safe primes drawn for the threshold key are arguments
    (C40 has their generation); printing is left out, and the numbers the setup
    program prints are results; messages between the parties are passed directly
    (C49 and C50 have the connection); PSIParams is not a separate object. *)
Require Import String.
Require Import List Arith Lia ZArith Bool.
Import ListNotations.
From Verif Require Import Prelude TreeModel Coins Group ElGamalModel BytesModel CipherModel PaillierModel WireModel SyncModel FlagModel CsvModel DataModel AddModel SetupModel FileModel KeyModel DeployModel.
Local Open Scope Z_scope.

(** ** Data set files *)
(** the lines that end with a newline: what std::getline has delivered when
    reading fails (the characters of an unfinished line are dropped, because the
    stream is bad and not just at its end) *)
Fixpoint whole_lines (s cur : bytes) : bytes :=
  match s with
  | [] => []
  | c :: r => if c =? newline then cur ++ newline :: whole_lines r [] else whole_lines r (cur ++ [c])
  end.
Section Streams.
Variable e : env.
(** Dataset::Write, data_util.cc:153-171, with std::ofstream: opening empties the
    file, and a failure of any later operation is seen after close().  [text]: what
    writing the rows gives *)
Definition write_csv (text : outcome bytes) (name : bytes) : SM world unit := fun w =>
  match fault e (tick w) with
  | Some _ => (step w, Err InvalidArgument)
  | None =>
      let w1 := step (set_file w name (Some [])) in
      match text with
      | Ok c => match fault e (tick w1) with
                | Some k => (step (set_file w1 name (Some (firstn k c))), Err Internal)
                | None => (step (set_file w1 name (Some c)), Ok tt)
                end
      | Err c => (w1, Err c) | Abort => (w1, Abort) | UB => (w1, UB)
      end
  end.
(** the constructor of Dataset, data_util.cc:123-151, with std::ifstream: a file
    that cannot be opened is an exception; a read error ends the loop like the
    end of the file; closing a file that was only read is not checked *)
Definition read_csv (name : bytes) : SM world dataset := fun w =>
  match fault e (tick w), files w name with
  | None, Some c =>
      let w1 := step w in
      (step w1, match fault e (tick w1) with
                | Some k => dataset_read (whole_lines (firstn k c) [])
                | None => dataset_read c
                end)
  | _, _ => (step w, Abort)
  end.
(** dir + std::to_string(day) + ".csv" *)
Definition dot_csv : bytes := [46; 99; 115; 118].
Definition day_file (dir : bytes) (day : Z) : bytes := dir ++ dec_int day ++ dot_csv.
(** the loop of GenerateData, addition/setup.cc:65-72; [k] days to go, the next
    one is [day] *)
Fixpoint write_days (d0 d1 : bytes) (k : nat) (day : Z) (l0 l1 : list dataset) : SM world unit :=
  match k with
  | O => sret tt
  | S k' =>
      match l0, l1 with
      | x0 :: r0, x1 :: r1 =>
          write_csv (dataset_write x0) (path (day_file d0 day)) ;;;
          write_csv (dataset_write x1) (path (day_file d1 day)) ;;;
          write_days d0 d1 k' (day + 1) r0 r1
      | _, _ => sfail UB
      end
  end.
(** ReadDailyDatasets, data_util.cc:205-217 *)
Fixpoint read_days (dir : bytes) (k : nat) (day : Z) : SM world (list dataset) :=
  match k with
  | O => sret []
  | S k' => d <-- read_csv (path (day_file dir day)) ;; r <-- read_days dir k' (day + 1) ;; sret (d :: r)
  end.
End Streams.

(** "plaintext.tree", "encrypted.tree" *)
Definition plaintext_tree : bytes := [112; 108; 97; 105; 110; 116; 101; 120; 116; 46; 116; 114; 101; 101].
Definition encrypted_tree : bytes := [101; 110; 99; 114; 121; 112; 116; 101; 100; 46; 116; 114; 101; 101].

Section Prog.
Context {Gr : group}.
Variables (cpub : codec (pub_msg (Gr := Gr))) (csec : codec sec_msg) (cthr : codec thr_msg).
Variables (cpt : codec (tree_file pnode)) (cet : codec (tree_file (list (welem Gr)))).
Variable hash : Z -> list bool.
Variables stash node : nat.          (* DEFAULT_STASH_SIZE, DEFAULT_NODE_SIZE *)
Variable two_k_ary : bool.           (* --two_k_ary_exp *)
Variable fuel : nat.
(** the constructor of ThresholdPaillier, threshold_paillier.cc:84-91.  It draws
    until a number is prime to the modulus; a program that is still drawing after
    [fuel] numbers has not ended, which is recorded as an error. *)
Definition new_paillier (n : Z) : M pub := fun t =>
  match pub_new two_k_ary fuel n 1 t with Some o => o | None => Err Internal end.

(** ** The setup program *)
Section Setup.
Variable e : env.
(** GenerateTrees, setup_util.cc:201-224 and 226-266, with WriteTrees 180-199:
    two trees in memory, then one file after the other *)
Section Generic.
Context {A C : Type}.
Variable ins : list A -> list (list bool) -> tree A -> tree A * list (TreeModel.node A).
Variable mk : Z -> A.
Variable enc : A -> M C.
Variable ser : C -> outcome (welem Gr).
Variable deser : welem Gr -> outcome C.
Variable serp : TreeModel.node A -> outcome pnode.
Definition fill_trees (data : list A) : M (tree A * tree C) := fun tp =>
  let '(pt, o) := send_update ins mk enc ser data (tree_new stash node) tp in
  (u <- (fun _ => o) ;;
   et <- lift (recv_update deser u (tree_new stash node)) ;;
   ret (pt, et)) tp.
Definition tree_files_written (data : list A) (plain_dir enc_dir : bytes) : SM sys unit :=
  ts <-- rand (fill_trees data) ;;
  pm <-- pure (tree_serialize serp (fst ts)) ;;
  io (write_msg e cpt pm (plain_dir ++ plaintext_tree)) ;;;
  em <-- pure (tree_serialize (ser_node ser) (snd ts)) ;;
  io (write_msg e cet em (enc_dir ++ encrypted_tree)).
End Generic.
Definition trees_zero (func : functionality) (data : list (Z * Z)) (key_dir plain_dir enc_dir : bytes) : SM sys unit :=
  pk <-- io (load_encrypter cpub e key_dir shared_pub) ;;
  if is_ss func then
    pm <-- io (read_msg e cthr (key_dir ++ paillier_key)) ;;
    pai <-- rand (new_paillier (of_bytes (fst pm))) ;;
    tree_files_written (insert (fun a => hash (fst a))) pad_payload (enc_paillier pk (pub_encrypt pai)) ser_paillier deser_paillier ser_pnode_payload data plain_dir enc_dir
  else
    tree_files_written (insert (fun a => hash (fst a))) pad_payload (enc_elgamal pk) ser_elgamal deser_elgamal ser_pnode_payload data plain_dir enc_dir.
Definition trees_one (data : list Z) (key_dir plain_dir enc_dir : bytes) : SM sys unit :=
  pk <-- io (load_encrypter cpub e key_dir shared_pub) ;;
  tree_files_written (insert hash) (fun x => x) (enc_plain pk) ser_plain deser_plain ser_pnode data plain_dir enc_dir.

(** what the setup program prints; [an_data] is not printed (the generated sets
    before they are written) *)
Record announced := mkAnnounced {
  an_size : Z; an_sum : Z;
  an_data : dataset * list dataset * dataset * list dataset }.
(** GenerateData, setup.cc:41-124 *)
Definition setup_data (data out : bytes) (days daily start shared_flag max_value : Z) (func : functionality) : SM sys announced :=
  let total := u32 (start + u32 (days * daily)) in
  let shared := shared_size total shared_flag in
  g <-- rand (generate_add_only days daily start (u32 shared) (u32 max_value)) ;;
  let '(tree0, days0, tree1, days1, sum) := g in
  let sets := (tree0, days0, tree1, days1) in
  io (write_days e (p0_dir data) (p1_dir data) (Z.to_nat days) 1 days0 days1) ;;;
  if 0 <? start then
    start0 <-- pure (dataset_pairs tree0) ;;
    trees_zero func start0 (p0_dir out) (p0_dir data) (p1_dir data) ;;;
    start1 <-- pure (dataset_elements tree1) ;;
    trees_one start1 (p1_dir out) (p1_dir data) (p0_dir data) ;;;
    r <-- pure (count_rows (d_elements tree0) (d_values tree0) (d_elements tree1) (0, 0)) ;;
    sret (mkAnnounced (shared - fst r) (sum - snd r) sets)
  else sret (mkAnnounced shared sum sets).
(** main, setup.cc:126-159; [p], [q] are the primes drawn *)
Definition setup_program (data out : bytes) (p q : Z) (bits : nat) (days daily start shared_flag max_value : Z) (func : functionality) : SM sys announced :=
  generate_threshold_keys cpub csec cthr e (p0_dir out) (p1_dir out) p q bits ;;;
  setup_data data out days daily start shared_flag max_value func.
End Setup.

(** ** A party's process up to the first message: addition/run.cc:44-83 and
    106-145, HasTree (roles.h:75-110), Party (addition/party.h:25-55) and the
    data sets (party_zero.cc:21-26 and 77-87, party_one.h:19-25).
    [dir], [keys]: the party's directories under --data_dir and --out_dir *)
Section Party.
Variable e : env.
Context {A C L : Type}.
Variable desern : pnode -> outcome (TreeModel.node A).
Variable desern' : list (welem Gr) -> outcome (TreeModel.node C).
Variable load : dataset -> outcome L.
(** throw std::runtime_error, caught by nobody: like [.value()] in KeyModel.must *)
Definition load_trees (dir : bytes) : SM world (tree A * tree C) :=
  pm <-- must (read_msg e cpt (dir ++ plaintext_tree)) ;;
  my <-- must (pure (tree_deserialize desern pm)) ;;
  em <-- must (read_msg e cet (dir ++ encrypted_tree)) ;;
  other <-- must (pure (tree_deserialize desern' em)) ;;
  sret (my, other).
Record party := mkParty {
  pa_trees : tree A * tree C;
  pa_pk : pubkey Gr; pa_sk : Z; pa_n : Z; pa_share : Z; pa_pai : pub;
  pa_data : list L }.
Definition start_party (dir keys : bytes) (days : nat) (trees : bool) : SM sys party :=
  ds <-- io (read_days e dir days 1) ;;
  ts <-- io (if trees then load_trees dir else sret (tree_new stash node, tree_new stash node)) ;;
  ks <-- io (load_addition cpub csec cthr e keys) ;;
  let '(pk, sk, n, share) := ks in
  pai <-- rand (new_paillier n) ;;
  data <-- pure (omap load ds) ;;
  sret (mkParty ts pk sk n share pai data).
End Party.

(** ** One day, with each party's own keys (AddModel has one public key) *)
Section Days.
Variables (pk0 pk1 : pubkey Gr) (sk0 sk1 : Z).
Variable csize : client_msg Gr -> Z.
Variable ssize : server_msg Gr -> Z.
(** PartyZeroNoPayload::Run, party_zero.cc:30-36 *)
Definition ca_day2 (st : client Gr Z Z * server (ct Gr)) : M (client Gr Z Z * server (ct Gr)) :=
  let '(c, s) := st in
  '(my, m1) <- ca_gen1 hash pk0 (today c) (cl_my c) (cl_other c) ;;
  let c1 := mkClient my (cl_other c) (cl_data c) (cl_day c) (cl_total c) (cl_out c) in
  '(s', r) <- send (ca_handle hash pk1 sk1 csize ssize) (C_party_zero (P0_I m1)) s ;;
  c2 <- lift (cl_handle (fun m => ca_process sk0 m c1) (fun _ => Err InvalidArgument) (Err InvalidArgument) false c1 r) ;;
  ret (c2, s').
Definition psi_day2 (dec_string : Z -> string) (st : client Gr Z psi_out * server (ct Gr)) : M (client Gr Z psi_out * server (ct Gr)) :=
  let '(c, s) := st in
  '(my, m1) <- psi_gen1 hash pk0 (today c) (cl_my c) (cl_other c) ;;
  let c1 := mkClient my (cl_other c) (cl_data c) (cl_day c) (cl_total c)
              (record_points pk0 dec_string (today c) (fst (cl_out c)), snd (cl_out c)) in
  '(s', r) <- send (psi_handle hash pk1 sk1 csize ssize) (C_party_zero (P0_I m1)) s ;;
  c2 <- lift (cl_handle (fun m => psi_process sk0 m c1) (fun _ => Err InvalidArgument) (Err InvalidArgument) false c1 r) ;;
  ret (c2, s').
(** PartyZeroSum::Run, party_zero.cc:442-456 *)
Definition sum_day2 (st : client Gr (Z * Z) (Z * Z) * server (ct Gr * ct Gr)) : M (client Gr (Z * Z) (Z * Z) * server (ct Gr * ct Gr)) :=
  let '(c, s) := st in
  let handle := sum_handle hash pk1 sk1 csize ssize in
  '(my, m1) <- sum_gen1 hash pk0 (today c) (cl_my c) (cl_other c) ;;
  let c1 := mkClient my (cl_other c) (cl_data c) (cl_day c) (cl_total c) (cl_out c) in
  '(s1, r2) <- send handle (C_party_zero (P0_I m1)) s ;;
  '(c2, s2, r4) <- cl_handle
       (fun m => '(c2, w) <- sum_message_iii pk0 sk0 m c1 ;;
                 '(s2, r4) <- send handle (C_party_zero (P0_III_sum w)) s1 ;; ret (c2, s2, r4))
       (fun w => c2 <- lift (sum_process_iv pk0 sk0 w c1) ;; ret (c2, s1, r2))
       (lift (Err InvalidArgument)) true c1 r2 ;;
  '(c3, s3) <- cl_handle
       (fun m => '(c3, w) <- sum_message_iii pk0 sk0 m c2 ;;
                 '(s3, _) <- send handle (C_party_zero (P0_III_sum w)) s2 ;; ret (c3, s3))
       (fun w => c3 <- lift (sum_process_iv pk0 sk0 w c2) ;; ret (c3, s2))
       (lift (Err InvalidArgument)) true c2 r4 ;;
  ret (c3, s3).
(** PartyZeroSecretShare::Run, party_zero.cc:463-475 *)
Definition ss_day2 (n0 n1 : Z) (pai0 pai1 : pub) (psk0 psk1 : Z) (st : client Gr (Z * Z) (list Z) * server (ct Gr * Z)) : M (client Gr (Z * Z) (list Z) * server (ct Gr * Z)) :=
  let '(c, s) := st in
  let handle := ss_handle hash pk1 sk1 csize ssize n1 pai1 psk1 in
  '(my, m1) <- ss_gen1 hash pk0 pai0 (today c) (cl_my c) (cl_other c) ;;
  let c1 := mkClient my (cl_other c) (cl_data c) (cl_day c) (cl_total c) (cl_out c) in
  '(s1, r2) <- send handle (C_party_zero (P0_I m1)) s ;;
  cl_handle
    (fun m => '(c2, ps) <- ss_message_iii sk0 n0 pai0 psk0 m c1 ;;
              '(s2, _) <- send handle (C_party_zero (P0_III_ss ps)) s1 ;; ret (c2, s2))
    (fun _ => ret (c1, s1))
    (lift (Err InvalidArgument)) true c1 r2.
End Days.

(** ** Both parties' programs, one definition per --func; party one is started
    first.  [e0], [e1]: the environments of the two processes; [days] and
    [trees] are the flags of the same names *)
Section Run.
Variables e0 e1 : env.
Variables (data out : bytes) (days : nat) (trees : bool).
Variable csize : client_msg Gr -> Z.
Variable ssize : server_msg Gr -> Z.
Definition one_elements {C} (desern' : list (welem Gr) -> outcome (TreeModel.node C)) :=
  start_party e1 deser_pnode desern' dataset_elements (p1_dir data) (p1_dir out) days trees.
Definition zero_elements := start_party e0 deser_pnode (deser_node deser_plain) dataset_elements (p0_dir data) (p0_dir out) days trees.
Definition zero_pairs (payload : Z * Z -> Z * Z) := start_party e0 deser_pnode_payload (deser_node deser_plain)
  (fun d => let! l := dataset_pairs d in Ok (map payload l)) (p0_dir data) (p0_dir out) days trees.
Definition prog_ca : SM sys (client Gr Z Z * server (ct Gr)) :=
  p1 <-- one_elements (deser_node deser_plain) ;; p0 <-- zero_elements ;;
  rand (run_days cl_finished (ca_day2 (pa_pk p0) (pa_pk p1) (pa_sk p0) (pa_sk p1) csize ssize) days
    (client_with (pa_trees p0) days (pa_data p0) 0, server_with (pa_trees p1) days (pa_data p1))).
Definition prog_psi (dec_string : Z -> string) : SM sys (client Gr Z (psi_out (Gr := Gr)) * server (ct Gr)) :=
  p1 <-- one_elements (deser_node deser_plain) ;; p0 <-- zero_elements ;;
  rand (run_days cl_finished (psi_day2 (pa_pk p0) (pa_pk p1) (pa_sk p0) (pa_sk p1) csize ssize dec_string) days
    (client_with (pa_trees p0) days (pa_data p0) (([], []) : psi_out (Gr := Gr)), server_with (pa_trees p1) days (pa_data p1))).
Definition prog_sum : SM sys (client Gr (Z * Z) (Z * Z) * server (ct Gr * ct Gr)) :=
  p1 <-- one_elements (deser_node deser_elgamal) ;; p0 <-- zero_pairs sum_payload ;;
  rand (run_days cl_finished (sum_day2 (pa_pk p0) (pa_pk p1) (pa_sk p0) (pa_sk p1) csize ssize) days
    (client_with (pa_trees p0) days (pa_data p0) (0, 0), server_with (pa_trees p1) days (pa_data p1))).
Definition prog_ss : SM sys (client Gr (Z * Z) (list Z) * server (ct Gr * Z)) :=
  p1 <-- one_elements (deser_node deser_paillier) ;; p0 <-- zero_pairs ss_payload ;;
  rand (run_days cl_finished (ss_day2 (pa_pk p0) (pa_pk p1) (pa_sk p0) (pa_sk p1) csize ssize
                                (pa_n p0) (pa_n p1) (pa_pai p0) (pa_pai p1) (pa_share p0) (pa_share p1)) days
    (client_with (pa_trees p0) days (pa_data p0) [], server_with (pa_trees p1) days (pa_data p1))).
End Run.
End Prog.
