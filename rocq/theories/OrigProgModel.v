(** * The programs of the original protocol, through the files they exchange:
    upsi/original/setup.cc (WriteHX, GenerateData, main with --keys and --data)
    and upsi/original/run.cc for both parties.

    As ProgModel: the setup program, party zero (the server) and party one (the
    client) are separate processes that meet in the file system of FileModel.
    Simplifications: printing is left out, and the number the setup program
    prints is a result; messages between the parties are passed directly. *)
Require Import String.
Require Import List Arith Lia ZArith Bool.
Import ListNotations.
From Verif Require Import Prelude TreeModel TreeDelModel Coins Group ElGamalModel BytesModel CipherModel PaillierModel WireModel SyncModel CsvModel DataModel AddModel SetupModel FileModel KeyModel DeployModel OrigModel OrigSetupModel ProgModel.
Local Open Scope Z_scope.

(** "elements.ec" *)
Definition elements_ec : bytes := [101; 108; 101; 109; 101; 110; 116; 115; 46; 101; 99].

Section OrigProg.
Context {Gr : group}.
Variables (cpub : codec (pub_msg (Gr := Gr))) (csec : codec sec_msg).
Variables (cpt : codec (tree_file pnode)) (cet : codec (tree_file (list (welem Gr)))) (coprf : codec (list (string * wpoint Gr))).
Variable hash : Z -> list bool.
Variable H : Z -> Gr.
Variable dec_string : Z -> string.
Variables stash node : nat.

(** ** The setup program *)
Section Setup.
Variable e : env.
(** GenerateTrees with "elgamal.pub", setup_util.cc:201-224 *)
Definition og_tree_files (data : list Z) (key_dir plain_dir enc_dir : bytes) : SM sys unit :=
  pk <-- io (load_encrypter cpub e key_dir elgamal_pub) ;;
  tree_files_written cpt cet stash node e (insert hash) (fun x => x) (enc_plain pk) ser_plain deser_plain ser_pnode data plain_dir enc_dir.
(** WriteHX, setup.cc:40-74 *)
Definition write_hx_file (data out : bytes) (tree0 : dataset) : SM sys unit :=
  m0 <-- io (read_msg e csec (p0_dir out ++ elgamal_key)) ;;
  m1 <-- io (read_msg e csec (p1_dir out ++ elgamal_key)) ;;
  start0 <-- pure (dataset_elements tree0) ;;
  kv <-- pure (write_hx H dec_string (of_bytes m0) (of_bytes m1) start0) ;;
  io (write_msg e coprf kv (p0_dir data ++ elements_ec)).
(** GenerateData, setup.cc:76-143: the number printed, if any, and (not printed)
    the generated sets *)
Definition og_setup_data (data out : bytes) (days daily start shared_flag max_value : Z) (expected : bool) : SM sys (option Z * (dataset * list dataset * dataset * list dataset)) :=
  let total := u32 (start + u32 (days * daily)) in
  let shared := shared_size total shared_flag in
  g <-- rand (generate_add_only days daily start (u32 shared) (u32 max_value)) ;;
  let '(tree0, days0, tree1, days1, _) := g in
  let sets := (tree0, days0, tree1, days1) in
  io (write_days e (p0_dir data) (p1_dir data) (Z.to_nat days) 1 days0 days1) ;;;
  if 0 <? start then
    start1 <-- pure (dataset_elements tree1) ;;
    og_tree_files start1 (p1_dir out) (p1_dir data) (p0_dir data) ;;;
    write_hx_file data out tree0 ;;;
    sret (if expected then Some (OrigSetupModel.announced shared (pairs_equal (d_elements tree0) (d_elements tree1))) else None, sets)
  else sret (Some shared, sets).
(** main, setup.cc:145-175 *)
Definition og_setup_program (data out : bytes) (days daily start shared_flag max_value : Z) (expected : bool) :=
  generate_elgamal_keys cpub csec e (p0_dir out) (p1_dir out) ;;;
  og_setup_data data out days daily start shared_flag max_value expected.
End Setup.

(** ** The parties up to the first message: run.cc:45-67 and 105-125, the
    constructors party.h:29-63, party_zero.h:16-45, party_one.h:19-37; with the
    keys a party holds (own public key, the other's, own secret key) *)
Definition og_keys : Type := (pubkey Gr * pubkey Gr * Z)%type.
Definition og_zero (e : env) (data out : bytes) (days : nat) (trees : bool) : SM sys (og_server Gr * og_keys) :=
  ds <-- io (read_days e (p0_dir data) days 1) ;;
  l <-- pure (omap dataset_elements ds) ;;
  ks <-- io (load_original cpub csec e (p0_dir out) (p1_dir out)) ;;
  s <-- io (if trees then
         em <-- must (read_msg e cet (p0_dir data ++ encrypted_tree)) ;;
         t <-- must (pure (tree_deserialize (deser_node deser_plain) em)) ;;
         kv <-- must (read_msg e coprf (p0_dir data ++ elements_ec)) ;;
         m <-- pure (import_oprf kv []) ;;
         sret (mkOgS t m [] [] l 0 days (repeat 0 days))
       else sret (og_new stash node days l)) ;;
  sret (s, ks).
Definition og_one (e : env) (data out : bytes) (days : nat) (trees : bool) : SM sys (og_client * og_keys) :=
  ds <-- io (read_days e (p1_dir data) days 1) ;;
  l <-- pure (omap dataset_elements ds) ;;
  ks <-- io (load_original cpub csec e (p1_dir out) (p0_dir out)) ;;
  c <-- io (if trees then
         pm <-- must (read_msg e cpt (p1_dir data ++ plaintext_tree)) ;;
         t <-- must (pure (tree_deserialize deser_pnode pm)) ;;
         sret (mkOgC t l 0 days)
       else sret (oc_new stash node days l)) ;;
  sret (c, ks).

Variable csize : og_req Gr -> Z.
Variable ssize : og_reply Gr -> Z.
(** the body of PartyOne::Run, party_one.cc:24-34, with the keys each party has *)
Definition og_day2 (kz ko : og_keys) (st : og_client * og_server Gr) : M (og_client * og_server Gr) :=
  let '(mine0, other0, x0) := kz in
  let '(mine1, other1, x1) := ko in
  let '(c, s) := st in
  let send := og_send hash H dec_string mine0 other0 x0 csize ssize in
  '(t, m1) <- oc_message_i hash H mine1 x1 (nth (oc_day c) (oc_data c) []) (oc_tree c) ;;
  '(s1, r2) <- send (OQ_I m1) s ;;
  m3 <- oc_message_iii other1 x1 r2 ;;
  '(s2, r4) <- send (OQ_III m3) s1 ;;
  m5 <- lift (oc_message_v x1 r4) ;;
  '(s3, _) <- send (OQ_V m5) s2 ;;
  ret (mkOgC t (oc_data c) (S (oc_day c)) (oc_total c), s3).
(** both programs; party zero is started first.  [e0], [e1]: the environments of
    the two processes; [days], [trees]: the flags of the same names *)
Definition prog_original (e0 e1 : env) (data out : bytes) (days : nat) (trees : bool) : SM sys (og_client * og_server Gr) :=
  z <-- og_zero e0 data out days trees ;;
  o <-- og_one e1 data out days trees ;;
  rand (run_days oc_finished (og_day2 (snd z) (snd o)) days (fst o, fst z)).
End OrigProg.
