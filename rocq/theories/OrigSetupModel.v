(** * The original construction from its setup program to the result:
    upsi/original/setup.cc:40-143 (WriteHX, GenerateData), the constructors that
    import the trees and the map (upsi/original/party_zero.h:16-45,
    party_one.h:19-37, party.h:30-36) and both halves of upsi/original/run.cc.

    As in DeployModel a CSV file is its bytes and a file with a protobuf message
    is that message; directories, key files and printing are not modelled: the
    setup program uses the two key pairs of the parties (C52), and the number it
    prints is a field of the result. *)
Require Import String.
Require Import List Arith Lia ZArith Bool.
Import ListNotations.
From Verif Require Import Prelude TreeModel TreeDelModel Coins Group ElGamalModel BytesModel CipherModel PaillierModel WireModel SyncModel CsvModel DataModel AddModel SetupModel DeployModel OrigModel.
Local Open Scope Z_scope.

(** setup.cc:123-130: how many pairs of equal strings (a size_t) *)
Fixpoint pairs_equal (e0 e1 : list bytes) : Z :=
  match e0 with
  | [] => 0
  | x :: r => Z.of_nat (length (filter (same_string x) e1)) + pairs_equal r e1
  end.
(** [shared_size - initial_ca], setup.cc:133: int32 minus size_t *)
Definition u64 (x : Z) : Z := x mod 2 ^ 64.
Definition announced (shared ca : Z) : Z := u64 (u64 shared - u64 ca).

Section Orig.
Context {Gr : group}.
Variable hash : Z -> list bool.
Variable H : Z -> Gr.
Variable dec_string : Z -> string.
Variables pk0 pk1 : pubkey Gr.
Variables sk0 sk1 : Z.
Variables stash node : nat.

(** data/p1/plaintext.tree, data/p0/encrypted.tree, data/p0/elements.ec *)
Record og_files := mkOgF { of_plain : tree_file pnode; of_enc : tree_file (list (welem Gr)); of_oprf : list (string * wpoint Gr) }.
(** WriteHX, setup.cc:40-74 *)
Definition write_hx (start0 : list Z) : outcome (list (string * wpoint Gr)) :=
  omap (fun x => let! w := point_to_bytes (gpow (gpow (H x) sk0) sk1) in Ok (dec_string x, w)) start0.
(** setup.cc:109-119: GenerateTrees encrypts under p1/elgamal.pub *)
Definition og_setup_files (start0 start1 : list Z) : M og_files :=
  f <- trees_plain stash node hash pk1 start1 ;;
  kv <- lift (write_hx start0) ;;
  ret (mkOgF (fst f) (snd f) kv).

(** what the setup program leaves behind and prints; [od_data] is not written
    anywhere (the generated sets before they are written) *)
Record og_deployed := mkOgD {
  od_csv0 : list bytes; od_csv1 : list bytes; od_files : option og_files; od_size : option Z;
  od_data : dataset * list dataset * dataset * list dataset }.
(** GenerateData, setup.cc:76-143 *)
Definition og_generate (days daily start shared_flag max_value : Z) (expected : bool) : M og_deployed :=
  let total := u32 (start + u32 (days * daily)) in
  let shared := shared_size total shared_flag in
  '(tree0, days0, tree1, days1, _) <- generate_add_only days daily start (u32 shared) (u32 max_value) ;;
  csv0 <- lift (omap dataset_write days0) ;;
  csv1 <- lift (omap dataset_write days1) ;;
  let data := (tree0, days0, tree1, days1) in
  if 0 <? start then
    start1 <- lift (dataset_elements tree1) ;;
    start0 <- lift (dataset_elements tree0) ;;
    files <- og_setup_files start0 start1 ;;
    ret (mkOgD csv0 csv1 (Some files)
           (if expected then Some (announced shared (pairs_equal (d_elements tree0) (d_elements tree1))) else None) data)
  else
    ret (mkOgD csv0 csv1 None (Some shared) data).

(** party_zero.h:36-42: [value()] of an error ends the process; a later entry
    with the same key overwrites *)
Fixpoint import_oprf (kv : list (string * wpoint Gr)) (m : list (Gr * string)) : outcome (list (Gr * string)) :=
  match kv with
  | [] => Ok m
  | (e, w) :: r => match (let! p := create_point w in point_key p) with Ok k => import_oprf r ((k, e) :: m) | _ => Abort end
  end.
(** the constructor of party zero, party_zero.h:16-45; without --trees the sizes
    of PSIParams and an empty map *)
Definition og_server_with (files : option og_files) (total : nat) (data : list (list Z)) : outcome (og_server Gr) :=
  match files with
  | None => Ok (og_new stash node total data)
  | Some f =>
      match tree_deserialize (deser_node deser_plain) (of_enc f) with
      | Ok t => let! m := import_oprf (of_oprf f) [] in Ok (mkOgS t m [] [] data 0 total (repeat 0 total))
      | _ => Abort
      end
  end.
(** the constructor of party one, party_one.h:19-37 *)
Definition og_client_with (files : option og_files) (total : nat) (data : list (list Z)) : outcome og_client :=
  match files with
  | None => Ok (oc_new stash node total data)
  | Some f => match tree_deserialize deser_pnode (of_plain f) with Ok t => Ok (mkOgC t data 0 total) | _ => Abort end
  end.

Variable csize : og_req Gr -> Z.
Variable ssize : og_reply Gr -> Z.
(** run.cc of both parties for given files and data (--trees exactly if there are
    files); [k] bounds the number of days observed *)
Definition og_prepared (files : option og_files) (d0 d1 : list (list Z)) (k : nat) :=
  s <- lift (og_server_with files (length d0) d0) ;;
  c <- lift (og_client_with files (length d0) d1) ;;
  run_days oc_finished (og_day_run hash H dec_string pk0 pk1 sk0 sk1 csize ssize) k (c, s).
(** ... and with the data read from the CSV files (ReadDailyDatasets,
    data_util.cc:205-217, then party.h:30-36) *)
Definition og_deployed_run (d : og_deployed) (k : nat) :=
  d0 <- lift (load_elements (od_csv0 d)) ;;
  d1 <- lift (load_elements (od_csv1 d)) ;;
  og_prepared (od_files d) d0 d1 k.
End Orig.
Arguments og_files : clear implicits. Arguments og_deployed : clear implicits.
