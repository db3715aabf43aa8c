(** * Key files: upsi/util/elgamal_key_util.cc, the key generation of
    upsi/util/setup_util.cc, crypto/threshold_paillier.cc:67-82 and
    crypto/paillier.cc:195-219, and the constructors of the parties that read
    them back.

    Files are those of FileModel (every operation may fail).  A protobuf message
    is a value; [ser] and [parse] of a [codec] are its serialisation.  Points are
    the [wpoint] of CipherModel.  A file name is normalised by collapsing
    repeated slashes, as POSIX does; links, "." and ".." are not modelled.
    Simplifications: the safe primes drawn by Context::GenerateSafePrime are
    arguments (C40 has their generation), printing is left out, and creating
    the curve does not fail. *)
Require Import List Arith Lia ZArith Bool.
Import ListNotations.
From Verif Require Import Prelude Coins Group ElGamalModel BytesModel CipherModel PaillierModel FileModel.
Local Open Scope Z_scope.

(** SerializeToString / ParseFromString of a message type *)
Record codec (T : Type) := mkCodec { c_ser : T -> bytes; c_parse : bytes -> T }.
Arguments c_ser {T}. Arguments c_parse {T}. Arguments mkCodec {T}.

(** the operating system's view of a name *)
Definition slash : Z := 47.
Fixpoint path (s : bytes) : bytes :=
  match s with
  | [] => []
  | c :: r => match r with
              | d :: _ => if (c =? slash) && (d =? slash) then path r else c :: path r
              | [] => [c]
              end
  end.

(** coins and files *)
Record sys := mkSys { sy_world : world; sy_coins : tape }.
Definition rand {A} (m : M A) : SM sys A := fun s =>
  match m (sy_coins s) with
  | Ok (a, t) => (mkSys (sy_world s) t, Ok a)
  | Err c => (s, Err c)
  | Abort => (s, Abort)
  | UB => (s, UB)
  end.
Definition io {A} (m : SM world A) : SM sys A := zoom sy_world (fun w s => mkSys w (sy_coins s)) m.
Definition pure {S A} (o : outcome A) : SM S A := sfail o.

Section Keys.
Context {Gr : group}.
(** message types *)
Definition pub_msg := (wpoint Gr * wpoint Gr)%type.   (* ElGamalPublicKey: g, y *)
Definition sec_msg := bytes.                                           (* ElGamalSecretKey: x *)
Definition thr_msg := (bytes * bytes)%type.                            (* ThresholdPaillierKey: n, share *)
Definition ppub_msg := (bytes * Z)%type.                               (* PaillierPublicKey: n, s *)
Definition psec_msg := (bytes * bytes * Z)%type.                       (* PaillierPrivateKey: p, q, s *)
Variables (cpub : codec pub_msg) (csec : codec sec_msg) (cthr : codec thr_msg) (cppub : codec ppub_msg) (cpsec : codec psec_msg).
Variable e : env.

Definition write_msg {T} (c : codec T) (t : T) (name : bytes) : SM world unit := write_proto_to_file e (c_ser c) t (path name).
Definition read_msg {T} (c : codec T) (name : bytes) : SM world T := read_proto_from_file e (c_parse c) (path name).

(** SerializePublicKey, elgamal_proto_util.cc:20-31, DeserializePublicKey 51-60 *)
Definition ser_pubkey (k : pubkey Gr) : outcome pub_msg :=
  let! g := point_to_bytes (pk_g k) in let! y := point_to_bytes (pk_y k) in Ok (g, y).
Definition deser_pubkey (m : pub_msg) : outcome (pubkey Gr) :=
  let! g := create_point (fst m) in let! y := create_point (snd m) in Ok (mkPk g y).

(** GenerateElGamalKeyPair, elgamal_key_util.cc:37-55 *)
Definition elgamal_key_pair (pub_fn prv_fn : bytes) : SM sys unit :=
  kp <-- rand (@gen_key_pair Gr) ;;
  pm <-- pure (ser_pubkey (fst kp)) ;;
  sm <-- pure (to_bytes (snd kp)) ;;
  io (write_msg cpub pm pub_fn) ;;;
  io (write_msg csec sm prv_fn).
(** ComputeJointElGamalPublicKey, elgamal_key_util.cc:57-87 *)
Fixpoint read_shares (fns : list bytes) : SM sys (list (pubkey Gr)) :=
  match fns with
  | [] => sret []
  | f :: r =>
      m <-- io (read_msg cpub f) ;;
      k <-- pure (deser_pubkey m) ;;
      ks <-- read_shares r ;; sret (k :: ks)
  end.
Definition joint_public_key (shares : list bytes) (joint : bytes) : SM sys unit :=
  match shares with
  | [] => sfail (Err InvalidArgument)
  | _ =>
      ks <-- read_shares shares ;;
      k <-- pure (public_key_from_shares ks) ;;
      m <-- pure (ser_pubkey k) ;;
      io (write_msg cpub m joint)
  end.
(** GenerateThresholdPaillierKeys, threshold_paillier.cc:11-82 *)
Definition threshold_key_files (p q : Z) (bits : nat) (fn0 fn1 : bytes) : SM sys unit :=
  ks <-- rand (threshold_keygen p q bits) ;;
  let '(n, k0, k1) := ks in
  bn <-- pure (to_bytes n) ;; b0 <-- pure (to_bytes k0) ;; b1 <-- pure (to_bytes k1) ;;
  io (write_msg cthr (bn, b0) fn0) ;;;
  io (write_msg cthr (bn, b1) fn1).

(** file names: "elgamal.pub" etc. *)
Definition elgamal_pub : bytes := [101; 108; 103; 97; 109; 97; 108; 46; 112; 117; 98].
Definition elgamal_key : bytes := [101; 108; 103; 97; 109; 97; 108; 46; 107; 101; 121].
Definition shared_pub : bytes := [115; 104; 97; 114; 101; 100; 46; 112; 117; 98].
Definition paillier_key : bytes := [112; 97; 105; 108; 108; 105; 101; 114; 46; 107; 101; 121].
Definition paillier_pub : bytes := [112; 97; 105; 108; 108; 105; 101; 114; 46; 112; 117; 98].
(** FLAGS_out_dir + "p0/", + "p1/" *)
Definition p0_dir (out : bytes) : bytes := out ++ [112; 48; slash].
Definition p1_dir (out : bytes) : bytes := out ++ [112; 49; slash].

(** GenerateThresholdKeys, setup_util.cc:19-81 *)
Definition generate_threshold_keys (d0 d1 : bytes) (p q : Z) (bits : nat) : SM sys unit :=
  elgamal_key_pair (d0 ++ slash :: elgamal_pub) (d0 ++ slash :: elgamal_key) ;;;
  elgamal_key_pair (d1 ++ slash :: elgamal_pub) (d1 ++ slash :: elgamal_key) ;;;
  joint_public_key [d0 ++ elgamal_pub; d1 ++ elgamal_pub] (d0 ++ shared_pub) ;;;
  joint_public_key [d0 ++ elgamal_pub; d1 ++ elgamal_pub] (d1 ++ shared_pub) ;;;
  threshold_key_files p q bits (d0 ++ paillier_key) (d1 ++ paillier_key).
(** GeneratePaillierKeys, setup_util.cc:83-126, with GeneratePaillierKeyPair,
    paillier.cc:195-219; [p0 q0], [p1 q1] are the primes drawn for the two keys *)
Definition generate_paillier_keys (d0 d1 : bytes) (p0 q0 p1 q1 : Z) : SM sys unit :=
  bp0 <-- pure (to_bytes p0) ;; bq0 <-- pure (to_bytes q0) ;; bn0 <-- pure (to_bytes (p0 * q0)) ;;
  bp1 <-- pure (to_bytes p1) ;; bq1 <-- pure (to_bytes q1) ;; bn1 <-- pure (to_bytes (p1 * q1)) ;;
  io (write_msg cppub (bn0, 1) (d1 ++ paillier_pub)) ;;;
  io (write_msg cpsec (bp0, bq0, 1) (d0 ++ paillier_key)) ;;;
  io (write_msg cppub (bn1, 1) (d0 ++ paillier_pub)) ;;;
  io (write_msg cpsec (bp1, bq1, 1) (d1 ++ paillier_key)).
(** GenerateElGamalKeys, setup_util.cc:128-160 *)
Definition generate_elgamal_keys (d0 d1 : bytes) : SM sys unit :=
  elgamal_key_pair (d0 ++ slash :: elgamal_pub) (d0 ++ slash :: elgamal_key) ;;;
  elgamal_key_pair (d1 ++ slash :: elgamal_pub) (d1 ++ slash :: elgamal_key).

(** A file that cannot be read or a key that cannot be decoded ends the process:
    the runtime_error is constructed but not thrown, and [.value()] on the error
    status aborts. *)
Definition must {S A} (m : SM S A) : SM S A := fun s => match m s with (s', Err _) => (s', Abort) | r => r end.
(** addonly::Party, addition/party.h:25-55, with the file names of
    addition/run.cc:49-55 and 111-117: shared public key, own ElGamal share,
    modulus and own Paillier share *)
Definition load_addition (dir : bytes) : SM world (pubkey Gr * Z * Z * Z) :=
  em <-- must (read_msg cpub (dir ++ shared_pub)) ;;
  pk <-- must (pure (deser_pubkey em)) ;;
  x <-- must (read_msg csec (dir ++ elgamal_key)) ;;
  pm <-- must (read_msg cthr (dir ++ paillier_key)) ;;
  sret (pk, of_bytes x, of_bytes (fst pm), of_bytes (snd pm)).
(** deletion::Party, deletion/party.h:38-55, and deletion-psi/party.h: own
    primes and the other party's modulus with the exponents s *)
Definition load_deletion (dir : bytes) : SM world (Z * Z * Z * (Z * Z)) :=
  sm <-- must (read_msg cpsec (dir ++ paillier_key)) ;;
  pm <-- must (read_msg cppub (dir ++ paillier_pub)) ;;
  sret (of_bytes (fst (fst sm)), of_bytes (snd (fst sm)), snd sm, (of_bytes (fst pm), snd pm)).
(** original::Party, original/party.h:27-63, with original/run.cc:48-54 and
    108-114: own public key, the other's public key, own secret key *)
Definition load_original (mine other : bytes) : SM world (pubkey Gr * pubkey Gr * Z) :=
  em <-- must (read_msg cpub (mine ++ elgamal_pub)) ;;
  k <-- must (pure (deser_pubkey em)) ;;
  em' <-- must (read_msg cpub (other ++ elgamal_pub)) ;;
  k' <-- must (pure (deser_pubkey em')) ;;
  x <-- must (read_msg csec (mine ++ elgamal_key)) ;;
  sret (k, k', of_bytes x).
(** what GenerateTrees reads, setup_util.cc:162-176 (GetElGamal) and 223-231 *)
Definition load_encrypter (dir pk_fn : bytes) : SM world (pubkey Gr) :=
  em <-- read_msg cpub (dir ++ pk_fn) ;; pure (deser_pubkey em).
End Keys.
