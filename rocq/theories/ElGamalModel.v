(** * Model of crypto/elgamal.{h,cc} over an arbitrary prime-order group. *)
Require Import List Arith Lia ZArith Bool.
Import ListNotations.
From Verif Require Import Prelude Coins Group.
Local Open Scope Z_scope.

Section ElGamal.
Context {Gr : group}.

(** struct PublicKey / Ciphertext, elgamal.h:34-52. *)
Record pubkey := mkPk { pk_g : Gr; pk_y : Gr }.
Record ct := mkCt { ct_u : Gr; ct_e : Gr }.

(** ECGroup::GeneratePrivateKey, ec_group.cc:143-145. *)
Definition gen_private_key : M Z := rand_between 1 (ord Gr).

(** GenerateKeyPair, elgamal.cc:33-45. *)
Definition gen_key_pair : M (pubkey * Z) :=
  x <- gen_private_key ;; ret (mkPk gen (gpow gen x), x).

(** GeneratePublicKeyFromShares, elgamal.cc:47-62: empty list refused; the
    CHECK on equal generators aborts (CHECK is not compiled out). *)
Definition public_key_from_shares (shares : list pubkey) : outcome pubkey :=
  match shares with
  | [] => Err InvalidArgument
  | s :: r =>
      fold_left (fun acc s' =>
        let! pk := acc in
        if geqb (pk_g pk) (pk_g s') then Ok (mkPk (pk_g pk) (gop (pk_y pk) (pk_y s'))) else Abort)
      r (Ok s)
  end.

(** elgamal::Mul, Exp, Invert, GetZero, CloneCiphertext, IsCiphertextZero:
    elgamal.cc:64-98. *)
Definition ct_mul (a b : ct) : ct := mkCt (gop (ct_u a) (ct_u b)) (gop (ct_e a) (ct_e b)).
Definition ct_exp (c : ct) (k : Z) : ct := mkCt (gpow (ct_u c) k) (gpow (ct_e c) k).
Definition ct_invert (c : ct) : ct := mkCt (ginv (ct_u c)) (ginv (ct_e c)).
Definition ct_zero : ct := mkCt gid gid.
Definition ct_clone (c : ct) : ct := mkCt (ct_u c) (ct_e c).
Definition ct_is_zero (c : ct) : bool := geqb (ct_u c) gid && geqb (ct_e c) gid.

(** ElGamalEncrypter::Encrypt(ECPoint), elgamal.cc:112-121. *)
Definition encrypt_point (pk : pubkey) (m : Gr) : M ct :=
  r <- gen_private_key ;;
  ret (mkCt (gpow (pk_g pk) r) (gop m (gpow (pk_y pk) r))).
(** ElGamalEncrypter::Encrypt(BigNum), elgamal.cc:123-126. *)
Definition encrypt (pk : pubkey) (m : Z) : M ct := encrypt_point pk (gpow (pk_g pk) m).
(** ReRandomize, elgamal.cc:128-138. *)
Definition rerandomize (pk : pubkey) (c : ct) : M ct :=
  r <- gen_private_key ;;
  ret (mkCt (gop (ct_u c) (gpow (pk_g pk) r)) (gop (ct_e c) (gpow (pk_y pk) r))).
(** CreateRandomMask, elgamal.cc:140-142. *)
Definition create_random_mask : M Z := gen_private_key.

(** ElGamalDecrypter::Decrypt, PartialDecrypt, elgamal.cc:163-176. *)
Definition decrypt (x : Z) (c : ct) : Gr := gop (ct_e c) (ginv (gpow (ct_u c) x)).
Definition partial_decrypt (x : Z) (c : ct) : ct := mkCt (ct_u c) (decrypt x c).

(** InitDecryptExp, elgamal.cc:150-158: the table [exponents_]; [i] is the loop
    variable, [left] the number of iterations left. *)
Fixpoint exp_table (g : Gr) (i : Z) (left : nat) : list Gr :=
  match left with O => [] | S k => gpow g i :: exp_table g (i + 1) k end.
Definition init_decrypt_exp (pk : pubkey) (limit : nat) : list Gr := exp_table (pk_g pk) 0 limit.
(** DecryptExp, elgamal.cc:179-197. *)
Fixpoint find_exp (point : Gr) (i : nat) (table : list Gr) : option nat :=
  match table with
  | [] => None
  | p :: r => if geqb point p then Some i else find_exp point (S i) r
  end.
Definition decrypt_exp (table : list Gr) (x : Z) (c : ct) : outcome Z :=
  match table with
  | [] => Err Internal
  | _ => match find_exp (decrypt x c) 0 table with
         | Some i => Ok (Z.of_nat i)
         | None => Err InvalidArgument
         end
  end.

(** exponentiate, utils.cc:142-145. *)
Definition exponentiate (m : Z) : Gr := gpow gid m.
End ElGamal.
Arguments pubkey : clear implicits.
Arguments ct : clear implicits.
Arguments mkCt {Gr}.
Arguments mkPk {Gr}.
