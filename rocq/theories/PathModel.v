(** * Model of util/file.cc (JoinPath) and util/ec_key_util.cc. *)
Require Import List Arith Lia ZArith Bool.
Import ListNotations.
From Verif Require Import Prelude Coins Group ElGamalModel BytesModel CipherModel FileModel KeyModel.
Local Open Scope Z_scope.

(** IsAbsolutePath, EndsWithSlash, file.cc:27-33 *)
Definition is_absolute (p : bytes) : bool := match p with c :: _ => c =? slash | [] => false end.
Definition ends_with_slash (p : bytes) : bool := match p with [] => false | _ => nth (length p - 1) p 0 =? slash end.
(** std::string::substr; [len] is a size_t, so that the length 1 - 2 of
    "/".substr(1, size() - 2) is 2^64 - 1; a start beyond the end throws *)
Definition substr (s : bytes) (pos : nat) (len : Z) : outcome bytes :=
  if (length s <? pos)%nat then Abort
  else let rest := skipn pos s in
       let len := len mod 2 ^ 64 in
       Ok (if Z.of_nat (length rest) <=? len then rest else firstn (Z.to_nat len) rest).
(** JoinPathImpl, file.cc:37-73.  [first] is it == paths.begin(); the counter
    advances for empty components too (43) *)
Fixpoint join_loop (size counter : nat) (first : bool) (joined : bytes) (paths : list bytes) : outcome bytes :=
  match paths with
  | [] => Ok joined
  | path :: r =>
      if (length path =? 0)%nat then join_loop size (S counter) false joined r
      else if first then
        join_loop size (S counter) false (joined ++ path ++ (if ends_with_slash path then [] else [slash])) r
      else
        let! part := (if ends_with_slash path then
                        if is_absolute path then substr path 1 (Z.of_nat (length path) - 2)
                        else substr path 0 (Z.of_nat (length path) - 1)
                      else if is_absolute path then substr path 1 (-1) else Ok path) in
        join_loop size (S counter) false (joined ++ part ++ (if (counter =? size)%nat then [] else [46])) r
  end.
Definition join_path (paths : list bytes) : outcome bytes := join_loop (length paths) 1 true [] paths.

Section EcKey.
(** EcKeyProto: curve_id, key *)
Definition ec_msg := (Z * bytes)%type.
Variable cec : codec ec_msg.
Variable e : env.
(** OpenSSL's named curves: ECGroup::Create, ec_group.cc:126-134, fails for a
    number that is not one *)
Variable curve : Z -> option group.
(** GenerateEcKey, ec_key_util.cc:25-33 *)
Definition generate_ec_key (curve_id : Z) (name : bytes) : SM sys unit :=
  match curve curve_id with
  | None => sfail (Err InvalidArgument)
  | Some Gr =>
      k <-- rand (@gen_private_key Gr) ;;
      b <-- pure (to_bytes k) ;;
      io (write_msg e cec (curve_id, b) name)
  end.
(** DeserializeEcKey, ec_key_util.cc:35-43 *)
Definition deserialize_ec_key (curve_id : Z) (m : ec_msg) : outcome Z :=
  if curve_id =? fst m then Ok (of_bytes (snd m)) else Err InvalidArgument.
End EcKey.
