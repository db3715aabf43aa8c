(** * Model of upsi/test.cc, the self-test program.

    Simplifications: timers and the announcements are left out; a decryption
    that is reported as wrong on stderr is an index in the result.  The numbers
    of elements and the limit of the discrete logarithm table (test.cc:14-20)
    are parameters.  [object n] is the Paillier object a ThresholdPaillier
    constructor makes for the modulus n (threshold_paillier.cc:84-100, C33). *)
Require Import List Arith Lia ZArith Bool.
Import ListNotations.
From Verif Require Import Prelude Coins Group ElGamalModel BytesModel CipherModel PaillierModel WireModel FileModel KeyModel.
Local Open Scope Z_scope.

Section SelfTest.
Context {Gr : group}.
Variables (cpub : codec (pub_msg (Gr := Gr))) (csec : codec sec_msg) (cthr : codec thr_msg).
Variable e : env.
Variable object : Z -> pub.
Variables (elgamal_size exp_limit paillier_size : nat).

(** the file names, test.cc:28, 33, 40, 157, 162 *)
Definition out_dir : bytes := [111; 117; 116; slash].                                                         (* "out/" *)
Definition epub_name : bytes := out_dir ++ [115; 104; 97; 114; 101; 100; 46; 101; 112; 117; 98].               (* "shared.epub" *)
Definition ekey_one : bytes := out_dir ++ [112; 97; 114; 116; 121; 95; 111; 110; 101; 46; 101; 107; 101; 121].  (* "party_one.ekey" *)
Definition ekey_zero : bytes := out_dir ++ [112; 97; 114; 116; 121; 95; 122; 101; 114; 111; 46; 101; 107; 101; 121]. (* "party_zero.ekey" *)
Definition pkey_one : bytes := out_dir ++ [112; 97; 114; 116; 121; 95; 111; 110; 101; 46; 112; 107; 101; 121].  (* "party_one.pkey" *)
Definition pkey_zero : bytes := out_dir ++ [112; 97; 114; 116; 121; 95; 122; 101; 114; 111; 46; 112; 107; 101; 121]. (* "party_zero.pkey" *)

(** std::stoull(GetRandomSetElement()), test.cc:56 and 168 *)
Definition random_element : M Z := s <- random_set_element ;; ret (numeric_string2uint s).
(** test.cc:79-81: entry i becomes the product of entries i and i+1, in place and
    from the front; [size() - 1] of an empty vector would wrap *)
Fixpoint add_next (cs : list (ct Gr)) : list (ct Gr) :=
  match cs with
  | c :: (d :: _) as r => ct_mul c d :: add_next r
  | _ => cs
  end.
Definition add_all (cs : list (ct Gr)) : outcome (list (ct Gr)) :=
  match cs with [] => UB | _ => Ok (add_next cs) end.
(** positions at which two lists of numbers differ, test.cc:140-142 *)
Fixpoint wrong (i : nat) (decs values : list Z) : list nat :=
  match decs, values with
  | d :: ds, v :: vs => (if d =? v then [] else [i]) ++ wrong (S i) ds vs
  | _, _ => []
  end.
(** what the first test draws and computes: the elements, the masks, the
    recovered points, the reports *)
Record eg_test := mkEgTest { et_elements : list Z; et_masks : list Z; et_recovered : list Gr; et_wrong : list nat }.
(** test.cc:47-146 *)
Definition elgamal_body (pk : pubkey Gr) (x_partial x : Z) : M eg_test :=
  let table := init_decrypt_exp pk exp_limit in
  elements <- repeatM elgamal_size random_element ;;
  values <- repeatM elgamal_size (rand_less_than (Z.of_nat exp_limit)) ;;
  cs0 <- mapM (encrypt pk) elements ;;
  cs1 <- mapM (rerandomize pk) cs0 ;;
  cs2 <- lift (add_all cs1) ;;
  let cs3 := map ct_invert cs2 in
  masked <- mapM (fun c => k <- @create_random_mask Gr ;; ret (k, ct_exp c k)) cs3 ;;
  let partials := map (fun c => partial_decrypt x_partial (snd c)) masked in
  let recovered := map (decrypt x) partials in
  vcs <- mapM (encrypt pk) values ;;
  let vparts := map (partial_decrypt x_partial) vcs in
  decs <- lift (omap (decrypt_exp table x) vparts) ;;
  ret (mkEgTest elements (map fst masked) recovered (wrong 0 decs values)).
(** TestElGamal, test.cc:22-149 *)
Definition test_elgamal : SM sys eg_test :=
  em <-- io (read_msg e cpub epub_name) ;;
  pk <-- pure (deser_pubkey em) ;;
  x1 <-- io (read_msg e csec ekey_one) ;;
  x0 <-- io (read_msg e csec ekey_zero) ;;
  rand (elgamal_body pk (of_bytes x1) (of_bytes x0)).

(** what the second test draws and computes: the elements, the sum of all
    ciphertexts, the recovered numbers *)
Record pl_test := mkPlTest { lt_elements : list Z; lt_sum : Z; lt_recovered : list Z }.
(** test.cc:166-205; the first ciphertext is not re-randomized (178), the last
    one not decrypted (191, 199) *)
Definition paillier_body (n0 k0 n1 k1 : Z) : M pl_test :=
  elements <- repeatM paillier_size random_element ;;
  cs0 <- mapM (pub_encrypt (object n0)) elements ;;
  match cs0 with
  | [] => lift UB
  | c :: r =>
      r' <- mapM (pub_rerand (object n0)) r ;;
      let cs := c :: r' in
      let sum := fold_left (thr_add n0) r' c in
      parts <- lift (omap (thr_partial n0 k0) (removelast cs)) ;;
      rec <- lift (omap (fun cp => thr_decrypt n1 k1 (fst cp) (snd cp)) (combine (removelast cs) parts)) ;;
      ret (mkPlTest elements sum rec)
  end.
(** TestPaillier, test.cc:151-205 *)
Definition test_paillier : SM sys pl_test :=
  m0 <-- io (read_msg e cthr pkey_zero) ;;
  m1 <-- io (read_msg e cthr pkey_one) ;;
  rand (paillier_body (of_bytes (fst m0)) (of_bytes (snd m0)) (of_bytes (fst m1)) (of_bytes (snd m1))).

(** main, test.cc:208-223: the exit code and what the tests computed *)
Definition self_test : SM sys (Z * list nat) := fun s =>
  match test_elgamal s with
  | (s1, Ok t) =>
      match test_paillier s1 with
      | (s2, Ok _) => (s2, Ok (0, et_wrong t))
      | (s2, Err _) => (s2, Ok (1, et_wrong t))
      | (s2, Abort) => (s2, Abort) | (s2, UB) => (s2, UB)
      end
  | (s1, Err _) => (s1, Ok (1, []))
  | (s1, Abort) => (s1, Abort) | (s1, UB) => (s1, UB)
  end.
End SelfTest.
Arguments mkEgTest {Gr}. Arguments et_elements {Gr}. Arguments et_masks {Gr}. Arguments et_recovered {Gr}. Arguments et_wrong {Gr}.
