(** * The protocols with deletions: upsi/deletion (CA and SUM) and
    upsi/deletion-psi.

    Models deletion/party.h, party_zero.{h,cc}, party_one.{h,cc}, the loops over
    the days in deletion/run.cc:98-127 and 184-232, and the same files of
    deletion-psi.

    The semi-honest two-party computation of emp-sh2pc (equality of two private
    inputs, masked by a bit of ALICE and revealed to BOB) and the IKNP oblivious
    transfer are modelled by the values they deliver.

    Not modelled: timers, printing, communication counters, CreateMockTrees,
    key files, sockets, stack exhaustion by the variable-length arrays. *)
Require Import List Arith Lia ZArith Bool.
Import ListNotations.
From Verif Require Import Prelude TreeModel TreeDelModel Coins Group ElGamalModel BytesModel ContextModel CipherModel PaillierModel WireModel SyncModel AddModel.
Local Open Scope Z_scope.

(** ** Party: combination of paths, circuit and transfer *)
Section Party.
Variable hash : Z -> list bool.               (* computeBinaryHash of the element *)

(** one iteration of CombinePathInitiator, deletion/party.h:143-161 (deletion-psi/
    party.h:143-159): the new gc_x, the new gc_z, the message.  [P] is [pk], the
    other party's public key. *)
Definition combine_item (P : pub) (e : entry) (path_i : Z * Z) : M (Z * Z * Z) :=
  let value := if snd e <? 0 then snd e + pp_n P else snd e in
  alpha <- rand_less_than (pp_n P) ;;
  alpha_minus_x <- pub_encrypt P (alpha - fst e) ;;
  let tmp := pub_add P alpha_minus_x (fst path_i) in
  z <- (if snd e =? 1 then ret (snd path_i) else lift (pub_multiply P (snd path_i) value)) ;;
  ret (alpha, z, tmp).
(** CombinePathInitiator, party.h:134-165 *)
Definition combine_initiator (P : pub) (other : tree (Z * Z)) (e : entry) : M (list (Z * Z * Z)) :=
  mapM (combine_item P e) (get_path (hash (fst e)) other).
(** CombinePathResponder, party.h:167-174 *)
Definition combine_responder (V : priv) (cs : list Z) : outcome (list Z) := omap (priv_decrypt V) cs.

(** [circuit_input]: BigNum2bool(x, ., GC_SIZE), an argument so that theorems hold
    for every hash; [circuit_input_sha] is the one of the code. *)
Variable circuit_input : Z -> outcome (list bool).
Definition bits_eqb (a b : list bool) : bool := if list_eq_dec bool_dec a b then true else false.
(** one position of GarbledCircuit(bool), party.h:176-277.  [P] is the sender's
    [pk], [V] the receiver's [sk] (both for the modulus n); [sender_is_alice].
    Lines 188-219: bits; 236-262: the two strings; OT; 264-271: decryption.
    Returns the sender's beta and the receiver's plaintext.  Here the coins of
    one position are drawn together; the code draws all bits first. *)
Definition gc_item (P : pub) (V : priv) (sender_is_alice : bool) (xz : Z * Z) (y : Z) : M (Z * Z) :=
  let n := pp_n P in
  let k := blocks_for n in
  a <- lift (circuit_input (fst xz)) ;;
  b <- lift (circuit_input y) ;;
  r <- rand_less_than 2 ;;
  let alice_bit := r =? 1 in
  let bob_bit := xorb (bits_eqb a b) (negb alice_bit) in
  let sender_bit := if sender_is_alice then alice_bit else bob_bit in
  let receiver_bit := if sender_is_alice then bob_bit else alice_bit in
  beta <- rand_less_than n ;;
  encrypted_beta <- pub_encrypt P (n - beta) ;;
  let if_eq := pub_add P (snd xz) encrypted_beta in
  let if_neq := encrypted_beta in
  b_eq <- lift (bignum2block if_eq k) ;;
  b_neq <- lift (bignum2block if_neq k) ;;
  let block_zero := if sender_bit then b_neq else b_eq in
  let block_one := if sender_bit then b_eq else b_neq in
  let received := if receiver_bit then block_one else block_zero in
  t <- lift (priv_decrypt V (block2bignum received)) ;;
  ret (beta, t).
(** party.h:273-290: the sum [r] modulo n, read as a signed number, modulo 2^64 *)
Definition to_share (n r : Z) : outcome Z :=
  if n <? r * 2 then let! u := bignum2uint64 (n - r) in Ok ((- u) mod 2 ^ 64)
  else bignum2uint64 r.
(** GarbledCircuit(true) at the sender together with GarbledCircuit(false) at
    the receiver: the sums of their values modulo n (party.h:253, 272-273).
    Vectors of different lengths leave the two parties out of step (UB here). *)
Definition gc_sums (P : pub) (V : priv) (sender_is_alice : bool) (xs zs ys : list Z) : M (Z * Z) :=
  if negb ((length xs =? length zs)%nat && (length xs =? length ys)%nat) then lift UB else
  items <- mapM (fun p => gc_item P V sender_is_alice (fst p) (snd p)) (combine (combine xs zs) ys) ;;
  ret (fold_left Z.add (map fst items) 0 mod pp_n P, fold_left Z.add (map snd items) 0 mod pp_n P).
End Party.
(** the circuit input of the code: 72 bits *)
Definition circuit_input_sha (sha256 : bytes -> bytes) (x : Z) : outcome (list bool) := bignum2bool sha256 x 72.

(** ** deletion: CA and SUM *)
Section Deletion.
Context {Gr : group}.
Variable hash : Z -> list bool.
Variable circuit_input : Z -> outcome (list bool).

(** class Party, deletion/party.h:14-35 (trees from HasTree) *)
Record party := mkParty {
  pt_my : tree entry; pt_other : tree (Z * Z);
  pt_x : list Z; pt_y : list Z; pt_z : list Z }.
Definition party_new (stash_size node_size : nat) : party :=
  mkParty (tree_new stash_size node_size) (tree_new stash_size node_size) [] [] [].
(** ResetGarbledCircuit, party.h:128-132 *)
Definition reset_gc (p : party) : party := mkParty (pt_my p) (pt_other p) [] [] [].
(** the sender's tree update, my_tree.Update(ctx, sk, elements, ...) *)
Definition del_update (V : priv) (es : list entry) : ST (tree entry) (update Gr) :=
  send_update (insert_del hash) pad_payload (enc_deletion (pv_n V) (priv_encrypt V)) ser_deletion es.
(** the loops over new elements, party_zero.cc:99-110, party_one.cc:66-76: all
    elements, concatenated *)
Definition initiate (P : pub) (es : list entry) (other : tree (Z * Z)) : M (list (Z * Z * Z)) :=
  l <- mapM (combine_initiator hash P other) es ;; ret (concat l).
Definition only_paillier (c : Z) : outcome (welem Gr) := let! b := to_bytes c in Ok (WOnlyPaillier b).
Definition g_x (i : Z * Z * Z) : Z := fst (fst i).
Definition g_z (i : Z * Z * Z) : Z := snd (fst i).
Definition g_c (i : Z * Z * Z) : Z := snd i.

(** PartyZero::GenerateMessageI, party_zero.cc:87-113 *)
Definition del_gen1 (P : pub) (V : priv) (es : list entry) (p : party) : M (party * msg12 Gr) :=
  fun tp =>
    let '(my', o) := del_update V es (pt_my p) tp in
    (u <- (fun _ => o) ;;
     items <- initiate P es (pt_other p) ;;
     ws <- lift (omap only_paillier (map g_c items)) ;;
     ret (mkParty my' (pt_other p) (pt_x p ++ map g_x items) (pt_y p) (pt_z p ++ map g_z items), mkMsg u ws)) tp.
(** other_tree.Update, DeserializeCiphertexts and CombinePathResponder, in
    party_zero.cc:72-80 and party_one.cc:52-61.  The state survives errors, except
    that a failing decryption drops the values of gc_y pushed before it. *)
Definition del_receive (V : priv) (m : msg12 Gr) (p : party) : party * outcome unit :=
  match recv_update deser_deletion (m_updates m) (pt_other p) with
  | Ok other' =>
      let p1 := mkParty (pt_my p) other' (pt_x p) (pt_y p) (pt_z p) in
      match (let! cs := omap deser_cand_only_paillier (m_cands m) in combine_responder V cs) with
      | Ok ys => (mkParty (pt_my p) other' (pt_x p) (pt_y p ++ ys) (pt_z p), Ok tt)
      | Err c => (p1, Err c) | Abort => (p1, Abort) | UB => (p1, UB)
      end
  | Err c => (p, Err c) | Abort => (p, Abort) | UB => (p, UB)
  end.
(** PartyOne::GenerateMessageII, party_one.cc:43-81.  After an error in the loop
    over the elements gc_x and gc_z keep their old values here (the code has
    pushed a prefix; the next call starts with ResetGarbledCircuit). *)
Definition del_gen2 (P : pub) (V : priv) (m : msg12 Gr) (es : list entry) : ST party (msg12 Gr) :=
  fun p tp =>
    match del_receive V m (reset_gc p) with
    | (p1, Ok _) =>
        let '(my', o) := del_update V es (pt_my p1) tp in
        let p2 := mkParty my' (pt_other p1) (pt_x p1) (pt_y p1) (pt_z p1) in
        match (u <- (fun _ => o) ;; items <- initiate P es (pt_other p1) ;;
               ws <- lift (omap only_paillier (map g_c items)) ;; ret (u, items, ws)) tp with
        | Ok ((u, items, ws), tp1) =>
            (mkParty my' (pt_other p1) (pt_x p1 ++ map g_x items) (pt_y p1) (pt_z p1 ++ map g_z items), Ok (mkMsg u ws, tp1))
        | Err c => (p2, Err c) | Abort => (p2, Abort) | UB => (p2, UB)
        end
    | (p1, Err c) => (p1, Err c) | (p1, Abort) => (p1, Abort) | (p1, UB) => (p1, UB)
    end.

(** PartyOne, party_one.h:21-60 *)
Record dserver := mkDS {
  ds_party : party; ds_data : list (list entry); ds_day : nat; ds_finished : bool }.
(** Reset, party_one.h:45-47 *)
Definition ds_reset (s : dserver) : dserver := mkDS (ds_party s) (ds_data s) (ds_day s) false.
(** Handle, party_one.cc:14-41; datasets[current_day] beyond the end is UB. *)
Definition del_handle (P : pub) (V : priv) (req : client_msg Gr) (s : dserver) (tp : tape)
  : dserver * outcome (option (server_msg Gr)) :=
  if ds_finished s then (s, Err InvalidArgument) else
  match req with
  | C_party_zero (P0_I m) =>
      match nth_error (ds_data s) (ds_day s) with
      | None => (s, UB)
      | Some es =>
          match del_gen2 P V m es (ds_party s) tp with
          | (p', Ok (r, _)) => (mkDS p' (ds_data s) (S (ds_day s)) true, Ok (Some (S_party_one (P1_II r))))
          | (p', Err c) => (mkDS p' (ds_data s) (ds_day s) false, Err c)
          | (p', Abort) => (mkDS p' (ds_data s) (ds_day s) false, Abort)
          | (p', UB) => (mkDS p' (ds_data s) (ds_day s) false, UB)
          end
      end
  | _ => (s, Err InvalidArgument)
  end.

(** PartyZero, party_zero.h:26-73 *)
Record dclient := mkDC {
  dc_party : party; dc_data : list (list entry); dc_day : nat; dc_total : nat; dc_result : Z }.
(** Handle and ProcessMessageII, party_zero.cc:25-41, 68-85 *)
Definition dc_handle (V : priv) (m : server_msg Gr) (c : dclient) : outcome dclient :=
  if (dc_total c <=? dc_day c)%nat then Err InvalidArgument else
  match m with
  | S_party_one (P1_II r) =>
      match del_receive V r (dc_party c) with
      | (p', Ok _) => Ok (mkDC p' (dc_data c) (S (dc_day c)) (dc_total c) (dc_result c))
      | (_, Err k) => Err k | (_, Abort) => Abort | (_, UB) => UB
      end
  | _ => Err InvalidArgument
  end.

(** keys: party zero holds [V0] and the public key [P1] of party one, party one
    holds [V1] and [P0] (setup_util.cc:94-112) *)
Variables (P0 P1 : pub) (V0 V1 : priv).
(** Run, party_zero.cc:43-49 *)
Definition dc_run (st : dclient * dserver) : M (dclient * dserver) :=
  let '(c, s) := st in
  let p := reset_gc (dc_party c) in
  match nth_error (dc_data c) (dc_day c) with
  | None => lift UB
  | Some es =>
      '(p1, m1) <- del_gen1 P1 V0 es p ;;
      '(s', r) <- send (del_handle P0 V1) (C_party_zero (P0_I m1)) s ;;
      c' <- lift (dc_handle V0 r (mkDC p1 (dc_data c) (dc_day c) (dc_total c) (dc_result c))) ;;
      ret (c', s')
  end.
(** GarbledCircuit() at both parties, party.h:281-292: first party zero (BOB)
    sends and party one (ALICE) receives, then the other way round; the results
    of the two parties, and the (sender's, receiver's) sums of both rounds *)
Definition round : Type := (Z * Z)%type.
Definition del_circuits (c : party) (s : party) : M (Z * Z * (round * round)) :=
  r0 <- gc_sums circuit_input P1 V1 false (pt_x c) (pt_z c) (pt_y s) ;;
  r1 <- gc_sums circuit_input P0 V0 true (pt_x s) (pt_z s) (pt_y c) ;;
  s0 <- lift (to_share (pp_n P1) (fst r0)) ;;
  t1 <- lift (to_share (pp_n P1) (snd r0)) ;;
  s1 <- lift (to_share (pp_n P0) (fst r1)) ;;
  t0 <- lift (to_share (pp_n P0) (snd r1)) ;;
  ret ((s0 + t0) mod 2 ^ 64, (t1 + s1) mod 2 ^ 64, (r0, r1)).
(** one day at both parties: run.cc:98-127 and 184-232; UpdateResult,
    party_zero.cc:56-58.  The sums of the two rounds are kept so that theorems
    can speak about them. *)
Definition del_day (st : dclient * dserver * (round * round)) : M (dclient * dserver * (round * round)) :=
  '(c, s) <- dc_run (fst (fst st), ds_reset (snd (fst st))) ;;
  '(rs, other_rs, rounds) <- del_circuits (dc_party c) (ds_party s) ;;
  ret (mkDC (dc_party c) (dc_data c) (dc_day c) (dc_total c)
         ((dc_result c + (rs + other_rs) mod 2 ^ 64) mod 2 ^ 64), s, rounds).
(** LoadData (party_zero.cc:17-22) and the constructor (party_one.h:25-33) *)
Definition del_start (stash_size node_size : nat) (d0 d1 : list (list entry)) : dclient * dserver * (round * round) :=
  (mkDC (party_new stash_size node_size) d0 0 (length d0) 0,
   mkDS (party_new stash_size node_size) d1 0 false, ((0, 0), (0, 0))).
End Deletion.

(** [k] days in a row: the states at the end of each day *)
Fixpoint run_trace {S} (day : S -> M S) (k : nat) (st : S) : M (list S) :=
  match k with
  | O => ret []
  | Datatypes.S k' => st' <- day st ;; l <- run_trace day k' st' ;; ret (st' :: l)
  end.
