(** * deletion-psi: the intersection itself with additions and deletions.

    Models deletion-psi/party.h, party_zero.{h,cc}, party_one.{h,cc} and the
    loops over the days in run.cc.  The circuit and the oblivious transfer are
    modelled as in DelModel.

    Not modelled: timers, printing, communication counters, CreateMockTrees, key
    files, sockets, stack exhaustion by the variable-length arrays. *)
Require Import List Arith Lia ZArith Bool.
Import ListNotations.
From Verif Require Import Prelude TreeModel TreeDelModel Coins Group ElGamalModel BytesModel ContextModel CipherModel PaillierModel WireModel SyncModel AddModel DelModel.
Local Open Scope Z_scope.

(** ** the set kept by party zero *)
(** std::set<std::string> of decimal numbers (party_zero.h:70): the keys are
    modelled by the numbers themselves, std::to_string being injective *)
Definition set_mem (x : Z) (l : list Z) : bool := existsb (Z.eqb x) l.
Definition set_insert (x : Z) (l : list Z) : list Z := if set_mem x l then l else x :: l.
Definition set_erase (x : Z) (l : list Z) : list Z := filter (fun y => negb (y =? x)) l.
(** conversion uint64_t -> long long, party_zero.cc:99 *)
Definition to_signed (u : Z) : Z := if u <? 2 ^ 63 then u else u - 2 ^ 64.
(** one iteration of party_zero.cc:98-106 on (result, intersection); -num
    overflows for the smallest long long *)
Definition apply_update (st : Z * list Z) (u : Z) : outcome (Z * list Z) :=
  let num := to_signed u in
  if num =? - 2 ^ 63 then UB else
  let result := if num <? 0 then (fst st - 1) mod 2 ^ 64 else (fst st + 1) mod 2 ^ 64 in
  Ok (result, if set_mem (- num) (snd st) then set_erase (- num) (snd st) else set_insert num (snd st)).
Fixpoint apply_updates (us : list Z) (st : Z * list Z) : outcome (Z * list Z) :=
  match us with [] => Ok st | u :: r => let! st' := apply_update st u in apply_updates r st' end.

Section Psi.
Context {Gr : group}.
Variable hash : Z -> list bool.
Variable circuit_input : Z -> outcome (list bool).

(** class Party, party.h:14-34: one vector per element *)
Record pparty := mkPP {
  pg_my : tree entry; pg_other : tree (Z * Z);
  pg_x : list (list Z); pg_y : list (list Z); pg_z : list (list Z) }.
Definition pparty_new (stash_size node_size : nat) : pparty :=
  mkPP (tree_new stash_size node_size) (tree_new stash_size node_size) [] [] [].
(** ResetGarbledCircuit, party.h:125-129 *)
Definition preset (p : pparty) : pparty := mkPP (pg_my p) (pg_other p) [] [] [].
(** CombinePathInitiator on every element, party.h:131-162, party_zero.cc:164-174,
    party_one.cc:102-113 *)
Definition pinitiate (P : pub) (es : list entry) (other : tree (Z * Z)) : M (list (list (Z * Z * Z))) :=
  mapM (combine_initiator hash P other) es.
(** PartyZero::GenerateMessageI, party_zero.cc:154-177 *)
Definition psi_gen1 (P : pub) (V : priv) (es : list entry) (p : pparty) : M (pparty * msg12 Gr) :=
  fun tp =>
    let '(my', o) := del_update hash V es (pg_my p) tp in
    (u <- (fun _ => o) ;;
     items <- pinitiate P es (pg_other p) ;;
     ws <- lift (omap (fun l => omap only_paillier (map g_c l)) items) ;;
     ret (mkPP my' (pg_other p) (pg_x p ++ map (map g_x) items) (pg_y p) (pg_z p ++ map (map g_z) items), mkMsgV u [] ws)) tp.
(** other_tree.Update, DeserializeCiphertexts, CombinePathResponder
    (party_zero.cc:138-151, party_one.cc:85-96, party.h:164-176).  A failing
    decryption here drops the vectors pushed before it. *)
Definition psi_receive (V : priv) (m : msg12 Gr) (p : pparty) : pparty * outcome unit :=
  match recv_update deser_deletion (m_updates m) (pg_other p) with
  | Ok other' =>
      let p1 := mkPP (pg_my p) other' (pg_x p) (pg_y p) (pg_z p) in
      match (let! cs := omap (omap deser_cand_only_paillier) (m_vct m) in omap (combine_responder V) cs) with
      | Ok ys => (mkPP (pg_my p) other' (pg_x p) (pg_y p ++ ys) (pg_z p), Ok tt)
      | Err c => (p1, Err c) | Abort => (p1, Abort) | UB => (p1, UB)
      end
  | Err c => (p, Err c) | Abort => (p, Abort) | UB => (p, UB)
  end.
(** PartyOne::GenerateMessageII, party_one.cc:78-118.  After an error in the loop
    over the elements gc_x and gc_z keep their old values here. *)
Definition psi_gen2 (P : pub) (V : priv) (m : msg12 Gr) (es : list entry) : ST pparty (msg12 Gr) :=
  fun p tp =>
    match psi_receive V m p with
    | (p1, Ok _) =>
        let '(my', o) := del_update hash V es (pg_my p1) tp in
        let p2 := mkPP my' (pg_other p1) (pg_x p1) (pg_y p1) (pg_z p1) in
        match (u <- (fun _ => o) ;; items <- pinitiate P es (pg_other p1) ;;
               ws <- lift (omap (fun l => omap only_paillier (map g_c l)) items) ;; ret (u, items, ws)) tp with
        | Ok ((u, items, ws), tp1) =>
            (mkPP my' (pg_other p1) (pg_x p1 ++ map (map g_x) items) (pg_y p1) (pg_z p1 ++ map (map g_z) items), Ok (mkMsgV u [] ws, tp1))
        | Err c => (p2, Err c) | Abort => (p2, Abort) | UB => (p2, UB)
        end
    | (p1, Err c) => (p1, Err c) | (p1, Abort) => (p1, Abort) | (p1, UB) => (p1, UB)
    end.

(** LoadData (party_zero.cc:19-30) and the constructor (party_one.h:26-39):
    negative values are deletions, datasets[0]; the rest additions, datasets[1] *)
Definition is_deletion (e : entry) : bool := snd e <? 0.
Definition load_day (rows : list entry) : list entry * list entry :=
  (filter is_deletion rows, filter (fun e => negb (is_deletion e)) rows).

(** PartyOne, party_one.h:22-69 *)
Record pserver := mkPS {
  ps_party : pparty; ps_data : list (list entry * list entry); ps_day : nat; ps_first : bool; ps_finished : bool }.
(** Reset and ResetGarbledCircuit at the start of a day, run.cc:184-185 *)
Definition ps_reset (s : pserver) : pserver := mkPS (preset (ps_party s)) (ps_data s) (ps_day s) false false.
(** FinishDay, party_one.h:58-61 *)
Definition ps_finish (s : pserver) : pserver :=
  if ps_first s then mkPS (ps_party s) (ps_data s) (S (ps_day s)) true true
  else mkPS (ps_party s) (ps_data s) (ps_day s) true (ps_finished s).
(** Handle, party_one.cc:14-42 *)
Definition psi_handle (P : pub) (V : priv) (req : client_msg Gr) (s : pserver) (tp : tape)
  : pserver * outcome (option (server_msg Gr)) :=
  if ps_finished s then (s, Err InvalidArgument) else
  match req with
  | C_party_zero (P0_I m) =>
      match nth_error (ps_data s) (ps_day s) with
      | None => (s, UB)
      | Some (dels, adds) =>
          match psi_gen2 P V m (if ps_first s then adds else dels) (ps_party s) tp with
          | (p', Ok (r, _)) => (ps_finish (mkPS p' (ps_data s) (ps_day s) (ps_first s) false), Ok (Some (S_party_one (P1_II r))))
          | (p', Err c) => (mkPS p' (ps_data s) (ps_day s) (ps_first s) false, Err c)
          | (p', Abort) => (mkPS p' (ps_data s) (ps_day s) (ps_first s) false, Abort)
          | (p', UB) => (mkPS p' (ps_data s) (ps_day s) (ps_first s) false, UB)
          end
      end
  | _ => (s, Err InvalidArgument)
  end.

(** PartyZero, party_zero.h:26-75 *)
Record pclient := mkPC {
  pc_party : pparty; pc_data : list (list entry * list entry); pc_day : nat; pc_total : nat;
  pc_result : Z; pc_set : list Z }.
Definition pc_with (p : pparty) (c : pclient) : pclient :=
  mkPC p (pc_data c) (pc_day c) (pc_total c) (pc_result c) (pc_set c).
(** Handle and ProcessMessageII, party_zero.cc:32-48, 133-152 *)
Definition pc_handle (V : priv) (m : server_msg Gr) (c : pclient) : outcome pclient :=
  if (pc_total c <=? pc_day c)%nat then Err InvalidArgument else
  match m with
  | S_party_one (P1_II r) =>
      match psi_receive V r (pc_party c) with
      | (p', Ok _) => Ok (pc_with p' c)
      | (_, Err k) => Err k | (_, Abort) => Abort | (_, UB) => UB
      end
  | _ => Err InvalidArgument
  end.

(** keys as in DelModel *)
Variables (P0 P1 : pub) (V0 V1 : priv).
(** SendMessageI and Handle for one half of the day, party_zero.cc:53-55, 57-59 *)
Definition exchange (es : list entry) (st : pclient * pserver) : M (pclient * pserver) :=
  let '(c, s) := st in
  '(p1, m1) <- psi_gen1 P1 V0 es (pc_party c) ;;
  '(s', r) <- send (psi_handle P0 V1) (C_party_zero (P0_I m1)) s ;;
  c' <- lift (pc_handle V0 r (pc_with p1 c)) ;;
  ret (c', s').
(** Run, party_zero.cc:50-64; Client::FinishDay increments the day (roles.h).
    The trees between the halves are returned too, for use in theorems. *)
Definition psi_run (st : pclient * pserver) : M (pclient * pserver * (tree entry * tree entry)) :=
  let '(c, s) := st in
  let c1 := pc_with (preset (pc_party c)) c in
  match nth_error (pc_data c) (pc_day c) with
  | None => lift UB
  | Some (dels, adds) =>
      '(c2, s2) <- exchange dels (c1, s) ;;
      '(c3, s3) <- exchange adds (c2, s2) ;;
      ret (mkPC (pc_party c3) (pc_data c3) (S (pc_day c3)) (pc_total c3) (pc_result c3) (pc_set c3), s3,
           (pg_my (pc_party c2), pg_my (ps_party s2)))
  end.

(** GarbledCircuit(bool, ans) at sender and receiver, party.h:178-320: the sums
    of every group modulo n.  Different numbers of groups leave the parties out
    of step (UB). *)
Definition gc_groups (P : pub) (V : priv) (sender_is_alice : bool) (xs zs ys : list (list Z)) : M (list round) :=
  if negb ((length xs =? length zs)%nat && (length xs =? length ys)%nat) then lift UB else
  mapM (fun p => gc_sums circuit_input P V sender_is_alice (fst (fst p)) (snd (fst p)) (snd p)) (combine (combine xs zs) ys).
(** the answers of both parties (party zero first) with the sums, party.h:322-334 *)
Definition psi_circuits (c s : pparty) : M (list Z * list Z * (list round * list round)) :=
  r0 <- gc_groups P1 V1 false (pg_x c) (pg_z c) (pg_y s) ;;
  r1 <- gc_groups P0 V0 true (pg_x s) (pg_z s) (pg_y c) ;;
  s0 <- lift (omap (fun r => to_share (pp_n P1) (fst r)) r0) ;;
  t1 <- lift (omap (fun r => to_share (pp_n P1) (snd r)) r0) ;;
  s1 <- lift (omap (fun r => to_share (pp_n P0) (fst r)) r1) ;;
  t0 <- lift (omap (fun r => to_share (pp_n P0) (snd r)) r1) ;;
  ret (s0 ++ t0, t1 ++ s1, (r0, r1)).
(** a ciphertext sent over the socket in a fixed width, party_zero.cc:77-79,
    88-90, party_one.cc:56-58, 69-71: same bytes as BigNum2block *)
Definition over_io (k : nat) (c : Z) : outcome Z := let! bl := bignum2block c k in Ok (block2bignum bl).
(** one ciphertext: party_zero.cc:75-80 and party_one.cc:55-62 *)
Definition combine_share (ab : Z * Z) : M Z :=
  c <- priv_encrypt V0 (fst ab) ;;
  c' <- lift (over_io (blocks_for (pv_n V0)) c) ;;
  d <- pub_encrypt P0 (snd ab) ;;
  ret (pub_add P0 c' d).
(** BigNum::ToIntValue, big_num.cc:106-112 *)
Definition to_int_value (x : Z) : outcome Z := if x <? 2 ^ 64 then Ok x else Err InvalidArgument.
(** party_zero.cc:88-94: one received ciphertext *)
Definition open_share (c : Z) : outcome Z :=
  let! c' := over_io (blocks_for (pv_n V0)) c in
  let! d := priv_decrypt V0 c' in
  to_int_value (if 2 ^ 64 <=? d then d - 2 ^ 64 else d).
(** SecondPhase of both parties, party_zero.cc:66-96, party_one.cc:44-76: the
    nonzero values party zero sees, in the order of the shuffle *)
Definition second_phase (rs0 rs1 : list Z) : M (list Z) :=
  if negb (length rs0 =? length rs1)%nat then lift UB else
  msgs <- mapM combine_share (combine rs0 rs1) ;;
  sh <- shuffle msgs ;;
  vals <- lift (omap open_share sh) ;;
  ret (filter (fun u => 0 <? u) vals).

(** what a theorem may want to know about a day besides the final states *)
Record day_info := mkDay { di_mid0 : tree entry; di_mid1 : tree entry; di_rounds0 : list round; di_rounds1 : list round }.
(** one day at both parties, run.cc:100-123 and 183-219 *)
Definition psi_day2 (st : pclient * pserver * day_info) : M (pclient * pserver * day_info) :=
  let '(c, s, _) := st in
  '(c1, s1, (mid0, mid1)) <- psi_run (c, ps_reset s) ;;
  '(rs0, rs1, (r0, r1)) <- psi_circuits (pc_party c1) (ps_party s1) ;;
  us <- second_phase rs0 rs1 ;;
  rs <- lift (apply_updates us (pc_result c1, pc_set c1)) ;;
  ret (mkPC (pc_party c1) (pc_data c1) (pc_day c1) (pc_total c1) (fst rs) (snd rs), s1, mkDay mid0 mid1 r0 r1).
Definition psi_start (stash_size node_size : nat) (d0 d1 : list (list entry)) : pclient * pserver * day_info :=
  (mkPC (pparty_new stash_size node_size) (map load_day d0) 0 (length d0) 0 [],
   mkPS (pparty_new stash_size node_size) (map load_day d1) 0 false false,
   mkDay (tree_new stash_size node_size) (tree_new stash_size node_size) [] []).
End Psi.
