(** * The protocols with their messages as bytes.

    A call of the stub (network/connection.h:22-41) serializes the ClientMessage;
    the gRPC server parses it, runs UPSIService::Handle (network/service.cc:52-60)
    and serializes the ServerMessage, which the client parses.  Both sides limit
    what they receive to 1024 * 1024 * 1024 bytes (addition/run.cc:88-89 and
    151-153, deletion/run.cc:87 and 196-198, deletion-psi/run.cc:85 and 190-192,
    original/run.cc:71-73 and 128).  gRPC itself follows its
    documentation: a request that is too large or no message never reaches the
    handler and comes back as an error; a reply that is too large is an error for
    the client after the handler has run; Connection::Send makes any of them an
    Internal error.  Lost connections are not modelled here (C46, C60). *)
Require Import String.
Require Import List Arith Lia ZArith Bool.
Import ListNotations.
From Verif Require Import Prelude Coins Group ElGamalModel BytesModel CipherModel PaillierModel TreeModel TreeDelModel WireModel SyncModel AddModel FileModel ProtoModel ProtoCodec OnceModel DelModel.
From Verif Require OrigModel PsiModel.
Local Open Scope Z_scope.

(** run.cc: SetMaxMessageSize, GRPC_ARG_MAX_RECEIVE_MESSAGE_LENGTH *)
Definition message_limit : Z := 1024 * 1024 * 1024.
Definition bytes_of {T} (M : msg T) (t : T) : Z := Z.of_nat (length (serialize M t)).

(** ** one call *)
Section Wire.
Context {Req Rep Q A SV : Type}.
Variables (MQ : msg Q) (to_q : Req -> Q) (of_q : Q -> Req) (MA : msg A) (to_a : Rep -> A) (of_a : A -> Rep).
Definition over_wire (handle : Req -> SV -> tape -> SV * outcome Rep) : Req -> SV -> tape -> SV * outcome Rep := fun r s tp =>
  let sent := serialize MQ (to_q r) in
  if message_limit <? Z.of_nat (length sent) then (s, Err Internal) else
  match parse MQ sent with
  | None => (s, Err Internal)
  | Some q =>
      match handle (of_q q) s tp with
      | (s', Ok rep) =>
          let back := serialize MA (to_a rep) in
          if message_limit <? Z.of_nat (length back) then (s', Err Internal) else
          match parse MA back with Some a => (s', Ok (of_a a)) | None => (s', Err Internal) end
      | x => x
      end
  end.
End Wire.
(** a client's program against a server: the client's part first (as in
    OnceModel.serial) *)
Definition against {Req Rep C SV} (handle : Req -> SV -> tape -> SV * outcome Rep) (prog : M (client_prog Req Rep C)) (s : SV) : M (C * SV) := fun tp =>
  match prog tp with
  | Ok (p, tp1) => match serial handle p s tp1 with Ok (c', s', tp2) => Ok ((c', s'), tp2) | Err e => Err e | Abort => Abort | UB => UB end
  | Err e => Err e | Abort => Abort | UB => UB
  end.

(** ** the messages *)
Definition of_type {T} (M : msg T) : Type := T.
Definition set_if {A} (l : list A) : option (list A) := match l with [] => None | _ => Some l end.
Definition read_set {A} (o : option (list A)) : list A := match o with Some l => l | None => [] end.
Section Messages.
Context {Gr : group}.
Variables (enc : wpoint Gr -> bytes) (dec : bytes -> wpoint Gr).
(** TreeUpdates, crypto_tree.cc:262-283 *)
Definition to_update (u : update Gr) : of_type TreeUpdates := (u_hashes u, map (map (to_welem enc)) (u_nodes u)).
Definition of_update (m : of_type TreeUpdates) : update Gr := mkUpdate (fst m) (map (map (of_welem dec)) (snd m)).
(** MessageI and MessageII: [updates] is always set (mutable_updates()), the
    candidates only if there are any: addition/party_zero.cc:124-276,
    party_one.cc:124-411, deletion/party_zero.cc:90-115, party_one.cc:54-80,
    deletion-psi/party_zero.cc:154-177, party_one.cc:92-118 *)
Definition to_12 (m : msg12 Gr) : of_type MessageI :=
  (Some (to_update (m_updates m)), (set_if (map (to_welem enc) (m_cands m)), set_if (map (map (to_welem enc)) (m_vct m)))).
Definition of_12 (m : of_type MessageI) : msg12 Gr :=
  mkMsgV (of_update (match fst m with Some u => u | None => ([], []) end)) (map (of_welem dec) (read_set (fst (snd m)))) (map (map (of_welem dec)) (read_set (snd (snd m)))).
(** PartyZeroMessage and ClientMessage of the addition and deletion protocols,
    addition/party_zero.cc:47-48, 93-94, 361, 403, deletion/party_zero.cc:65,
    deletion-psi/party_zero.cc:126 *)
Definition to_p0 (m : p0_msg Gr) : of_type PartyZeroMessage :=
  match m with
  | P0_I m => Some (inl (to_12 m))
  | P0_III_sum w => Some (inr (inl (Some (to_ct enc w))))
  | P0_III_ss ps => Some (inr (inr (map (fun p => Some p) ps)))
  | P0_unset => None
  end.
Definition of_p0 (m : of_type PartyZeroMessage) : p0_msg Gr :=
  match m with
  | Some (inl m) => P0_I (of_12 m)
  | Some (inr (inl w)) => P0_III_sum (get_ct dec w)
  | Some (inr (inr ps)) => P0_III_ss (map get ps)
  | None => P0_unset
  end.
Definition to_client (m : client_msg Gr) : of_type ClientMessage :=
  match m with C_party_zero m => Some (inl (to_p0 m)) | C_original => Some (inr None) | C_unset => None end.
Definition of_client (m : of_type ClientMessage) : client_msg Gr :=
  match m with Some (inl m) => C_party_zero (of_p0 m) | Some (inr _) => C_original | None => C_unset end.
(** ServerMessage, addition/party_one.cc:35, 64, 71, 102, deletion/party_one.cc:30,
    deletion-psi/party_one.cc:31; a call without reply leaves the message empty *)
Definition to_server (m : option (server_msg Gr)) : of_type ServerMessage :=
  match m with
  | Some (S_party_one (P1_II m)) => Some (inl (Some (inl (to_12 m))))
  | Some (S_party_one (P1_IV w)) => Some (inl (Some (inr (Some (to_ct enc w)))))
  | Some (S_party_one P1_unset) => Some (inl None)
  | Some S_original => Some (inr None)
  | Some S_unset | None => None
  end.
Definition of_server (m : of_type ServerMessage) : option (server_msg Gr) :=
  match m with
  | Some (inl (Some (inl m))) => Some (S_party_one (P1_II (of_12 m)))
  | Some (inl (Some (inr w))) => Some (S_party_one (P1_IV (get_ct dec w)))
  | Some (inl None) => Some (S_party_one P1_unset)
  | Some (inr _) => Some S_original
  | None => None
  end.
(** ByteSizeLong *)
Definition client_size (m : client_msg Gr) : Z := bytes_of ClientMessage (to_client m).
Definition server_size (m : server_msg Gr) : Z := bytes_of ServerMessage (to_server (Some m)).

(** OriginalMessage, original/party_zero.cc:69-105, 143-163, party_one.cc:43-56,
    95-106, 119-123.  Messages of the wrong kind are read as OQ_unset / OR_none
    (og_req and og_reply do not distinguish them). *)
Definition to_points (ps : list (wpoint Gr)) : list bytes := map enc ps.
Definition to_sets (css : list (list (welem Gr))) : list (of_type EncryptedSet) := map (map (to_welem enc)) css.
Definition of_sets (css : list (of_type EncryptedSet)) : list (list (welem Gr)) := map (map (of_welem dec)) css.
Definition to_og_req (r : OrigModel.og_req Gr) : of_type ClientMessage :=
  match r with
  | OrigModel.OQ_I m => Some (inr (Some (inl (Some (to_update (OrigModel.oi_updates m)), to_points (OrigModel.oi_points m)))))
  | OrigModel.OQ_III css => Some (inr (Some (inr (inr (inl (to_sets css))))))
  | OrigModel.OQ_V ps => Some (inr (Some (inr (inr (inr (inr (to_points ps)))))))
  | OrigModel.OQ_unset => Some (inr None)
  | OrigModel.OQ_other => None
  end.
Definition of_og_req (m : of_type ClientMessage) : OrigModel.og_req Gr :=
  match m with
  | Some (inr (Some (inl (u, ps)))) => OrigModel.OQ_I (OrigModel.mkOgI (of_update (match u with Some u => u | None => ([], []) end)) (map dec ps))
  | Some (inr (Some (inr (inr (inl css))))) => OrigModel.OQ_III (of_sets css)
  | Some (inr (Some (inr (inr (inr (inr ps)))))) => OrigModel.OQ_V (map dec ps)
  | Some (inr _) => OrigModel.OQ_unset
  | _ => OrigModel.OQ_other
  end.
Definition to_og_reply (r : option (OrigModel.og_reply Gr)) : of_type ServerMessage :=
  match r with
  | Some (OrigModel.OR_II a css) => Some (inr (Some (inr (inl (Some (to_ct enc a), to_sets css)))))
  | Some (OrigModel.OR_IV ps) => Some (inr (Some (inr (inr (inr (inl (to_points ps)))))))
  | Some OrigModel.OR_none | None => None
  end.
Definition of_og_reply (m : of_type ServerMessage) : option (OrigModel.og_reply Gr) :=
  match m with
  | Some (inr (Some (inr (inl (a, css))))) => Some (OrigModel.OR_II (get_ct dec a) (of_sets css))
  | Some (inr (Some (inr (inr (inr (inl ps)))))) => Some (OrigModel.OR_IV (map dec ps))
  | Some _ => Some OrigModel.OR_none
  | None => None
  end.
Definition og_req_size (r : OrigModel.og_req Gr) : Z := bytes_of ClientMessage (to_og_req r).
Definition og_reply_size (r : OrigModel.og_reply Gr) : Z := bytes_of ServerMessage (to_og_reply (Some r)).

(** the two stubs *)
Definition wired {SV} := over_wire (SV := SV) ClientMessage to_client of_client ServerMessage to_server of_server.
Definition og_wired {SV} := over_wire (SV := SV) ClientMessage to_og_req of_og_req ServerMessage to_og_reply of_og_reply.

(** ** The deletion programs with their calls apart *)
Section Deletion.
Notation prog := (client_prog (client_msg Gr) (option (server_msg Gr))).
Variables (hash : Z -> list bool) (circuit_input : Z -> outcome (list bool)).
Variables (P0 P1 : pub) (V0 V1 : priv).
(** Run, deletion/party_zero.cc:43-49 *)
Definition dc_program (c : dclient) : M (prog dclient) :=
  match nth_error (dc_data c) (dc_day c) with
  | None => lift UB
  | Some es =>
      '(p1, m1) <- del_gen1 hash P1 V0 es (reset_gc (dc_party c)) ;;
      ret (Call (C_party_zero (P0_I m1)) (fun r =>
        c' <- lift (dc_handle V0 (got r) (mkDC p1 (dc_data c) (dc_day c) (dc_total c) (dc_result c))) ;; ret (Return c')))
  end.
(** one day with the calls answered by [handle], otherwise as DelModel.del_day *)
Definition del_day_by (handle : client_msg Gr -> dserver -> tape -> dserver * outcome (option (server_msg Gr)))
  (st : dclient * dserver * (round * round)) : M (dclient * dserver * (round * round)) :=
  '(c, s) <- against handle (dc_program (fst (fst st))) (ds_reset (snd (fst st))) ;;
  '(rs, other_rs, rounds) <- del_circuits circuit_input P0 P1 V0 V1 (dc_party c) (ds_party s) ;;
  ret (mkDC (dc_party c) (dc_data c) (dc_day c) (dc_total c)
         ((dc_result c + (rs + other_rs) mod 2 ^ 64) mod 2 ^ 64), s, rounds).
Definition del_day_wired := del_day_by (wired (del_handle hash P0 V1)).

Import PsiModel.
(** one half of Run, deletion-psi/party_zero.cc:53-55, 57-59 *)
Definition half_program (es : list entry) (c : pclient) : M (prog pclient) :=
  '(p1, m1) <- psi_gen1 hash P1 V0 es (pc_party c) ;;
  ret (Call (C_party_zero (P0_I m1)) (fun r => c' <- lift (pc_handle V0 (got r) (pc_with p1 c)) ;; ret (Return c'))).
(** one day with the calls answered by [handle], otherwise as PsiModel.psi_run
    and psi_day2 *)
Definition psi_run_by (handle : client_msg Gr -> pserver -> tape -> pserver * outcome (option (server_msg Gr)))
  (st : pclient * pserver) : M (pclient * pserver * (tree entry * tree entry)) :=
  let '(c, s) := st in
  let c1 := pc_with (preset (pc_party c)) c in
  match nth_error (pc_data c) (pc_day c) with
  | None => lift UB
  | Some (dels, adds) =>
      '(c2, s2) <- against handle (half_program dels c1) s ;;
      '(c3, s3) <- against handle (half_program adds c2) s2 ;;
      ret (mkPC (pc_party c3) (pc_data c3) (S (pc_day c3)) (pc_total c3) (pc_result c3) (pc_set c3), s3,
           (pg_my (pc_party c2), pg_my (ps_party s2)))
  end.
Definition psi_day_by handle (st : pclient * pserver * day_info) : M (pclient * pserver * day_info) :=
  let '(c, s, _) := st in
  '(c1, s1, (mid0, mid1)) <- psi_run_by handle (c, ps_reset s) ;;
  '(rs0, rs1, (r0, r1)) <- psi_circuits circuit_input P0 P1 V0 V1 (pc_party c1) (ps_party s1) ;;
  us <- second_phase P0 V0 rs0 rs1 ;;
  rs <- lift (apply_updates us (pc_result c1, pc_set c1)) ;;
  ret (mkPC (pc_party c1) (pc_data c1) (pc_day c1) (pc_total c1) (fst rs) (snd rs), s1, mkDay mid0 mid1 r0 r1).
Definition psi_day_wired := psi_day_by (wired (PsiModel.psi_handle hash P0 V1)).
End Deletion.
End Messages.
