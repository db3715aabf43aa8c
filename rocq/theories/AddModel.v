(** * The addition-only protocols (upsi/addition/party_zero.{h,cc},
    party_one.{h,cc}, party.h, roles.h).

    The four functionalities (CA = cardinality, PSI, SUM, SS = secret shares)
    share their control flow; GenerateMessageI / GenerateMessageII are written
    once with the parts that differ as parameters, and instantiated at the end
    with one definition per C++ function body.

    Not modelled: timers, printing, CreateMockTrees (benchmark start-up with
    --start_size), reading keys and data from files. *)
Require Import String.
Require Import List Arith Lia ZArith Bool.
Import ListNotations.
From Verif Require Import Prelude TreeModel Coins Group ElGamalModel BytesModel CipherModel PaillierModel WireModel SyncModel.
Local Open Scope Z_scope.

(** ** Messages, network/upsi.proto:121-215 *)
Section Messages.
Context {Gr : group}.
(** PartyZeroMessage::MessageI and PartyOneMessage::MessageII (same fields; an
    unset field reads as an empty message): updates, candidates and
    candidates_vct (only used by deletion-psi). *)
Record msg12 := mkMsgV { m_updates : update Gr; m_cands : list (welem Gr); m_vct : list (list (welem Gr)) }.
Definition mkMsg (u : update Gr) (cs : list (welem Gr)) : msg12 := mkMsgV u cs [].
Inductive p0_msg :=
| P0_I (m : msg12) | P0_III_sum (sum : wct Gr) | P0_III_ss (payloads : list bytes) | P0_unset.
Inductive client_msg := C_party_zero (m : p0_msg) | C_original | C_unset.
Inductive p1_msg := P1_II (m : msg12) | P1_IV (sum : wct Gr) | P1_unset.
Inductive server_msg := S_party_one (m : p1_msg) | S_original | S_unset.
End Messages.
Arguments msg12 : clear implicits. Arguments client_msg : clear implicits. Arguments server_msg : clear implicits.
Arguments p0_msg : clear implicits. Arguments p1_msg : clear implicits.

(** ** The parts of the messages *)
Section Add.
Context {Gr : group}.
Variable hash : Z -> list bool.      (* computeBinaryHash, utils.cc:160-170 *)
Variable pk : pubkey Gr.             (* the shared key in [encrypter] *)

Section Flavour.
Context {A E P : Type}.              (* my_tree entries of party zero; other_tree
                                        entries of party one; candidate payload *)
Variable key : A -> Z.               (* the element of an entry *)
(** party zero *)
Variable first : A -> M (ct Gr * P). (* encryption of x and its payload *)
Variable ser_cand : ct Gr * P -> outcome (welem Gr).
Variable mk : Z -> A.
Variable enc : A -> M E.
Variable ser : E -> outcome (welem Gr).
(** party one *)
Variable deser : welem Gr -> outcome E.
Variable deser_cand : welem Gr -> outcome (ct Gr * P).
Variable split : E -> ct Gr * P.     (* the two parts of a tree entry *)
Variable mask : ct Gr * P -> M (ct Gr * P).
Variable seal : ct Gr * P -> M (welem Gr).

(** the inner loop of GenerateMessageI, party_zero.cc:133-160 (PSI), 178-195
    (CA), 213-236 (SUM), 253-276 (SS) *)
Definition candidates_i (other : tree (ct Gr)) (a : A) : M (list (welem Gr)) :=
  let path := get_path (hash (key a)) other in
  xp <- first a ;;
  let minus_x := ct_invert (fst xp) in
  mapM (fun y => r <- rerandomize pk (ct_mul y minus_x) ;; lift (ser_cand (r, snd xp))) path.
(** GenerateMessageI, party_zero.cc:122-279.  After an error the caller (Run)
    returns, so the modified tree is not needed in that case. *)
Definition generate_message_i (es : list A) (my : tree A) (other : tree (ct Gr)) : M (tree A * msg12 Gr) :=
  fun tp =>
    let '(my', o) := send_update (insert (fun a => hash (key a))) mk enc ser es my tp in
    (u <- (fun _ => o) ;; cs <- mapM (candidates_i other) es ;; ret (my', mkMsg u (concat cs))) tp.

(** the inner loop of GenerateMessageII, party_one.cc:137-151 (PSI), 209-220
    (CA), 268-284 (SUM), 362-378 (SS): no re-randomization here *)
Definition candidates_ii (other : tree E) (x : Z) : M (list (ct Gr * P)) :=
  let path := get_path (hash x) other in
  c <- encrypt pk x ;;
  let minus_x := ct_invert c in
  ret (map (fun e => (ct_mul (fst (split e)) minus_x, snd (split e))) path).
(** party_one.cc:130-180 (and the same lines of the other three): candidates of
    both parties, shuffled, masked, partially decrypted and serialized *)
Definition answer_candidates (ws : list (welem Gr)) (es : list Z) (other : tree E) : M (list (welem Gr)) :=
  theirs <- lift (omap deser_cand ws) ;;
  mine <- mapM (candidates_ii other) es ;;
  shuffled <- shuffle (theirs ++ concat mine) ;;
  masked <- mapM mask shuffled ;;
  mapM seal masked.
(** GenerateMessageII, party_one.cc:121-187, 194-247, 253-318, 347-413.  The
    state is (my_tree, other_tree) and survives errors. *)
Definition generate_message_ii (m : msg12 Gr) (es : list Z) : ST (tree Z * tree E) (msg12 Gr) :=
  fun '(my, other) tp =>
    match recv_update deser (m_updates m) other with
    | Ok other' =>
        match answer_candidates (m_cands m) es other' tp with
        | Ok (ws, tp1) =>
            let '(my', o) := send_update (insert hash) (fun x => x) (enc_plain pk) ser_plain es my tp1 in
            ((my', other'), (u <- (fun _ => o) ;; ret (mkMsg u ws)) tp1)
        | Err c => ((my, other'), Err c) | Abort => ((my, other'), Abort) | UB => ((my, other'), UB)
        end
    | Err c => ((my, other), Err c) | Abort => ((my, other), Abort) | UB => ((my, other), UB)
    end.
End Flavour.

(** ** The four instances *)
(** *** cardinality *)
Definition ca_first (x : Z) : M (ct Gr * unit) := c <- encrypt pk x ;; ret (c, tt).
Definition ca_ser (c : ct Gr * unit) : outcome (welem Gr) := ser_plain (fst c).
Definition ca_deser (w : welem Gr) : outcome (ct Gr * unit) := let! c := deser_cand_plain w in Ok (c, tt).
Definition ca_split (c : ct Gr) : ct Gr * unit := (c, tt).
(** party_one.cc:226-232 *)
Definition ca_mask (c : ct Gr * unit) : M (ct Gr * unit) :=
  k <- @create_random_mask Gr ;; ret (ct_exp (fst c) k, tt).
(** party_one.cc:234-241; [sk] is party one's share of the secret key *)
Definition ca_seal (sk : Z) (c : ct Gr * unit) : M (welem Gr) :=
  lift (ser_plain (partial_decrypt sk (fst c))).
(** *** PSI *)
(** ECPoint::ToBytesUnCompressed, ec_point.cc:61-72, as a map key: fails on the
    point at infinity and is injective on the others *)
Definition point_key (p : Gr) : outcome Gr := if geqb p gid then Err Internal else Ok p.
(** party_zero.cc:134-142: g^x must have a key; x itself is the payload *)
Definition psi_first (x : Z) : M (ct Gr * ct Gr) :=
  let point := gpow (pk_g pk) x in
  _ <- lift (point_key point) ;;
  c <- encrypt_point pk point ;; ret (c, c).
Definition psi_split (c : ct Gr) : ct Gr * ct Gr := (c, c).
(** party_one.cc:157-171 *)
Definition psi_mask (c : ct Gr * ct Gr) : M (ct Gr * ct Gr) :=
  alpha <- @create_random_mask Gr ;; beta <- @create_random_mask Gr ;;
  let f := ct_exp (fst c) alpha in
  ret (f, ct_mul (snd c) (ct_exp f beta)).
(** party_one.cc:173-185 *)
Definition psi_seal (sk : Z) (c : ct Gr * ct Gr) : M (welem Gr) :=
  lift (ser_elgamal (partial_decrypt sk (fst c), partial_decrypt sk (snd c))).
(** *** SUM: entries are (element, value) *)
Definition sum_first (a : Z * Z) : M (ct Gr * ct Gr) :=
  c <- encrypt pk (fst a) ;; p <- encrypt pk (snd a) ;; ret (c, p).
(** party_one.cc:290-296 *)
Definition sum_mask (c : ct Gr * ct Gr) : M (ct Gr * ct Gr) :=
  k <- @create_random_mask Gr ;; ret (ct_exp (fst c) k, snd c).
(** party_one.cc:298-311 *)
Definition sum_seal (sk : Z) (c : ct Gr * ct Gr) : M (welem Gr) :=
  w <- lift (ser_ct (partial_decrypt sk (fst c))) ;;
  r <- rerandomize pk (snd c) ;;
  p <- lift (ser_ct r) ;; ret (WElGamal w p).
(** *** SS: entries are (element, element); [paillier] is the party's object *)
Definition ss_first (paillier : pub) (a : Z * Z) : M (ct Gr * Z) :=
  c <- encrypt pk (fst a) ;; p <- pub_encrypt paillier (snd a) ;; ret (c, p).
(** party_one.cc:384-390 *)
Definition ss_mask (c : ct Gr * Z) : M (ct Gr * Z) :=
  k <- @create_random_mask Gr ;; ret (ct_exp (fst c) k, snd c).
(** party_one.cc:392-402 *)
Definition ss_seal (paillier : pub) (sk : Z) (c : ct Gr * Z) : M (welem Gr) :=
  w <- lift (ser_ct (partial_decrypt sk (fst c))) ;;
  r <- pub_rerand paillier (snd c) ;;
  p <- lift (to_bytes r) ;; ret (WPaillier w p).
End Add.

(** ** Party one: state and Handle *)
Section Server.
Context {Gr : group} {E : Type}.
(** PartyOne, party_one.h:16-47, ProtocolRole, roles.h:17-38, HasTree 66-79 and
    the secret shares of PartyOneSecretShare (party_one.h:190). *)
Record server := mkServer {
  sv_my : tree Z; sv_other : tree E;
  sv_data : list (list Z);            (* datasets, one per day *)
  sv_day : nat; sv_total : nat;       (* current_day, total_days *)
  sv_comm : list Z;                   (* comm_ *)
  sv_shares : list Z }.
(** constructors, party_one.h:18-24 and roles.h:75-79 (no trees on disk) *)
Definition server_new (stash_size node_size total : nat) (data : list (list Z)) : server :=
  mkServer (tree_new stash_size node_size) (tree_new stash_size node_size) data 0 total (repeat 0 total) [].
Definition set_trees (ts : tree Z * tree E) (s : server) : server :=
  mkServer (fst ts) (snd ts) (sv_data s) (sv_day s) (sv_total s) (sv_comm s) (sv_shares s).
(** ProtocolFinished / FinishDay, roles.h:28-36 *)
Definition sv_finished (s : server) : bool := (sv_total s <=? sv_day s)%nat.
Definition sv_finish_day (s : server) : server :=
  mkServer (sv_my s) (sv_other s) (sv_data s) (S (sv_day s)) (sv_total s) (sv_comm s) (sv_shares s).
(** AddComm, party_one.h:26-28: [comm_] is a vector<int>; the new value is
    converted to int. *)
Definition add_comm (size : Z) (s : server) : server :=
  mkServer (sv_my s) (sv_other s) (sv_data s) (sv_day s) (sv_total s)
    (set_nth (sv_day s) ((nth (sv_day s) (sv_comm s) 0 + size + 2 ^ 31) mod 2 ^ 32 - 2 ^ 31) (sv_comm s)) (sv_shares s).

(** ByteSizeLong of the two kinds of messages: arbitrary functions *)
Variable csize : client_msg Gr -> Z.
Variable ssize : server_msg Gr -> Z.
(** a request's result: new state, status, and the reply passed to the sink.
    [Ok (Some r)]: the reply was sent; [Ok None]: OkStatus without reply. *)
Definition handled : Type := (server * outcome (option (server_msg Gr)))%type.
(** PartyOneSecretShare::ProcessMessageIII, party_one.cc:415-430: shares are
    pushed one by one; [at(i+1)] on a list of odd length fails a CHECK. *)
Fixpoint process_iii_ss (dec : Z -> Z -> outcome Z) (payloads : list bytes) (shares : list Z) : list Z * outcome unit :=
  match payloads with
  | [] => (shares, Ok tt)
  | [_] => (shares, Abort)
  | c :: p :: r =>
      match dec (of_bytes c) (of_bytes p) with
      | Ok v => process_iii_ss dec r (shares ++ [v])
      | Err k => (shares, Err k) | Abort => (shares, Abort) | UB => (shares, UB)
      end
  end.
(** PartyOneSum::ProcessMessageIII, party_one.cc:320-341 *)
Definition process_iii_sum (sk : Z) (w : wct Gr) : outcome (wct Gr) :=
  let! c := deser_ct w in ser_ct (partial_decrypt sk c).

Variable gen2 : msg12 Gr -> list Z -> ST (tree Z * tree E) (msg12 Gr).   (* GenerateMessageII *)
(** [GenerateMessageII(msg.message_i(), datasets[current_day])] and the reply *)
Definition answer_i (m : msg12 Gr) (s : server) (tp : tape) (after : server -> server) : handled :=
  match gen2 m (nth (sv_day s) (sv_data s) []) (sv_my s, sv_other s) tp with
  | (ts, Ok (r, _)) =>
      let res := S_party_one (P1_II r) in
      (after (add_comm (ssize res) (set_trees ts s)), Ok (Some res))
  | (ts, Err c) => (set_trees ts s, Err c)
  | (ts, Abort) => (set_trees ts s, Abort)
  | (ts, UB) => (set_trees ts s, UB)
  end.
(** PartyOneNoPayload::Handle, party_one.cc:19-45 *)
Definition handle_no_payload (req : client_msg Gr) (s : server) (tp : tape) : handled :=
  if sv_finished s then (s, Err InvalidArgument) else
  match req with
  | C_party_zero msg =>
      let s1 := add_comm (csize req) s in
      match msg with
      | P0_I m => answer_i m s1 tp sv_finish_day
      | _ => (s1, Err InvalidArgument)
      end
  | _ => (s, Err InvalidArgument)
  end.
(** PartyOneSum::Handle, party_one.cc:48-81 *)
Definition handle_sum (sk : Z) (req : client_msg Gr) (s : server) (tp : tape) : handled :=
  if sv_finished s then (s, Err InvalidArgument) else
  match req with
  | C_party_zero msg =>
      let s1 := add_comm (csize req) s in
      match msg with
      | P0_I m => answer_i m s1 tp (fun s => s)
      | P0_III_sum w =>
          match process_iii_sum sk w with
          | Ok r => let res := S_party_one (P1_IV r) in
                    (sv_finish_day (add_comm (ssize res) s1), Ok (Some res))
          | Err c => (s1, Err c) | Abort => (s1, Abort) | UB => (s1, UB)
          end
      | _ => (s1, Err InvalidArgument)
      end
  | _ => (s, Err InvalidArgument)
  end.
(** PartyOneSecretShare::Handle, party_one.cc:83-115 *)
Definition handle_ss (dec : Z -> Z -> outcome Z) (req : client_msg Gr) (s : server) (tp : tape) : handled :=
  if sv_finished s then (s, Err InvalidArgument) else
  match req with
  | C_party_zero msg =>
      let s1 := add_comm (csize req) s in
      match msg with
      | P0_I m => answer_i m s1 tp (fun s => s)
      | P0_III_ss ps =>
          let '(sh, o) := process_iii_ss dec ps (sv_shares s1) in
          let s2 := mkServer (sv_my s1) (sv_other s1) (sv_data s1) (sv_day s1) (sv_total s1) (sv_comm s1) sh in
          match o with
          | Ok _ => (sv_finish_day s2, Ok None)
          | Err c => (s2, Err c) | Abort => (s2, Abort) | UB => (s2, UB)
          end
      | _ => (s1, Err InvalidArgument)
      end
  | _ => (s, Err InvalidArgument)
  end.
End Server.
Arguments server : clear implicits.

(** ** Party zero *)
Section Client.
Context {Gr : group} {A R : Type}.
(** PartyZeroNoPayload / PartyZeroWithPayload, party_zero.h:27-66, 136-184; the
    output fields of the subclasses are [cl_out]. *)
Record client := mkClient {
  cl_my : tree A; cl_other : tree (ct Gr);
  cl_data : list (list A); cl_day : nat; cl_total : nat; cl_out : R }.
Definition client_new (stash_size node_size total : nat) (data : list (list A)) (out : R) : client :=
  mkClient (tree_new stash_size node_size) (tree_new stash_size node_size) data 0 total out.
Definition cl_finished (c : client) : bool := (cl_total c <=? cl_day c)%nat.

(** Connection::Send, network/connection.h:22-41 with UPSIService::Handle: any
    failure becomes InternalError; a call without reply leaves an empty
    ServerMessage. *)
Definition send {S} (handle : client_msg Gr -> S -> tape -> S * outcome (option (server_msg Gr))) (req : client_msg Gr) (s : S)
  : M (S * server_msg Gr) :=
  fun tp =>
    match handle req s (fun i => tp (2 * i)%nat) with
    | (s', Ok r) => Ok ((s', match r with Some m => m | None => S_unset end), fun i => tp (2 * i + 1)%nat)
    | (_, Err _) => Err Internal
    | (_, Abort) => Abort
    | (_, UB) => UB
    end.

(** Handle of party zero, party_zero.cc:52-74 (no payload) and 96-117 (with
    payload; [h4] is ProcessMessageIV): which message is accepted *)
Definition cl_handle {T} (h2 : msg12 Gr -> T) (h4 : wct Gr -> T) (reject : T) (with_payload : bool) (c : client) (m : server_msg Gr) : T :=
  if cl_finished c then reject else
  match m with
  | S_party_one (P1_II r) => h2 r
  | S_party_one (P1_IV w) => if with_payload then h4 w else reject
  | _ => reject
  end.
End Client.
Arguments client : clear implicits.

(** ** One day of each protocol *)
Section Days.
Context {Gr : group}.
Variable hash : Z -> list bool.
Variable pk : pubkey Gr.
Variables sk0 sk1 : Z.               (* the two shares of the secret key *)
Variable csize : client_msg Gr -> Z.
Variable ssize : server_msg Gr -> Z.

Definition finish {A R} (my : tree A) (other : tree (ct Gr)) (out : R) (c : client Gr A R) : client Gr A R :=
  mkClient my other (cl_data c) (S (cl_day c)) (cl_total c) out.
Definition today {A R} (c : client Gr A R) : list A := nth (cl_day c) (cl_data c) [].
(** does a candidate's first part decrypt to the point at infinity? *)
Definition is_match {P} (c : ct Gr * P) : bool := geqb (decrypt sk0 (fst c)) gid.

(** *** cardinality *)
Definition ca_gen1 := generate_message_i hash pk (fun x : Z => x) (ca_first pk) ca_ser (fun x => x) (enc_plain pk) ser_plain.
Definition ca_gen2 := generate_message_ii hash pk deser_plain ca_deser ca_split ca_mask (ca_seal sk1).
Definition ca_handle := handle_no_payload csize ssize ca_gen2.
(** PartyZeroCardinality::ProcessMessageII, party_zero.cc:314-334 *)
Definition ca_process (r : msg12 Gr) (c : client Gr Z Z) : outcome (client Gr Z Z) :=
  let! other := recv_update deser_plain (m_updates r) (cl_other c) in
  let! cs := omap ca_deser (m_cands r) in
  Ok (finish (cl_my c) other (cl_out c + Z.of_nat (length (filter is_match cs))) c).
(** the body of PartyZeroNoPayload::Run, party_zero.cc:30-36 *)
Definition ca_day (st : client Gr Z Z * server (ct Gr)) : M (client Gr Z Z * server (ct Gr)) :=
  let '(c, s) := st in
  '(my, m1) <- ca_gen1 (today c) (cl_my c) (cl_other c) ;;
  let c1 := mkClient my (cl_other c) (cl_data c) (cl_day c) (cl_total c) (cl_out c) in
  '(s', r) <- send ca_handle (C_party_zero (P0_I m1)) s ;;
  c2 <- lift (cl_handle (fun m => ca_process m c1) (fun _ => Err InvalidArgument) (Err InvalidArgument) false c1 r) ;;
  ret (c2, s').

(** *** PSI: the output is (group_mapping, intersection) *)
Variable dec_string : Z -> string.   (* BigNum::ToDecimalString *)
Definition psi_out : Type := (list (Gr * string) * list string)%type.
(** [map[key] = v] and [map[key]] of std::map (a missing key gives "") *)
Fixpoint map_get (k : Gr) (m : list (Gr * string)) : string :=
  match m with [] => EmptyString | (k', v) :: r => if geqb k' k then v else map_get k r end.
Definition psi_gen1 := generate_message_i hash pk (fun x : Z => x) (psi_first pk) ser_elgamal (fun x => x) (enc_plain pk) ser_plain.
Definition psi_gen2 := generate_message_ii hash pk deser_plain deser_cand_elgamal psi_split psi_mask (psi_seal sk1).
Definition psi_handle := handle_no_payload csize ssize psi_gen2.
(** party_zero.cc:136 for all new elements, the newest first *)
Definition record_points (es : list Z) (m : list (Gr * string)) : list (Gr * string) :=
  fold_left (fun m x => (gpow (pk_g pk) x, dec_string x) :: m) es m.
(** PartyZeroPSI::ProcessMessageII, party_zero.cc:285-312 *)
Definition psi_lookup (m : list (Gr * string)) (c : ct Gr * ct Gr) : outcome (list string) :=
  if is_match c then let! k := point_key (decrypt sk0 (snd c)) in Ok [map_get k m] else Ok [].
Definition psi_process (r : msg12 Gr) (c : client Gr Z psi_out) : outcome (client Gr Z psi_out) :=
  let! other := recv_update deser_plain (m_updates r) (cl_other c) in
  let! cs := omap deser_cand_elgamal (m_cands r) in
  let! found := omap (psi_lookup (fst (cl_out c))) cs in
  Ok (finish (cl_my c) other (fst (cl_out c), snd (cl_out c) ++ concat found) c).
Definition psi_day (st : client Gr Z psi_out * server (ct Gr)) : M (client Gr Z psi_out * server (ct Gr)) :=
  let '(c, s) := st in
  '(my, m1) <- psi_gen1 (today c) (cl_my c) (cl_other c) ;;
  let c1 := mkClient my (cl_other c) (cl_data c) (cl_day c) (cl_total c)
              (record_points (today c) (fst (cl_out c)), snd (cl_out c)) in
  '(s', r) <- send psi_handle (C_party_zero (P0_I m1)) s ;;
  c2 <- lift (cl_handle (fun m => psi_process m c1) (fun _ => Err InvalidArgument) (Err InvalidArgument) false c1 r) ;;
  ret (c2, s').

(** *** SUM: the output is (cardinality, sum), both uint64_t *)
Definition max_sum : nat := Z.to_nat 50000.   (* utils.h: MAX_SUM *)
Definition sum_gen1 := generate_message_i hash pk (@fst Z Z) (sum_first pk) ser_elgamal pad_payload (enc_elgamal pk) ser_elgamal.
Definition sum_gen2 := generate_message_ii hash pk deser_elgamal deser_cand_elgamal (fun e => e) sum_mask (sum_seal pk sk1).
Definition sum_handle := handle_sum csize ssize sum_gen2 sk1.
(** PartyZeroSum::SendMessageIII up to the message, party_zero.cc:336-371 *)
Definition sum_message_iii (r : msg12 Gr) (c : client Gr (Z * Z) (Z * Z)) : M (client Gr (Z * Z) (Z * Z) * wct Gr) :=
  other <- lift (recv_update deser_plain (m_updates r) (cl_other c)) ;;
  cs <- lift (omap deser_cand_elgamal (m_cands r)) ;;
  zero <- encrypt pk 0 ;;
  let hits := filter is_match cs in
  let sum := fold_left (fun s h => ct_mul s (snd h)) hits zero in
  w <- lift (ser_ct sum) ;;
  ret (mkClient (cl_my c) other (cl_data c) (cl_day c) (cl_total c)
         ((fst (cl_out c) + Z.of_nat (length hits)) mod 2 ^ 64, snd (cl_out c)), w).
(** PartyZeroSum::ProcessMessageIV, party_zero.cc:490-506; the table is built
    in the constructor (party_zero.h:189-195) *)
Definition sum_process_iv (w : wct Gr) (c : client Gr (Z * Z) (Z * Z)) : outcome (client Gr (Z * Z) (Z * Z)) :=
  let! x := deser_ct w in
  let! v := decrypt_exp (init_decrypt_exp pk max_sum) sk0 x in
  Ok (finish (cl_my c) (cl_other c) (fst (cl_out c), (snd (cl_out c) + v) mod 2 ^ 64) c).
(** the body of PartyZeroSum::Run, party_zero.cc:442-456 *)
Definition sum_day (st : client Gr (Z * Z) (Z * Z) * server (ct Gr * ct Gr)) : M (client Gr (Z * Z) (Z * Z) * server (ct Gr * ct Gr)) :=
  let '(c, s) := st in
  '(my, m1) <- sum_gen1 (today c) (cl_my c) (cl_other c) ;;
  let c1 := mkClient my (cl_other c) (cl_data c) (cl_day c) (cl_total c) (cl_out c) in
  '(s1, r2) <- send sum_handle (C_party_zero (P0_I m1)) s ;;
  '(c2, s2, r4) <- cl_handle
       (fun m => '(c2, w) <- sum_message_iii m c1 ;;
                 '(s2, r4) <- send sum_handle (C_party_zero (P0_III_sum w)) s1 ;; ret (c2, s2, r4))
       (fun w => c2 <- lift (sum_process_iv w c1) ;; ret (c2, s1, r2))
       (lift (Err InvalidArgument)) true c1 r2 ;;
  '(c3, s3) <- cl_handle
       (fun m => '(c3, w) <- sum_message_iii m c2 ;;
                 '(s3, _) <- send sum_handle (C_party_zero (P0_III_sum w)) s2 ;; ret (c3, s3))
       (fun w => c3 <- lift (sum_process_iv w c2) ;; ret (c3, s2))
       (lift (Err InvalidArgument)) true c2 r4 ;;
  ret (c3, s3).
(** GetPayload, party_zero.cc:430-436 and LoadData 80-90 *)
Definition sum_payload (x : Z * Z) : Z * Z := x.
Definition ss_payload (x : Z * Z) : Z * Z := (fst x, fst x).

(** *** SS: the output is the list of shares; [n], the Paillier objects and
    the two key shares *)
Variable n : Z.
Variables pai0 pai1 : pub.
Variables psk0 psk1 : Z.
Definition ss_gen1 := generate_message_i hash pk (@fst Z Z) (ss_first pk pai0) ser_paillier pad_payload (enc_paillier pk (pub_encrypt pai0)) ser_paillier.
Definition ss_gen2 := generate_message_ii hash pk deser_paillier deser_cand_paillier (fun e => e) ss_mask (ss_seal pai1 sk1).
Definition ss_handle := handle_ss csize ssize ss_gen2 (fun c p => thr_decrypt n psk1 c p).
(** one match of PartyZeroSecretShare::SendMessageIII, party_zero.cc:397-411:
    our share, and the two payloads of the message *)
Definition ss_share (c : ct Gr * Z) : M (Z * list bytes) :=
  share <- rand_less_than n ;;
  e <- pub_encrypt pai0 share ;;
  let e' := thr_add n (snd c) e in
  p <- lift (thr_partial n psk0 e') ;;
  b1 <- lift (to_bytes e') ;; b2 <- lift (to_bytes p) ;;
  ret (n - share, [b1; b2]).
(** PartyZeroSecretShare::SendMessageIII, party_zero.cc:373-421 *)
Definition ss_message_iii (r : msg12 Gr) (c : client Gr (Z * Z) (list Z)) : M (client Gr (Z * Z) (list Z) * list bytes) :=
  other <- lift (recv_update deser_plain (m_updates r) (cl_other c)) ;;
  cs <- lift (omap deser_cand_paillier (m_cands r)) ;;
  res <- mapM ss_share (filter is_match cs) ;;
  ret (finish (cl_my c) other (cl_out c ++ map fst res) c, concat (map snd res)).
(** the body of PartyZeroSecretShare::Run, party_zero.cc:463-475; a fourth
    message would be accepted and ignored (508-511) *)
Definition ss_day (st : client Gr (Z * Z) (list Z) * server (ct Gr * Z)) : M (client Gr (Z * Z) (list Z) * server (ct Gr * Z)) :=
  let '(c, s) := st in
  '(my, m1) <- ss_gen1 (today c) (cl_my c) (cl_other c) ;;
  let c1 := mkClient my (cl_other c) (cl_data c) (cl_day c) (cl_total c) (cl_out c) in
  '(s1, r2) <- send ss_handle (C_party_zero (P0_I m1)) s ;;
  cl_handle
    (fun m => '(c2, ps) <- ss_message_iii m c1 ;;
              '(s2, _) <- send ss_handle (C_party_zero (P0_III_ss ps)) s1 ;; ret (c2, s2))
    (fun _ => ret (c1, s1))
    (lift (Err InvalidArgument)) true c1 r2.
End Days.

(** ** Run: [while (!ProtocolFinished()) { one day }], observed after at most
    [k] iterations *)
Fixpoint run_days {C S} (finished : C -> bool) (day : C * S -> M (C * S)) (k : nat) (st : C * S) : M (C * S) :=
  match k with
  | O => ret st
  | Datatypes.S k' => if finished (fst st) then ret st
                      else st' <- day st ;; run_days finished day k' st'
  end.
