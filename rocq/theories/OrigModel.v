(** * The original construction (upsi/original/party_zero.{h,cc},
    party_one.{h,cc}, party.h, roles.h): a tree under party one's key plus
    double hashing H(x)^ab.

    Here party one is the client ([Run]) and keeps the plaintext tree; party
    zero is the server ([Handle]), keeps the encrypted tree, the map from
    H(x)^ab to x and the intersection.

    Not modelled: timers, printing, PrintResult (importing trees and the map:
    OrigSetupModel; PrintComm: TrafficModel).  ECGroup::GetPointByHashingToCurveSha256
    (ec_group.cc:162-172) applied to x.ToBytes() is an arbitrary function
    [H : Z -> Gr]: it returns a point or does not return.  Vectors indexed out of
    range are [UB]. *)
Require Import String.
Require Import List Arith Lia ZArith Bool.
Import ListNotations.
From Verif Require Import Prelude TreeModel Coins Group ElGamalModel BytesModel CipherModel PaillierModel WireModel SyncModel AddModel.
Local Open Scope Z_scope.

Section Messages.
Context {Gr : group}.
(** OriginalMessage::MessageI, network/upsi.proto:118-121 *)
Record og_i := mkOgI { oi_updates : update Gr; oi_points : list (wpoint Gr) }.
(** a ClientMessage as PartyZero::Handle distinguishes them: original messages
    I, III, V; an original message that is none of these; any other message *)
Inductive og_req :=
| OQ_I (m : og_i) | OQ_III (cands : list (list (welem Gr))) | OQ_V (points : list (wpoint Gr))
| OQ_unset | OQ_other.
(** a ServerMessage as PartyOne reads it: message II, message IV, or neither *)
Inductive og_reply :=
| OR_II (alpha : wct Gr) (cands : list (list (welem Gr))) | OR_IV (points : list (wpoint Gr)) | OR_none.
End Messages.
Arguments og_i : clear implicits. Arguments og_req : clear implicits. Arguments og_reply : clear implicits.

Section Orig.
Context {Gr : group}.
Variable hash : Z -> list bool.      (* computeBinaryHash *)
Variable H : Z -> Gr.                (* hash to the curve *)
Variable dec_string : Z -> string.   (* BigNum::ToDecimalString *)
Variables pk0 pk1 : pubkey Gr.       (* my_pk of party zero, of party one; each
                                        is their_pk of the other (party.h:44-60) *)
Variables sk0 sk1 : Z.               (* the private keys in the decrypters *)
Variable csize : og_req Gr -> Z.     (* ByteSizeLong *)
Variable ssize : og_reply Gr -> Z.

(** ** party zero: the server *)
(** party_zero.h:70-84 and ProtocolRole (roles.h); [og_map]: an entry hides
    later ones with the same key, so [map[key] = v] is a cons *)
Record og_server := mkOgS {
  og_tree : tree (ct Gr); og_map : list (Gr * string); og_inter : list string; og_masks : list Z;
  og_data : list (list Z); og_day : nat; og_total : nat; og_comm : list Z }.
Definition og_new (stash_size node_size total : nat) (data : list (list Z)) : og_server :=
  mkOgS (tree_new stash_size node_size) [] [] [] data 0 total (repeat 0 total).
(** ProtocolFinished, FinishDay (roles.h) *)
Definition og_finished (s : og_server) : bool := (og_total s <=? og_day s)%nat.
Definition og_finish_day (s : og_server) : og_server :=
  mkOgS (og_tree s) (og_map s) (og_inter s) (og_masks s) (og_data s) (S (og_day s)) (og_total s) (og_comm s).
(** AddComm, party_zero.h:62-64: [int += size_t] *)
Definition og_add_comm (size : Z) (s : og_server) : og_server :=
  mkOgS (og_tree s) (og_map s) (og_inter s) (og_masks s) (og_data s) (og_day s) (og_total s)
    (set_nth (og_day s) ((nth (og_day s) (og_comm s) 0 + size + 2 ^ 31) mod 2 ^ 32 - 2 ^ 31) (og_comm s)).
Definition og_today (s : og_server) : list Z := nth (og_day s) (og_data s) [].

(** [group_mapping.count(key)] and [group_mapping[key]] *)
Fixpoint og_find (k : Gr) (m : list (Gr * string)) : option string :=
  match m with [] => None | (k', v) :: r => if geqb k' k then Some v else og_find k r end.
(** party_zero.cc:53-60: one H(y)^b after the other; results found before an
    error stay in the intersection *)
Fixpoint og_lookups (m : list (Gr * string)) (ps : list (wpoint Gr)) (inter : list string) : list string * outcome unit :=
  match ps with
  | [] => (inter, Ok tt)
  | w :: r =>
      match (let! hy := create_point w in point_key (gpow hy sk0)) with
      | Ok k => og_lookups m r (inter ++ match og_find k m with Some v => [v] | None => [] end)
      | Err c => (inter, Err c) | Abort => (inter, Abort) | UB => (inter, UB)
      end
  end.
(** party_zero.cc:79-94 for one element *)
Definition og_candidates (t : tree (ct Gr)) (alpha : ct Gr) (x : Z) : M (list (ct Gr)) :=
  let path := get_path (hash x) t in
  cx <- encrypt pk1 x ;;
  mapM (fun y =>
    beta <- @create_random_mask Gr ;;
    ret (ct_mul alpha (ct_exp (ct_mul cx (ct_invert y)) beta))) path.
(** party_zero.cc:62-104: the reply *)
Definition og_answer_ii (t : tree (ct Gr)) (es : list Z) : M (og_reply Gr) :=
  r <- rand_less_than (ord Gr) ;;
  a0 <- encrypt_point pk0 (H r) ;;
  alpha <- lift (ser_ct a0) ;;
  a1 <- encrypt_point pk1 (H r) ;;
  css <- mapM (og_candidates t a1) es ;;
  ws <- lift (omap (omap ser_plain) css) ;;
  ret (OR_II alpha ws).
(** SendMessageII, party_zero.cc:45-108 *)
Definition og_message_ii (m : og_i Gr) (s : og_server) (tp : tape) : og_server * outcome (option (og_reply Gr)) :=
  match recv_update deser_plain (oi_updates m) (og_tree s) with
  | Ok t =>
      let '(inter, o) := og_lookups (og_map s) (oi_points m) (og_inter s) in
      let s1 := mkOgS t (og_map s) inter (og_masks s) (og_data s) (og_day s) (og_total s) (og_comm s) in
      match o with
      | Ok _ =>
          match og_answer_ii t (og_today s) tp with
          | Ok (r, _) => (og_add_comm (ssize r) s1, Ok (Some r))
          | Err c => (s1, Err c) | Abort => (s1, Abort) | UB => (s1, UB)
          end
      | Err c => (s1, Err c) | Abort => (s1, Abort) | UB => (s1, UB)
      end
  | Err c => (s, Err c) | Abort => (s, Abort) | UB => (s, UB)
  end.

(** party_zero.cc:116-160: the loop over the candidate sets; [es] is what is
    left of datasets[current_day] *)
Fixpoint og_sort_out (es : list Z) (css : list (list (welem Gr))) (inter : list string) (masks : list Z) (tp : tape)
  : (list string * list Z) * outcome (list (wpoint Gr) * tape) :=
  match css with
  | [] => ((inter, masks), Ok ([], tp))
  | ws :: rest =>
      match omap deser_cand_plain ws with
      | Ok cs =>
          match es with
          | [] => ((inter, masks), UB)
          | x :: es' =>
              let hit := existsb (fun c => geqb (decrypt sk0 c) gid) cs in
              let inter1 := if hit then inter ++ [dec_string x] else inter in
              match (if hit
                     then r <- rand_less_than (ord Gr) ;; w <- lift (point_to_bytes (H r)) ;; ret (w, 0)
                     else mask <- @create_random_mask Gr ;;
                          w <- lift (point_to_bytes (gpow (gpow (H x) sk0) mask)) ;; ret (w, mask)) tp with
              | Ok ((w, mask), tp1) =>
                  let '(st, o) := og_sort_out es' rest inter1 (masks ++ [mask]) tp1 in
                  (st, match o with Ok (ps, tp2) => Ok (w :: ps, tp2) | Err c => Err c | Abort => Abort | UB => UB end)
              | Err c => ((inter1, masks), Err c) | Abort => ((inter1, masks), Abort) | UB => ((inter1, masks), UB)
              end
          end
      | Err c => ((inter, masks), Err c) | Abort => ((inter, masks), Abort) | UB => ((inter, masks), UB)
      end
  end.
(** SendMessageIV, party_zero.cc:110-169 *)
Definition og_message_iv (css : list (list (welem Gr))) (s : og_server) (tp : tape) : og_server * outcome (option (og_reply Gr)) :=
  let '((inter, masks), o) := og_sort_out (og_today s) css (og_inter s) [] tp in
  let s1 := mkOgS (og_tree s) (og_map s) inter masks (og_data s) (og_day s) (og_total s) (og_comm s) in
  match o with
  | Ok (ps, _) => (og_add_comm (ssize (OR_IV ps)) s1, Ok (Some (OR_IV ps)))
  | Err c => (s1, Err c) | Abort => (s1, Abort) | UB => (s1, UB)
  end.

(** ProcessMessageV, party_zero.cc:171-182; [masks] and [es] are what is left
    of the two vectors indexed by [i] *)
Fixpoint og_record (ps : list (wpoint Gr)) (masks : list Z) (es : list Z) (m : list (Gr * string)) : list (Gr * string) * outcome unit :=
  match ps with
  | [] => (m, Ok tt)
  | w :: r =>
      match masks with
      | [] => (m, UB)
      | k :: masks' =>
          if k =? 0 then og_record r masks' (tl es) m else
          match (let! p := create_point w in
                 let! inv := mod_inverse k (ord Gr) in
                 point_key (gpow p inv)) with
          | Ok key => match es with
                      | [] => (m, UB)
                      | x :: es' => og_record r masks' es' ((key, dec_string x) :: m)
                      end
          | Err c => (m, Err c) | Abort => (m, Abort) | UB => (m, UB)
          end
      end
  end.
Definition og_message_v (ps : list (wpoint Gr)) (s : og_server) : og_server * outcome unit :=
  let '(m, o) := og_record ps (og_masks s) (og_today s) (og_map s) in
  (mkOgS (og_tree s) m (og_inter s) (og_masks s) (og_data s) (og_day s) (og_total s) (og_comm s), o).

(** Handle, party_zero.cc:19-43 *)
Definition og_handle (req : og_req Gr) (s : og_server) (tp : tape) : og_server * outcome (option (og_reply Gr)) :=
  if og_finished s then (s, Err InvalidArgument) else
  match req with
  | OQ_other => (s, Err InvalidArgument)
  | _ =>
      let s1 := og_add_comm (csize req) s in
      match req with
      | OQ_I m => og_message_ii m s1 tp
      | OQ_III css => og_message_iv css s1 tp
      | OQ_V ps =>
          let '(s2, o) := og_message_v ps s1 in
          match o with
          | Ok _ => (og_finish_day s2, Ok None)
          | Err c => (s2, Err c) | Abort => (s2, Abort) | UB => (s2, UB)
          end
      | _ => (s1, Err InvalidArgument)
      end
  end.

(** ** party one: the client *)
Record og_client := mkOgC { oc_tree : tree Z; oc_data : list (list Z); oc_day : nat; oc_total : nat }.
Definition oc_new (stash_size node_size total : nat) (data : list (list Z)) : og_client :=
  mkOgC (tree_new stash_size node_size) data 0 total.
Definition oc_finished (c : og_client) : bool := (oc_total c <=? oc_day c)%nat.
(** SendMessageI, party_one.cc:41-62; after an error Run returns *)
Definition oc_message_i (es : list Z) (t : tree Z) : M (tree Z * og_i Gr) :=
  fun tp =>
    let '(t', o) := send_update (insert hash) (fun x => x) (enc_plain pk1) ser_plain es t tp in
    (u <- (fun _ => o) ;; ps <- lift (omap (fun x => point_to_bytes (gpow (H x) sk1)) es) ;; ret (t', mkOgI u ps)) tp.
(** party_one.cc:77-103 for one candidate set *)
Definition oc_candidates (minus_alpha : ct Gr) (ws : list (welem Gr)) : M (list (welem Gr)) :=
  incoming <- lift (omap deser_cand_plain ws) ;;
  outgoing <- mapM (fun c =>
    gamma <- @create_random_mask Gr ;;
    beta <- encrypt_point pk0 (decrypt sk1 c) ;;
    ret (ct_exp (ct_mul beta minus_alpha) gamma)) incoming ;;
  shuffled <- shuffle outgoing ;;
  lift (omap ser_plain shuffled).
(** SendMessageIII, party_one.cc:64-108: a reply that is not message II reads
    as one without alpha *)
Definition oc_message_iii (r : og_reply Gr) : M (list (list (welem Gr))) :=
  let '(alpha, css) := match r with OR_II a css => (a, css) | _ => ((WBad, WBad), []) end in
  a <- lift (deser_ct alpha) ;; mapM (oc_candidates (ct_invert a)) css.
(** SendMessageV, party_one.cc:110-126: a reply that is not message IV reads as
    an empty one *)
Definition oc_message_v (r : og_reply Gr) : outcome (list (wpoint Gr)) :=
  omap (fun w => let! p := create_point w in point_to_bytes (gpow p sk1))
       (match r with OR_IV ps => ps | _ => [] end).

(** Connection::Send, network/connection.h:22-41 (as [send] of AddModel) *)
Definition og_send (req : og_req Gr) (s : og_server) : M (og_server * og_reply Gr) :=
  fun tp =>
    match og_handle req s (fun i => tp (2 * i)%nat) with
    | (s', Ok r) => Ok ((s', match r with Some m => m | None => OR_none end), fun i => tp (2 * i + 1)%nat)
    | (_, Err _) => Err Internal
    | (_, Abort) => Abort
    | (_, UB) => UB
    end.
(** the body of PartyOne::Run, party_one.cc:24-34 *)
Definition og_day_run (st : og_client * og_server) : M (og_client * og_server) :=
  let '(c, s) := st in
  '(t, m1) <- oc_message_i (nth (oc_day c) (oc_data c) []) (oc_tree c) ;;
  '(s1, r2) <- og_send (OQ_I m1) s ;;
  m3 <- oc_message_iii r2 ;;
  '(s2, r4) <- og_send (OQ_III m3) s1 ;;
  m5 <- lift (oc_message_v r4) ;;
  '(s3, _) <- og_send (OQ_V m5) s2 ;;
  ret (mkOgC t (oc_data c) (S (oc_day c)) (oc_total c), s3).
End Orig.
Arguments og_server : clear implicits.
