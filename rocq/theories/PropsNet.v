(** * C71: the protocols over serialized messages.

    Model: NetModel.v (calls as bytes over ProtoModel), on top of the protocols of
    AddModel, DelModel, PsiModel, OrigModel. *)
Require Import String.
Require Import List Arith Lia ZArith Bool.
Import ListNotations.
From Verif Require Import Prelude Coins Group ElGamalModel BytesModel CipherModel PaillierModel TreeModel TreeDelModel WireModel SyncModel AddModel AddSpec FileModel ProtoModel ProtoProofs PropsProto ProtoCodec PropsCodec OnceModel OnceProofs OnceRun DelModel NetModel.
From Verif Require OrigModel PsiModel PsiSpec DelSpec SyncSpec PropsSync PropsPaillier PropsAdd PropsDel PropsPsi PropsOrig.
From Coq Require Import Znumtheory.
Local Open Scope Z_scope.

(** ** Specification *)
Section Spec.
Context {Req Rep C SV : Type}.
Variables (q_size : Req -> Z) (a_size : Rep -> Z).
Variable handle : Req -> SV -> tape -> SV * outcome Rep.
(** the sizes of the requests and replies, when the client's program [p] and the
    server run with their messages passed directly *)
Fixpoint sizes (p : client_prog Req Rep C) (s : SV) (tp : tape) : list Z :=
  match p with
  | Return _ => []
  | Call r k =>
      q_size r ::
      match handle r s (even_coins tp) with
      | (s', Ok rep) => a_size rep :: match k rep (odd_coins tp) with Ok (p', tp') => sizes p' s' tp' | _ => [] end
      | _ => []
      end
  end.
Definition sizes_of (prog : M (client_prog Req Rep C)) (s : SV) (tp : tape) : list Z :=
  match prog tp with Ok (p, tp1) => sizes p s tp1 | _ => [] end.
End Spec.
(** the same for [k] days in a row, as run by run_trace *)
Fixpoint trace_sizes {S} (day_sizes : S -> tape -> list Z) (day : S -> M S) (k : nat) (st : S) (tp : tape) : list Z :=
  match k with
  | O => []
  | Datatypes.S k' => day_sizes st tp ++ match day st tp with Ok (st', tp') => trace_sizes day_sizes day k' st' tp' | _ => [] end
  end.
(** no message is larger than a gigabyte *)
Definition none_too_large (l : list Z) : bool := forallb (fun n => n <=? 1024 * 1024 * 1024) l.
(** The run over the wire: as with messages passed directly, or, if one of these is
    too large, an Internal error *)
Definition as_direct {T} (small_enough : bool) (direct over_bytes : outcome T) : Prop := over_bytes = if small_enough then direct else Err Internal.

(** ** Proofs *)
Lemma small_of {T} (M : msg T) t : bytes_of M t <= message_limit -> small M t.
Proof. unfold bytes_of, small, message_limit. lia. Qed.
Section Generic.
Context {Req Rep Q A C SV : Type}.
Variables (MQ : msg Q) (to_q : Req -> Q) (of_q : Q -> Req) (MA : msg A) (to_a : Rep -> A) (of_a : A -> Rep).
Variable handle : Req -> SV -> tape -> SV * outcome Rep.
Hypothesis PQ : forall m, small MQ m -> parse MQ (serialize MQ m) = Some m.
Hypothesis PA : forall m, small MA m -> parse MA (serialize MA m) = Some m.
Hypothesis BQ : forall r, of_q (to_q r) = r.
Hypothesis BA : forall r s tp s' rep, handle r s tp = (s', Ok rep) -> of_a (to_a rep) = rep.
Notation q_size := (fun r => bytes_of MQ (to_q r)).
Notation a_size := (fun r => bytes_of MA (to_a r)).
Lemma serial_wire : forall (p : client_prog Req Rep C) s tp,
  serial (over_wire MQ to_q of_q MA to_a of_a handle) p s tp = if none_too_large (sizes q_size a_size handle p s tp) then serial handle p s tp else Err Internal.
Proof.
  induction p as [c|r k IH] using prog_ind; intros s tp; [reflexivity|]. cbn [serial sizes]. unfold over_wire at 1.
  fold (bytes_of MQ (to_q r)). unfold none_too_large at 1. cbn [forallb]. change (1024 * 1024 * 1024) with message_limit. rewrite Z.ltb_antisym.
  destruct (Z.leb_spec (bytes_of MQ (to_q r)) message_limit) as [L|L]; cbn [negb andb]; [|reflexivity]. rewrite PQ by (apply small_of; exact L). rewrite BQ.
  destruct (handle r s (even_coins tp)) as [s' [rep| | |]] eqn:H; cbn [forallb]; try reflexivity.
  fold (bytes_of MA (to_a rep)). rewrite Z.ltb_antisym. destruct (Z.leb_spec (bytes_of MA (to_a rep)) message_limit) as [L2|L2]; cbn [negb andb]; [|reflexivity].
  rewrite PA by (apply small_of; exact L2). rewrite (BA _ _ _ _ _ H). destruct (k rep (odd_coins tp)) as [[p' tp']| | |] eqn:K; try reflexivity. rewrite (IH _ _ _ _ K). reflexivity.
Qed.
Lemma against_wire prog s tp : against (C := C) (over_wire MQ to_q of_q MA to_a of_a handle) prog s tp = if none_too_large (sizes_of q_size a_size handle prog s tp) then against handle prog s tp else Err Internal.
Proof. unfold against, sizes_of. destruct (prog tp) as [[p tp1]| | |]; try reflexivity. rewrite serial_wire. destruct (none_too_large _); reflexivity. Qed.
End Generic.
Lemma serial_ext {Req Rep C SV} (h h' : Req -> SV -> tape -> SV * outcome Rep) : (forall r s tp, h r s tp = h' r s tp) -> forall (p : client_prog Req Rep C) s tp, serial h p s tp = serial h' p s tp.
Proof.
  intros E. induction p as [c|r k IH] using prog_ind; intros s tp; [reflexivity|]. cbn [serial]. rewrite E. destruct (h' r s _) as [s' [rep| | |]]; try reflexivity. destruct (k rep _) as [[p' tp']| | |] eqn:K; try reflexivity. eapply IH; eauto.
Qed.

Section Protocols.
Variables (Gr : group) (enc : wpoint Gr -> bytes) (dec : bytes -> wpoint Gr).
Hypothesis enc_dec : forall w, dec (enc w) = w.
Notation cs := (client_size enc).
Notation ss := (server_size enc).
Notation rs := (fun r => bytes_of ServerMessage (to_server enc r)).
Notation wired := (wired enc dec).
Lemma elems_back l : map (of_welem dec) (map (to_welem enc) l) = l.
Proof. apply list_back. apply welem_back; auto. Qed.
Lemma sets_back l : map (map (of_welem dec)) (map (map (to_welem enc)) l) = l.
Proof. apply list_back. apply elems_back. Qed.
Lemma read_set_if {B} (l : list B) : read_set (set_if l) = l. Proof. destruct l; reflexivity. Qed.
Lemma back_12 m : of_12 dec (to_12 enc m) = m.
Proof. destruct m as [[h n] c v]. unfold of_12, to_12, of_update, to_update. cbn [fst snd m_updates m_cands m_vct u_hashes u_nodes]. rewrite !read_set_if, elems_back, !sets_back. reflexivity. Qed.
Lemma back_client m : of_client dec (to_client enc m) = m.
Proof.
  destruct m as [[m|w|ps|]| |]; cbn [to_client of_client to_p0 of_p0]; try reflexivity.
  - rewrite back_12. reflexivity.
  - rewrite ct_back; auto.
  - rewrite map_map. cbn [get]. rewrite map_id. reflexivity.
Qed.
Definition clean (r : option (server_msg Gr)) : Prop := match r with Some (S_party_one _) | None => True | _ => False end.
Lemma back_server r : clean r -> of_server dec (to_server enc r) = r.
Proof.
  destruct r as [[[m|w|]| |]|]; cbn [clean to_server of_server]; try contradiction; try reflexivity; intros _.
  - rewrite back_12. reflexivity.
  - rewrite ct_back; auto.
Qed.
Section Addition.
Variables (hash : Z -> list bool) (pk : pubkey Gr) (sk0 sk1 : Z) (dec_string : Z -> string) (n : Z) (pai0 pai1 : pub) (psk0 psk1 : Z).
Lemma answer_clean {EL} gen2 m (s : server EL) tp after s' rep : answer_i ss gen2 m s tp after = (s', Ok rep) -> clean rep.
Proof. unfold answer_i. destruct (gen2 _ _ _ _) as [ts [[r t]| | |]]; try discriminate. intros E. injection E as _ <-. exact I. Qed.
Lemma np_clean {EL} gen2 r (s : server EL) tp s' rep : handle_no_payload cs ss gen2 r s tp = (s', Ok rep) -> clean rep.
Proof. unfold handle_no_payload. destruct (sv_finished s); [discriminate|]. destruct r as [[m|w|ps|]| |]; try discriminate. apply answer_clean. Qed.
Lemma sum_clean {EL} gen2 r (s : server EL) tp s' rep : handle_sum cs ss gen2 sk1 r s tp = (s', Ok rep) -> clean rep.
Proof.
  unfold handle_sum. destruct (sv_finished s); [discriminate|]. destruct r as [[m|w|ps|]| |]; try discriminate; [apply answer_clean|]. destruct (process_iii_sum _ _); try discriminate. intros E. injection E as _ <-. exact I.
Qed.
Lemma ss_clean {EL} gen2 dc r (s : server EL) tp s' rep : handle_ss cs ss gen2 dc r s tp = (s', Ok rep) -> clean rep.
Proof.
  unfold handle_ss. destruct (sv_finished s); [discriminate|]. destruct r as [[m|w|ps|]| |]; try discriminate; [apply answer_clean|]. destruct (process_iii_ss _ _ _) as [sh []]; try discriminate. intros E. injection E as _ <-. exact I.
Qed.
Lemma wired_direct {C SV} (handle : client_msg Gr -> SV -> tape -> SV * outcome (option (server_msg Gr))) prog s tp :
  (forall r s tp s' rep, handle r s tp = (s', Ok rep) -> clean rep) ->
  against (C := C) (wired handle) prog s tp = if none_too_large (sizes_of cs rs handle prog s tp) then against handle prog s tp else Err Internal.
Proof.
  intros CL. apply against_wire; [apply C70_network|apply C70_network|apply back_client|]. intros. apply back_server. eapply CL; eauto.
Qed.
Lemma days_direct {C SV} (handle handle' : client_msg Gr -> SV -> tape -> SV * outcome (option (server_msg Gr))) finished (client : C -> M (client_prog _ _ C)) both :
  (forall r s tp s' rep, handle r s tp = (s', Ok rep) -> clean rep) ->
  (forall c s tp, both (c, s) tp = as_day handle' (client c tp) s) -> (forall r s tp, handle' r s tp = handle r s tp) ->
  forall k c s tp, as_direct (none_too_large (sizes_of cs rs handle (all_days finished client k c) s tp)) (run_days finished both k (c, s) tp) (against (wired handle) (all_days finished client k c) s tp).
Proof.
  intros CL SAME EXT k c s tp. unfold as_direct. rewrite wired_direct by exact CL. rewrite (serial_days handle' finished client both SAME k c s tp). unfold against.
  destruct (all_days finished client k c tp) as [[p tp1]| | |]; try reflexivity. rewrite (serial_ext _ _ EXT). reflexivity.
Qed.

(** C71.  Party zero's Run against party one over serialized messages, [k] days
    from any states: the outcome (states, results, coins, errors) is that of the run
    with messages passed directly, if none of its messages is larger than a
    gigabyte, and an Internal error otherwise.  Also for the counters of the traffic
    report, which count the real sizes. *)
Theorem C71_cardinality : forall k c s coins,
  let h := ca_handle hash pk sk1 cs ss in let run := all_days cl_finished (ca_client hash pk sk0) k c in
  as_direct (none_too_large (sizes_of cs rs h run s coins)) (run_days cl_finished (ca_day hash pk sk0 sk1 cs ss) k (c, s) coins) (against (wired h) run s coins).
Proof. intros k c s coins h run. eapply days_direct; [apply np_clean|intros; apply ca_same|intros; apply np_all]. Qed.
Theorem C71_intersection : forall k c s coins,
  let h := psi_handle hash pk sk1 cs ss in let run := all_days cl_finished (psi_client hash pk sk0 dec_string) k c in
  as_direct (none_too_large (sizes_of cs rs h run s coins)) (run_days cl_finished (psi_day hash pk sk0 sk1 cs ss dec_string) k (c, s) coins) (against (wired h) run s coins).
Proof. intros k c s coins h run. eapply days_direct; [apply np_clean|intros; apply psi_same|intros; apply np_all]. Qed.
Theorem C71_sum : forall k c s coins,
  let h := sum_handle hash pk sk1 cs ss in let run := all_days cl_finished (sum_client hash pk sk0) k c in
  as_direct (none_too_large (sizes_of cs rs h run s coins)) (run_days cl_finished (sum_day hash pk sk0 sk1 cs ss) k (c, s) coins) (against (wired h) run s coins).
Proof. intros k c s coins h run. eapply days_direct; [apply sum_clean|intros; apply sum_same|intros; apply sum_all]. Qed.
Theorem C71_shares : forall k c s coins,
  let h := ss_handle hash pk sk1 cs ss n pai1 psk1 in let run := all_days cl_finished (ss_client hash pk sk0 n pai0 psk0) k c in
  as_direct (none_too_large (sizes_of cs rs h run s coins)) (run_days cl_finished (ss_day hash pk sk0 sk1 cs ss n pai0 pai1 psk0 psk1) k (c, s) coins) (against (wired h) run s coins).
Proof. intros k c s coins h run. eapply days_direct; [apply ss_clean|intros; apply ss_same|intros; apply ss_all]. Qed.
End Addition.

(** ** the original protocol *)
Section Original.
Import OrigModel.
Variables (hash : Z -> list bool) (H : Z -> Gr) (dec_string : Z -> string) (pk0 pk1 : pubkey Gr) (sk0 sk1 : Z).
Notation oqs := (og_req_size enc).
Notation ors := (fun r => bytes_of ServerMessage (to_og_reply enc r)).
Lemma points_back l : map dec (to_points enc l) = l.
Proof. apply list_back. apply enc_dec. Qed.
Lemma back_og_req r : of_og_req dec (to_og_req enc r) = r.
Proof.
  destruct r as [[[h n] ps]|css|ps| |]; cbn [to_og_req of_og_req oi_updates oi_points]; try reflexivity.
  - unfold of_update, to_update. cbn [fst snd u_hashes u_nodes]. rewrite sets_back, points_back. reflexivity.
  - unfold of_sets, to_sets. rewrite sets_back. reflexivity.
  - rewrite points_back. reflexivity.
Qed.
Definition og_clean (r : option (og_reply Gr)) : Prop := r <> Some OR_none.
Lemma back_og_reply r : og_clean r -> of_og_reply dec (to_og_reply enc r) = r.
Proof.
  destruct r as [[a css|ps|]|]; intros C; cbn [to_og_reply of_og_reply]; try reflexivity.
  - unfold of_sets, to_sets. rewrite sets_back, ct_back; auto.
  - rewrite points_back. reflexivity.
  - destruct (C eq_refl).
Qed.
Notation og := (og_handle hash H dec_string pk0 pk1 sk0 oqs (og_reply_size enc)).
Lemma answer_ii_kind t es tp r tp' : og_answer_ii (Gr := Gr) hash H pk0 pk1 t es tp = Ok (r, tp') -> r <> OR_none.
Proof.
  unfold og_answer_ii. intros E. do 3 (apply bind_Ok in E as (? & ? & _ & E)). do 3 (apply bind_Ok in E as (? & ? & _ & E)). apply ret_Ok in E as (-> & _). discriminate.
Qed.
Lemma og_replies r s tp s' rep : og r s tp = (s', Ok rep) -> og_clean rep.
Proof.
  unfold og_handle, og_clean. destruct (og_finished s); [discriminate|]. destruct r as [m|css|ps| |]; try discriminate.
  - unfold og_message_ii. destruct (recv_update _ _ _); try discriminate. destruct (og_lookups _ _ _) as [inter [|? | |]]; try discriminate.
    destruct (og_answer_ii _ _ _ _ _ _ _) as [[r tp']| | |] eqn:A; try discriminate. intros E. injection E as _ <-. intros X. injection X as X. exact (answer_ii_kind _ _ _ _ _ A X).
  - unfold og_message_iv. destruct (og_sort_out _ _ _ _ _ _ _ _) as [[inter masks] [[ps tp']| | |]]; try discriminate. intros E. injection E as _ <-. discriminate.
  - destruct (og_message_v _ _ _) as [s2 [|? | |]]; try discriminate. intros E. injection E as _ <-. discriminate.
Qed.
Theorem C71_original : forall k c s coins,
  let run := all_days oc_finished (og_client_day hash H pk0 pk1 sk1) k c in
  as_direct (none_too_large (sizes_of oqs ors og run s coins))
    (run_days oc_finished (og_day_run hash H dec_string pk0 pk1 sk0 sk1 oqs (og_reply_size enc)) k (c, s) coins) (against (og_wired enc dec og) run s coins).
Proof.
  intros k c s coins run. unfold as_direct, og_wired. erewrite against_wire; [|apply C70_network|apply C70_network|apply back_og_req|intros; apply back_og_reply; eapply og_replies; eassumption].
  destruct (none_too_large _); [|reflexivity].
  rewrite (serial_days _ oc_finished _ _ (og_same hash H dec_string pk0 pk1 sk0 sk1 oqs (og_reply_size enc)) k c s coins). unfold run, against.
  destruct (all_days oc_finished _ k c coins) as [[p tp1]| | |]; try reflexivity. rewrite (serial_ext _ _ (og_all hash H dec_string pk0 pk1 sk0 oqs (og_reply_size enc))). reflexivity.
Qed.
End Original.

(** ** the deletion protocols *)
Section Deletion.
Variables (hash : Z -> list bool) (circuit_input : Z -> outcome (list bool)) (P0 P1 : pub) (V0 V1 : priv).
Lemma del_clean r s tp s' rep : del_handle (Gr := Gr) hash P0 V1 r s tp = (s', Ok rep) -> clean rep.
Proof.
  unfold del_handle. destruct (ds_finished s); [discriminate|]. destruct r as [[m|w|ps|]| |]; try discriminate. destruct (nth_error _ _); [|discriminate].
  destruct (del_gen2 _ _ _ _ _ _ _) as [p' [[r t]| | |]]; try discriminate. intros E. injection E as _ <-. exact I.
Qed.
Lemma dc_direct c s tp : against (del_handle (Gr := Gr) hash P0 V1) (dc_program hash P1 V0 c) s tp = dc_run (Gr := Gr) hash P0 P1 V0 V1 (c, s) tp.
Proof.
  unfold against, dc_program, dc_run. destruct (nth_error _ _) as [es|]; [|reflexivity]. unfold bind, ret, lift.
  destruct (del_gen1 _ _ _ _ _ tp) as [[[p1 m1] tp1]| | |]; try reflexivity. cbn [serial]. unfold send. fold (even_coins tp1). fold (odd_coins tp1).
  destruct (del_handle _ _ _ _ _ _) as [s' [r| | |]]; try reflexivity. fold (got r). destruct (dc_handle _ _ _); reflexivity.
Qed.
(** the messages of a day *)
Definition del_sizes (st : dclient * dserver * (round * round)) (coins : tape) : list Z :=
  sizes_of cs rs (del_handle hash P0 V1) (dc_program hash P1 V0 (fst (fst st))) (ds_reset (snd (fst st))) coins.
Lemma del_day_direct st coins : as_direct (none_too_large (del_sizes st coins)) (del_day (Gr := Gr) hash circuit_input P0 P1 V0 V1 st coins) (del_day_wired enc dec hash circuit_input P0 P1 V0 V1 st coins).
Proof.
  unfold as_direct, del_day_wired, del_day_by, del_sizes, del_day. unfold bind at 1. rewrite wired_direct by apply del_clean. destruct (none_too_large _); [|reflexivity].
  rewrite dc_direct. reflexivity.
Qed.
Lemma trace_direct {S} (day_sizes : S -> tape -> list Z) (day wday : S -> M S) :
  (forall st tp, as_direct (none_too_large (day_sizes st tp)) (day st tp) (wday st tp)) ->
  forall k st tp, as_direct (none_too_large (trace_sizes day_sizes day k st tp)) (run_trace day k st tp) (run_trace wday k st tp).
Proof.
  intros D. unfold as_direct in *. induction k as [|k IH]; intros st tp; [reflexivity|]. cbn [run_trace trace_sizes]. unfold bind. rewrite D.
  unfold none_too_large at 2. rewrite forallb_app. fold none_too_large. fold (none_too_large (day_sizes st tp)). destruct (none_too_large (day_sizes st tp)); cbn [andb]; [|reflexivity].
  destruct (day st tp) as [[st' tp']| | |]; try reflexivity. rewrite IH. fold (none_too_large (trace_sizes day_sizes day k st' tp')). destruct (none_too_large _); reflexivity.
Qed.
Theorem C71_deletion : forall k st coins,
  as_direct (none_too_large (trace_sizes del_sizes (del_day (Gr := Gr) hash circuit_input P0 P1 V0 V1) k st coins))
    (run_trace (del_day (Gr := Gr) hash circuit_input P0 P1 V0 V1) k st coins)
    (run_trace (del_day_wired enc dec hash circuit_input P0 P1 V0 V1) k st coins).
Proof. apply trace_direct. intros; apply del_day_direct. Qed.

Import PsiModel.
Notation ph := (PsiModel.psi_handle (Gr := Gr) hash P0 V1).
Lemma ph_clean r s tp s' rep : ph r s tp = (s', Ok rep) -> clean rep.
Proof.
  unfold PsiModel.psi_handle. destruct (ps_finished s); [discriminate|]. destruct r as [[m|w|ps|]| |]; try discriminate. destruct (nth_error _ _) as [[dels adds]|]; [|discriminate].
  destruct (psi_gen2 _ _ _ _ _ _ _) as [p' [[r t]| | |]]; try discriminate. intros E. injection E as _ <-. exact I.
Qed.
Lemma half_direct es c s tp : against ph (half_program hash P1 V0 es c) s tp = exchange (Gr := Gr) hash P0 P1 V0 V1 es (c, s) tp.
Proof.
  unfold against, half_program, exchange, bind, ret, lift.
  destruct (psi_gen1 _ _ _ _ _ tp) as [[[p1 m1] tp1]| | |]; try reflexivity. cbn [serial]. unfold send. fold (even_coins tp1). fold (odd_coins tp1).
  destruct (ph _ _ _) as [s' [r| | |]]; try reflexivity. fold (got r). destruct (pc_handle _ _ _); reflexivity.
Qed.
(** the messages of a day: those of the deletions and, if that succeeds, those of
    the additions *)
Definition psi_sizes (st : pclient * pserver * day_info) (coins : tape) : list Z :=
  let '(c, s, _) := st in
  match nth_error (pc_data c) (pc_day c) with
  | None => []
  | Some (dels, adds) =>
      let c1 := pc_with (preset (pc_party c)) c in
      sizes_of cs rs ph (half_program hash P1 V0 dels c1) (ps_reset s) coins ++
      match exchange (Gr := Gr) hash P0 P1 V0 V1 dels (c1, ps_reset s) coins with
      | Ok ((c2, s2), coins2) => sizes_of cs rs ph (half_program hash P1 V0 adds c2) s2 coins2
      | _ => []
      end
  end.
Lemma psi_day_direct st coins : as_direct (none_too_large (psi_sizes st coins)) (psi_day2 (Gr := Gr) hash circuit_input P0 P1 V0 V1 st coins) (psi_day_wired enc dec hash circuit_input P0 P1 V0 V1 st coins).
Proof.
  destruct st as [[c s] di]. unfold as_direct, psi_day_wired, psi_day_by, psi_sizes, psi_day2, psi_run_by, psi_run.
  destruct (nth_error (pc_data c) (pc_day c)) as [[dels adds]|]; [|reflexivity]. unfold none_too_large at 1. rewrite forallb_app.
  fold (none_too_large (sizes_of cs rs ph (half_program hash P1 V0 dels (pc_with (preset (pc_party c)) c)) (ps_reset s) coins)).
  unfold bind. rewrite wired_direct by apply ph_clean. destruct (none_too_large (sizes_of _ _ _ _ _ _)); cbn [andb]; [|reflexivity].
  rewrite half_direct. destruct (exchange _ _ _ _ _ dels _ coins) as [[[c2 s2] tp2]| | |]; try reflexivity.
  rewrite wired_direct by apply ph_clean. fold (none_too_large (sizes_of cs rs ph (half_program hash P1 V0 adds c2) s2 tp2)).
  destruct (none_too_large (sizes_of _ _ _ _ _ _)); [|reflexivity]. rewrite half_direct. reflexivity.
Qed.
Theorem C71_deletion_psi : forall k st coins,
  as_direct (none_too_large (trace_sizes psi_sizes (psi_day2 (Gr := Gr) hash circuit_input P0 P1 V0 V1) k st coins))
    (run_trace (psi_day2 (Gr := Gr) hash circuit_input P0 P1 V0 V1) k st coins)
    (run_trace (psi_day_wired enc dec hash circuit_input P0 P1 V0 V1) k st coins).
Proof. apply trace_direct. intros; apply psi_day_direct. Qed.
End Deletion.

(** ** the results of C16-C20, C22, C23 over serialized messages *)
Lemma ends_direct {T} (Q : T -> Prop) b d w : as_direct b d w -> ends_well Q d -> ends_well Q w.
Proof. unfold as_direct. intros ->. destruct b; [auto|intros _; exact I]. Qed.
Lemma ok_direct {T} b (d w : outcome T) v : as_direct b d w -> w = Ok v -> d = Ok v.
Proof. unfold as_direct. intros ->. destruct b; [auto|discriminate]. Qed.
Section Results.
Variables (hash : Z -> list bool) (pk : pubkey Gr) (sk0 sk1 : Z).
Notation setting := (PropsAdd.setting Gr hash pk sk0 sk1).
Notation initial := (PropsAdd.initial Gr).
Theorem C71_cardinality_result : forall stash node d0 d1 k coins,
  setting -> length d1 = length d0 -> proper (fun x => x) d0 -> proper (fun x => x) d1 ->
  let start := initial stash node d0 d1 0 in
  ends_well (fun '((c, s), _) =>
      cl_day c = min k (length d0) /\ sv_day s = min k (length d0) /\
      exists found, partly (common (fun x => x) (upto (cl_day c) d0) (upto (cl_day c) d1)) found (no_loss (cl_my c) (sv_my s))
                    /\ cl_out c = Z.of_nat (length found))
    (against (wired (ca_handle hash pk sk1 cs ss)) (all_days cl_finished (ca_client hash pk sk0) k (fst start)) (snd start) coins).
Proof. intros. eapply ends_direct; [apply C71_cardinality|]. apply PropsAdd.C16_cardinality; auto. Qed.
Theorem C71_intersection_result : forall dec_string stash node d0 d1 k coins,
  setting -> length d1 = length d0 -> proper (fun x => x) d0 -> proper (fun x => x) d1 ->
  let start := initial stash node d0 d1 (([], []) : psi_out (Gr := Gr)) in
  ends_well (fun '((c, s), _) =>
      cl_day c = min k (length d0) /\ sv_day s = min k (length d0) /\
      exists found, partly (common (fun x => x) (upto (cl_day c) d0) (upto (cl_day c) d1)) found (no_loss (cl_my c) (sv_my s))
                    /\ snd (cl_out c) = map dec_string found)
    (against (wired (psi_handle hash pk sk1 cs ss)) (all_days cl_finished (psi_client hash pk sk0 dec_string) k (fst start)) (snd start) coins).
Proof. intros. eapply ends_direct; [apply C71_intersection|]. apply PropsAdd.C17_intersection; auto. Qed.
Theorem C71_sum_result : forall stash node d0 d1 k coins,
  setting -> length d1 = length d0 -> proper fst d0 -> proper (fun x => x) d1 ->
  Forall (fun a => 0 <= snd a) (concat d0) -> AddSpec.total (map snd (concat d0)) < ord Gr -> Z.of_nat (length d0) < 2 ^ 31 ->
  let start := initial stash node d0 d1 (0, 0) in
  ends_well (fun '((c, s), _) =>
      cl_day c = min k (length d0) /\ sv_day s = min k (length d0) /\
      exists found, partly (common fst (upto (cl_day c) d0) (upto (cl_day c) d1)) found (no_loss (cl_my c) (sv_my s))
                    /\ fst (cl_out c) = Z.of_nat (length found) /\ snd (cl_out c) = AddSpec.total (map snd found))
    (against (wired (sum_handle hash pk sk1 cs ss)) (all_days cl_finished (sum_client hash pk sk0) k (fst start)) (snd start) coins).
Proof.
  intros stash node d0 d1 k coins S L PA PB POS T D start. eapply ends_direct; [apply C71_sum|].
  pose proof (PropsAdd.C18_sum Gr hash pk sk0 sk1 cs ss stash node d0 d1 k coins S L PA PB POS T D) as X.
  change (fst start, snd start) with start. fold start in X.
  destruct (run_days _ _ _ _ _) as [[[c s] tp']| | |]; cbn [ends_well] in *; tauto.
Qed.
Theorem C71_shares_result : forall p q bits kt n psk0 psk1 kt' pai0 pai1 stash node raw d1 k coins,
  setting -> prime p -> prime q -> p <> q -> threshold_keygen p q bits kt = Ok ((n, psk0, psk1), kt') ->
  PropsPaillier.thr_object n pai0 -> PropsPaillier.thr_object n pai1 ->
  length d1 = length raw -> proper fst raw -> proper (fun x => x) d1 ->
  let start := initial stash node (map (map ss_payload) raw) d1 ([] : list Z) in
  ends_well (fun '((c, s), _) =>
      cl_day c = min k (length raw) /\ sv_day s = min k (length raw) /\ length (cl_out c) = length (sv_shares s) /\
      exists found, partly (map fst (common fst (upto (cl_day c) raw) (upto (cl_day c) d1))) found (no_loss (cl_my c) (sv_my s))
                    /\ map (fun ab => (fst ab + snd ab) mod n) (combine (cl_out c) (sv_shares s)) = found)
    (against (wired (ss_handle hash pk sk1 cs ss n pai1 psk1)) (all_days cl_finished (ss_client hash pk sk0 n pai0 psk0) k (fst start)) (snd start) coins).
Proof.
  intros p q bits kt n psk0 psk1 kt' pai0 pai1 stash node raw d1 k coins S PP PQ NE KG O0 O1 L PA PB start. eapply ends_direct; [apply C71_shares|].
  exact (PropsAdd.C19_shares Gr hash pk sk0 sk1 cs ss p q bits kt n psk0 psk1 kt' pai0 pai1 stash node raw d1 k coins S PP PQ NE KG O0 O1 L PA PB).
Qed.
Theorem C71_original_result : forall H dec_string pk0 pk1 x0 x1 stash node d0 d1 k coins,
  PropsOrig.og_setting Gr hash pk0 pk1 x0 x1 -> length d1 = length d0 -> proper (fun x => x) d0 -> proper (fun x => x) d1 -> PropsOrig.no_collision Gr H d0 d1 ->
  let start := PropsOrig.og_initial Gr stash node d0 d1 in
  ends_well (fun '((c, s), _) =>
      OrigModel.oc_day c = min k (length d0) /\ OrigModel.og_day s = min k (length d0) /\
      exists found, partly (common (fun x => x) (upto (OrigModel.og_day s) d0) (upto (OrigModel.og_day s) d1)) found (no_overflow (OrigModel.oc_tree c))
                    /\ OrigModel.og_inter s = map dec_string found)
    (against (og_wired enc dec (OrigModel.og_handle hash H dec_string pk0 pk1 x0 (og_req_size enc) (og_reply_size enc)))
       (all_days OrigModel.oc_finished (og_client_day hash H pk0 pk1 x1) k (fst start)) (snd start) coins).
Proof. intros. eapply ends_direct; [apply C71_original|]. apply PropsOrig.C23_original_intersection; auto. Qed.
End Results.
Section DeletionResults.
Variables (hash : Z -> list bool) (circuit_input : Z -> outcome (list bool)) (p0 q0 p1 q1 : Z) (P0 P1 : pub) (V0 V1 : priv).
Theorem C71_deletion_result : forall stash node d0 d1 k coins trace coins',
  PropsDel.keys hash p0 q0 p1 q1 P0 P1 V0 V1 -> length d1 = length d0 -> DelSpec.proper_signed (p1 * q1) d0 -> DelSpec.proper_signed (p0 * q0) d1 -> (k <= length d0)%nat ->
  run_trace (del_day_wired enc dec hash circuit_input P0 P1 V0 V1) k (del_start stash node d0 d1) coins = Ok (trace, coins') ->
  length trace = k /\
  forall j c s rounds, nth_error trace j = Some (c, s, rounds) ->
    dc_day c = S j /\ ds_day s = S j /\
    ((forall i st, (i <= j)%nat -> nth_error trace i = Some st -> PropsDel.lucky_day circuit_input p0 q0 p1 q1 d0 d1 i st) ->
     dc_result c = DelSpec.inner (upto (S j) d0) (upto (S j) d1) mod 2 ^ 64).
Proof. intros stash node d0 d1 k coins trace coins' K L A B LE E. eapply ok_direct in E; [|apply C71_deletion]. eapply PropsDel.C20_inner_product; eauto. Qed.
Theorem C71_deletion_no_crash : forall stash node d0 d1 k coins,
  PropsDel.keys hash p0 q0 p1 q1 P0 P1 V0 V1 -> length d1 = length d0 -> DelSpec.proper_signed (p1 * q1) d0 -> DelSpec.proper_signed (p0 * q0) d1 -> (k <= length d0)%nat ->
  (forall x, SyncSpec.returns (circuit_input x)) ->
  SyncSpec.returns (run_trace (del_day_wired enc dec hash circuit_input P0 P1 V0 V1) k (del_start stash node d0 d1) coins).
Proof.
  intros stash node d0 d1 k coins K L A B LE CI. rewrite C71_deletion. destruct (none_too_large _); [|exact I]. eapply PropsDel.C20_no_crash; eauto.
Qed.
Theorem C71_deletion_psi_result : forall h0 h1 d0 d1 stash node k coins trace coins',
  PropsPsi.psi_setting hash p0 q0 p1 q1 P0 P1 V0 V1 h0 h1 d0 d1 -> (k <= length h0)%nat -> (forall j, (j < k)%nat -> PsiSpec.no_return j h0 h1) ->
  run_trace (psi_day_wired enc dec hash circuit_input P0 P1 V0 V1) k (PsiModel.psi_start stash node d0 d1) coins = Ok (trace, coins') ->
  length trace = k /\
  forall j c s di, nth_error trace j = Some (c, s, di) -> PsiModel.pc_day c = S j /\ PsiModel.ps_day s = S j /\
  ((forall i st, (i <= j)%nat -> nth_error trace i = Some st -> PropsPsi.lucky_psi_day circuit_input p0 q0 p1 q1 d0 d1 i st) ->
   PsiSpec.same_set (PsiModel.pc_set c) (PsiSpec.both (PsiSpec.current (S j) h0) (PsiSpec.current (S j) h1))).
Proof. intros h0 h1 d0 d1 stash node k coins trace coins' A LE NR E. eapply ok_direct in E; [|apply C71_deletion_psi]. eapply PropsPsi.C22_intersection; eauto. Qed.
End DeletionResults.
End Protocols.

(** ** How many elements fit: protobuf adds at most ten bytes per field *)
Section Capacity.
Variables (Gr : group) (enc : wpoint Gr -> bytes).
Lemma varint_len k v : (length (varint k v) <= S k)%nat.
Proof. revert v. induction k as [|k IH]; intros v; cbn [varint]; [cbn; lia|]. destruct (_ <? _); cbn [length]; [lia|]. specialize (IH (v / 128)). lia. Qed.
Lemma write_len n b : Z.of_nat (length b) <= Z.of_nat (length (write_field (n, Len b))) <= 10 + Z.of_nat (length b).
Proof. cbn [write_field fst snd]. rewrite !app_length. pose proof (varint_len 4 (n * 8 + 2)). pose proof (varint_len 4 (Z.of_nat (length b))). lia. Qed.
Lemma write_app a b : write_fields (a ++ b) = write_fields a ++ write_fields b.
Proof. unfold write_fields. rewrite map_app. apply concat_app. Qed.
Notation len l := (Z.of_nat (length l)).
Lemma one_len n b : len b <= len (write_fields [(n, Len b)]) <= 10 + len b.
Proof. unfold write_fields. cbn [map concat]. rewrite app_nil_r. apply write_len. Qed.
Lemma both_len {A B} (M : msg A) (N : msg B) t : bytes_of (both M N) t = bytes_of M (fst t) + bytes_of N (snd t).
Proof. unfold bytes_of, serialize. cbn [both m_fields]. rewrite write_app, app_length. lia. Qed.
Lemma opt_len {A} n (M : msg A) t : bytes_of M t <= bytes_of (opt_msg n M) (Some t) <= 10 + bytes_of M t.
Proof. apply one_len. Qed.
Lemma opt_bytes_len n b : len b <= bytes_of (opt_bytes n) (Some b) <= 10 + len b.
Proof. apply one_len. Qed.
Lemma rep_len {A} n (M : msg A) B l : Forall (fun t => bytes_of M t <= B) l -> bytes_of (rep_msg n M) l <= (10 + B) * len l.
Proof.
  unfold bytes_of, serialize. cbn [rep_msg m_fields]. induction 1 as [|t l H _ IH]; [cbn; lia|]. cbn [map]. change (?a :: ?b) with ([a] ++ b) at 1. rewrite write_app, app_length.
  pose proof (one_len n (serialize M t)). unfold serialize in *. cbn [length]. lia.
Qed.
Lemma rep_total {A} n (M : msg A) (f : A -> Z) l : Forall (fun t => bytes_of M t <= f t) l -> bytes_of (rep_msg n M) l <= AddSpec.total (map f l) + 10 * len l.
Proof.
  unfold bytes_of, serialize. cbn [rep_msg m_fields]. induction 1 as [|t l H _ IH]; [cbn; lia|]. cbn [map]. change (?a :: ?b) with ([a] ++ b) at 1. rewrite write_app, app_length, DelProofs.total_cons.
  pose proof (one_len n (serialize M t)). unfold serialize in *. cbn [length]. lia.
Qed.
Lemma rep_bytes_len n B l : Forall (fun b : bytes => len b <= B) l -> bytes_of (rep_bytes n) l <= (10 + B) * len l.
Proof.
  unfold bytes_of, serialize. cbn [rep_bytes m_fields]. induction 1 as [|t l H _ IH]; [cbn; lia|]. cbn [map]. change (?a :: ?b) with ([a] ++ b) at 1. rewrite write_app, app_length.
  pose proof (one_len n t). cbn [length]. lia.
Qed.
Definition elements_in (m : msg12 Gr) : list (welem Gr) := concat (u_nodes (m_updates m)) ++ m_cands m ++ concat (m_vct m).
Definition lists_in (m : msg12 Gr) : Z := len (u_nodes (m_updates m)) + len (m_vct m).
Definition hashes_in (m : msg12 Gr) : list bytes := u_hashes (m_updates m).
Notation welem_size w := (bytes_of EncryptedElement (to_welem enc w)).
Lemma elems_len n B l : Forall (fun w => welem_size w <= B) l -> bytes_of (rep_msg n EncryptedElement) (map (to_welem enc) l) <= (10 + B) * len l.
Proof. intros F. rewrite <- (map_length (to_welem enc) l). apply rep_len. apply Forall_map. exact F. Qed.
Lemma lists_len n k B l : Forall (fun w => welem_size w <= B) (concat l) -> bytes_of (rep_msg n (rep_msg k EncryptedElement)) (map (map (to_welem enc)) l) <= (10 + B) * len (concat l) + 10 * len l.
Proof.
  intros F. eapply Z.le_trans; [apply (rep_total n _ (fun x => (10 + B) * len x))|].
  - induction l as [|x l IH]; cbn [map]; constructor.
    + cbn [concat] in F. apply Forall_app in F as (F & _). rewrite map_length. apply elems_len. exact F.
    + apply IH. cbn [concat] in F. apply Forall_app in F as (_ & F). exact F.
  - rewrite map_length. apply Z.add_le_mono_r. clear F. induction l as [|x l IH]; cbn [map concat]; [cbn; lia|]. rewrite DelProofs.total_cons, app_length, map_length. lia.
Qed.
Lemma msg12_len B H m : 0 <= B -> Forall (fun w => welem_size w <= B) (elements_in m) -> Forall (fun h => len h <= H) (hashes_in m) ->
  bytes_of MessageI (to_12 enc m) <= 30 + (10 + H) * len (hashes_in m) + 10 * lists_in m + (10 + B) * len (elements_in m).
Proof.
  intros B0 FE FH. unfold MessageI, elements_in, lists_in, hashes_in in *. rewrite !both_len. cbn [to_12 fst snd]. apply Forall_app in FE as (F1 & FE). apply Forall_app in FE as (F2 & F3).
  pose proof (opt_len 1 TreeUpdates (to_update enc (m_updates m))) as U. 
  pose proof (both_len (rep_bytes 1) (rep_msg 2 TreeNode) (to_update enc (m_updates m))) as TU. fold TreeUpdates in TU. rewrite TU in U. clear TU. cbn [to_update fst snd] in U.
  pose proof (rep_bytes_len 1 _ _ FH) as U1. pose proof (lists_len 2 2 _ _ F1) as U2. fold TreeNode in U2.
  pose proof (Z.le_trans _ _ _ (proj2 U) (Zplus_le_compat_l _ _ 10 (Z.add_le_mono _ _ _ _ U1 U2))) as U4.
  assert (C : bytes_of (opt_msg 2 EncryptedSet) (set_if (map (to_welem enc) (m_cands m))) <= 10 + (10 + B) * len (m_cands m)).
  { pose proof (elems_len 1 _ _ F2) as X. destruct (m_cands m) as [|w l]; [change (0 <= 10 + (10 + B) * 0); lia|]. refine (Z.le_trans _ _ _ (proj2 (opt_len _ _ _)) _). apply Zplus_le_compat_l. exact X. }
  assert (V : bytes_of (opt_msg 3 EncryptedSetVector) (set_if (map (map (to_welem enc)) (m_vct m))) <= 10 + (10 + B) * len (concat (m_vct m)) + 10 * len (m_vct m)).
  { pose proof (lists_len 1 1 _ _ F3) as X. destruct (m_vct m) as [|w l]; [change (0 <= 10 + (10 + B) * 0 + 10 * 0); lia|]. refine (Z.le_trans _ _ _ (proj2 (opt_len _ _ _)) _). rewrite <- Z.add_assoc. apply Zplus_le_compat_l. exact X. }
  eapply Z.le_trans; [exact (Z.add_le_mono _ _ _ _ U4 (Z.add_le_mono _ _ _ _ C V))|].  rewrite !app_length. lia.
Qed.
(** C71.  The size of message I (and II): at most ten bytes for each element, list
    and hash besides their own, and fifty in all. *)
Theorem C71_message_size : forall element_size hash_size m, 0 <= element_size ->
  Forall (fun w => welem_size w <= element_size) (elements_in m) -> Forall (fun h => len h <= hash_size) (hashes_in m) ->
  let bound := 50 + (10 + hash_size) * len (hashes_in m) + 10 * lists_in m + (10 + element_size) * len (elements_in m) in
  client_size enc (C_party_zero (P0_I m)) <= bound /\ server_size enc (S_party_one (P1_II m)) <= bound.
Proof.
  intros B H m B0 FE FH bound. pose proof (msg12_len B H m B0 FE FH) as X. split.
  - pose proof (one_len 1 (serialize MessageI (to_12 enc m))) as Y. pose proof (one_len 1 (serialize PartyZeroMessage (Some (inl (to_12 enc m))))) as Y2.
    unfold client_size. unfold bytes_of in *. change (serialize ClientMessage (to_client enc (C_party_zero (P0_I m)))) with (write_fields [(1, Len (serialize PartyZeroMessage (Some (inl (to_12 enc m)))))]).
    change (serialize PartyZeroMessage (Some (inl (to_12 enc m)))) with (write_fields [(1, Len (serialize MessageI (to_12 enc m)))]) in *. lia.
  - pose proof (one_len 1 (serialize MessageI (to_12 enc m))) as Y. pose proof (one_len 1 (serialize PartyOneMessage (Some (inl (to_12 enc m))))) as Y2.
    unfold server_size. unfold bytes_of in *. change (serialize ServerMessage (to_server enc (Some (S_party_one (P1_II m))))) with (write_fields [(1, Len (serialize PartyOneMessage (Some (inl (to_12 enc m)))))]).
    change (serialize PartyOneMessage (Some (inl (to_12 enc m)))) with (write_fields [(1, Len (serialize MessageI (to_12 enc m)))]) in *. lia.
Qed.
Definition point_sizes (L : Z) : Prop := forall w, len (enc w) <= L.
Lemma ct_len L c : point_sizes L -> len (enc (fst c)) + len (enc (snd c)) <= bytes_of ElGamalCiphertext (to_ct enc c) <= 20 + 2 * L.
Proof.
  intros P. unfold ElGamalCiphertext. rewrite both_len. cbn [to_ct fst snd]. pose proof (opt_bytes_len 1 (enc (fst c))) as (A1 & A2). pose proof (opt_bytes_len 2 (enc (snd c))) as (B1 & B2).
  split; [exact (Z.add_le_mono _ _ _ _ A1 B1)|]. eapply Z.le_trans; [exact (Z.add_le_mono _ _ _ _ A2 B2)|]. pose proof (P (fst c)) as PA. pose proof (P (snd c)) as PB. unfold bytes in *. lia.
Qed.
Lemma no_payload_len L c : point_sizes L -> welem_size (WNoPayload c) <= 40 + 2 * L.
Proof.
  intros P. pose proof (ct_len L c P). pose proof (opt_len 1 ElGamalCiphertext (to_ct enc c)). pose proof (one_len 1 (serialize NoPayload (Some (to_ct enc c)))) as Y.
  unfold bytes_of in *. change (serialize EncryptedElement (to_welem enc (WNoPayload c))) with (write_fields [(1, Len (serialize NoPayload (Some (to_ct enc c))))]).
  change (serialize (opt_msg 1 ElGamalCiphertext) (Some (to_ct enc c))) with (serialize NoPayload (Some (to_ct enc c))) in *. lia.
Qed.
(** C71.  With points of 33 bytes, up to eight million elements in up to a million
    lists and 200000 hashes of at most 100 bytes fit. *)
Theorem C71_capacity : forall m, point_sizes 33 ->
  Forall (fun w => exists c, w = WNoPayload c) (elements_in m) -> Forall (fun h => len h <= 100) (hashes_in m) ->
  len (elements_in m) <= 8000000 -> lists_in m <= 1000000 -> len (hashes_in m) <= 200000 ->
  none_too_large [client_size enc (C_party_zero (P0_I m)); server_size enc (S_party_one (P1_II m))] = true.
Proof.
  intros m P FE FH N1 N2 N3. assert (FE' : Forall (fun w => welem_size w <= 106) (elements_in m)).
  { eapply Forall_impl; [|exact FE]. intros w (c & ->). pose proof (no_payload_len 33 c P). lia. }
  destruct (C71_message_size 106 100 m ltac:(lia) FE' FH) as (A & B). cbn [none_too_large forallb]. rewrite andb_true_r. apply andb_true_intro. split; apply Z.leb_le; lia.
Qed.
(** ... and elements whose points alone have more than a gigabyte do not: the
    request never reaches the handler *)
Lemma elems_long n l : AddSpec.total (map (fun w => welem_size w) l) <= bytes_of (rep_msg n EncryptedElement) (map (to_welem enc) l).
Proof.
  unfold bytes_of, serialize. cbn [rep_msg m_fields]. induction l as [|w l IH]; [cbn; lia|]. cbn [map]. rewrite DelProofs.total_cons. change (?a :: ?b) with ([a] ++ b) at 1. rewrite write_app, app_length.
  pose proof (one_len n (serialize EncryptedElement (to_welem enc w))). unfold serialize in *. lia.
Qed.
Lemma cands_in_message m : AddSpec.total (map (fun w => welem_size w) (m_cands m)) <= bytes_of MessageI (to_12 enc m).
Proof.
  pose proof (elems_long 1 (m_cands m)) as E. fold EncryptedSet in E.
  assert (M : bytes_of EncryptedSet (map (to_welem enc) (m_cands m)) <= bytes_of MessageI (to_12 enc m)).
  { unfold MessageI. rewrite !both_len. cbn [to_12 fst snd]. assert (bytes_of EncryptedSet (map (to_welem enc) (m_cands m)) <= bytes_of (opt_msg 2 EncryptedSet) (set_if (map (to_welem enc) (m_cands m)))).
    { destruct (m_cands m) as [|w l]; [cbn; lia|]. cbn [map set_if]. apply opt_len. }
    assert (0 <= bytes_of (opt_msg 1 TreeUpdates) (Some (to_update enc (m_updates m)))) by (unfold bytes_of; lia).
    assert (0 <= bytes_of (opt_msg 3 EncryptedSetVector) (set_if (map (map (to_welem enc)) (m_vct m)))) by (unfold bytes_of; lia). lia. }
  lia.
Qed.
Theorem C71_too_large : forall (dec : bytes -> wpoint Gr) SV (handle : client_msg Gr -> SV -> tape -> SV * outcome (option (server_msg Gr))) m s coins,
  1024 * 1024 * 1024 < AddSpec.total (map (fun w => welem_size w) (m_cands m)) ->
  wired enc dec handle (C_party_zero (P0_I m)) s coins = (s, Err Internal).
Proof.
  intros dec SV handle m s coins L. unfold wired, over_wire. fold (bytes_of ClientMessage (to_client enc (C_party_zero (P0_I m)))).
  assert (X : AddSpec.total (map (fun w => welem_size w) (m_cands m)) <= bytes_of ClientMessage (to_client enc (C_party_zero (P0_I m)))).
  { pose proof (one_len 1 (serialize MessageI (to_12 enc m))) as Y. pose proof (one_len 1 (serialize PartyZeroMessage (Some (inl (to_12 enc m))))) as Y2.
    pose proof (cands_in_message m) as M.
    unfold bytes_of in *. change (serialize ClientMessage (to_client enc (C_party_zero (P0_I m)))) with (write_fields [(1, Len (serialize PartyZeroMessage (Some (inl (to_12 enc m)))))]).
    change (serialize PartyZeroMessage (Some (inl (to_12 enc m)))) with (write_fields [(1, Len (serialize MessageI (to_12 enc m)))]) in *. lia. }
  destruct (Z.ltb_spec message_limit (bytes_of ClientMessage (to_client enc (C_party_zero (P0_I m))))) as [|W]; [reflexivity|]. unfold message_limit in W. lia.
Qed.
(** a reply as large as that does not reach the client, but the handler has run:
    the server is in the state it leaves behind.  [asked]: a request that arrives *)
Theorem C71_reply_too_large : forall (dec : bytes -> wpoint Gr) SV (handle : client_msg Gr -> SV -> tape -> SV * outcome (option (server_msg Gr))) asked s coins s' m,
  (forall w, dec (enc w) = w) -> client_size enc asked <= 1024 * 1024 * 1024 ->
  handle asked s coins = (s', Ok (Some (S_party_one (P1_II m)))) ->
  1024 * 1024 * 1024 < AddSpec.total (map (fun w => welem_size w) (m_cands m)) ->
  wired enc dec handle asked s coins = (s', Err Internal).
Proof.
  intros dec SV handle asked s coins s' m DE SZ EH L. unfold wired, over_wire. fold (bytes_of ClientMessage (to_client enc asked)). fold (client_size enc asked).
  destruct (Z.ltb_spec message_limit (client_size enc asked)) as [W|_]; [unfold message_limit in W; lia|].
  assert (PQ : parse ClientMessage (serialize ClientMessage (to_client enc asked)) = Some (to_client enc asked)) by (apply C70_network; apply small_of; exact SZ).
  rewrite PQ, (back_client Gr enc dec DE), EH. clear EH.
  fold (bytes_of ServerMessage (to_server enc (Some (S_party_one (P1_II m))))).
  assert (X : AddSpec.total (map (fun w => welem_size w) (m_cands m)) <= bytes_of ServerMessage (to_server enc (Some (S_party_one (P1_II m))))).
  { pose proof (one_len 1 (serialize MessageI (to_12 enc m))) as Y. pose proof (one_len 1 (serialize PartyOneMessage (Some (inl (to_12 enc m))))) as Y2.
    pose proof (cands_in_message m) as M.
    unfold bytes_of in *. change (serialize ServerMessage (to_server enc (Some (S_party_one (P1_II m))))) with (write_fields [(1, Len (serialize PartyOneMessage (Some (inl (to_12 enc m)))))]).
    change (serialize PartyOneMessage (Some (inl (to_12 enc m)))) with (write_fields [(1, Len (serialize MessageI (to_12 enc m)))]) in *. lia. }
  destruct (Z.ltb_spec message_limit (bytes_of ServerMessage (to_server enc (Some (S_party_one (P1_II m)))))) as [|W]; [reflexivity|]. unfold message_limit in W. lia.
Qed.
Lemma points_long n l : AddSpec.total (map (fun p => len (enc p)) l) <= bytes_of (rep_bytes n) (map enc l).
Proof.
  unfold bytes_of, serialize. cbn [rep_bytes m_fields]. induction l as [|w l IH]; [cbn; lia|]. cbn [map]. rewrite DelProofs.total_cons. change (?a :: ?b) with ([a] ++ b) at 1. rewrite write_app, app_length.
  pose proof (one_len n (enc w)). unfold bytes in *. lia.
Qed.
(** The sizes of the messages of points of the original protocol, as they enter the
    traffic counters (original/party_zero.cc:24, 164). *)
Theorem C71_points_size : forall point_size ps, Forall (fun p => len (enc p) <= point_size) ps ->
  let least := AddSpec.total (map (fun p => len (enc p)) ps) in let most := 30 + (10 + point_size) * len ps in
  least <= og_req_size enc (OrigModel.OQ_V ps) <= most /\ least <= og_reply_size enc (OrigModel.OR_IV ps) <= most.
Proof.
  intros B ps F least most.
  assert (L : least <= bytes_of (rep_bytes 1) (map enc ps)) by apply points_long.
  assert (U : bytes_of (rep_bytes 1) (map enc ps) <= (10 + B) * len ps).
  { pose proof (rep_bytes_len 1 B (map enc ps)) as X. rewrite map_length in X. apply X. apply Forall_forall. intros b Hb. apply in_map_iff in Hb as (p & <- & Hp). rewrite Forall_forall in F. exact (F p Hp). }
  subst most. split.
  - pose proof (one_len 5 (serialize og_MessageV (map enc ps))) as Y. pose proof (one_len 2 (write_fields [(5, Len (serialize og_MessageV (map enc ps)))])) as Y2.
    unfold og_req_size. unfold bytes_of in *. change (serialize ClientMessage (to_og_req enc (OrigModel.OQ_V ps))) with (write_fields [(2, Len (write_fields [(5, Len (serialize og_MessageV (map enc ps)))]))]).
    unfold og_MessageV in *. lia.
  - pose proof (one_len 4 (serialize og_MessageIV (map enc ps))) as Y. pose proof (one_len 2 (write_fields [(4, Len (serialize og_MessageIV (map enc ps)))])) as Y2.
    unfold og_reply_size. unfold bytes_of in *. change (serialize ServerMessage (to_og_reply enc (Some (OrigModel.OR_IV ps)))) with (write_fields [(2, Len (write_fields [(4, Len (serialize og_MessageIV (map enc ps)))]))]).
    unfold og_MessageIV in *. lia.
Qed.
End Capacity.

(** ** Examples *)
Section Examples.
(** the run of PropsAdd.ex_C16 over serialized messages: both days, result 3; its
    four messages have between 1 and 999 bytes *)
Definition ex_start := PropsAdd.initial PropsAdd.exG (E := ct PropsAdd.exG) 2 2 PropsAdd.ex_d0 PropsAdd.ex_d1 0.
Definition ex_handle := ca_handle PropsSync.ex_bits PropsAdd.ex_pk 9 (client_size ex_enc) (server_size ex_enc).
Definition ex_program := all_days cl_finished (ca_client PropsSync.ex_bits PropsAdd.ex_pk 4) 5 (fst ex_start).
Example ex_C71 :
  match against (wired ex_enc ex_dec ex_handle) ex_program (snd ex_start) PropsAdd.ex_tape with
  | Ok ((c, s), _) => (cl_out c =? 3) && (cl_day c =? 2)%nat && (0 <? AddSpec.total (sv_comm s))
  | _ => false end = true.
Proof. vm_cast_no_check (eq_refl true). Qed.
Example ex_C71_sizes :
  let l := sizes_of (client_size ex_enc) (fun r => bytes_of ServerMessage (to_server ex_enc r)) ex_handle ex_program (snd ex_start) PropsAdd.ex_tape in
  (length l =? 4)%nat && forallb (fun n => (0 <? n) && (n <? 1000)) l = true.
Proof. vm_cast_no_check (eq_refl true). Qed.
(** the hypotheses of C71_capacity and of C71_too_large are met *)
Definition ex_welem : welem PropsAdd.exG := WNoPayload (WPt gen, WPt gen).
Definition ex_small : msg12 PropsAdd.exG := mkMsgV (mkUpdate [[1; 0]] [[ex_welem; ex_welem]]) [ex_welem] [].
Definition ex_large : msg12 PropsAdd.exG := mkMsgV (mkUpdate [] []) (repeat ex_welem (Z.to_nat (2 ^ 30))) [].
Example ex_C71_capacity : none_too_large [client_size ex_enc (C_party_zero (P0_I ex_small)); server_size ex_enc (S_party_one (P1_II ex_small))] = true.
Proof.
  apply C71_capacity.
  - intros w. cbn. lia.
  - repeat constructor; eexists; reflexivity.
  - repeat constructor; cbn; lia.
  - cbn. lia.
  - cbn. lia.
  - cbn. lia.
Qed.
Example ex_C71_too_large : 1024 * 1024 * 1024 < AddSpec.total (map (fun w => bytes_of EncryptedElement (to_welem ex_enc w)) (m_cands ex_large)).
Proof.
  assert (S : 1 < bytes_of EncryptedElement (to_welem ex_enc ex_welem)) by (vm_compute; reflexivity).
  assert (G : forall n, 2 * Z.of_nat n <= AddSpec.total (map (fun w => bytes_of EncryptedElement (to_welem ex_enc w)) (repeat ex_welem n))).
  { induction n as [|n IH]; [cbn; lia|]. cbn [repeat map]. rewrite DelProofs.total_cons. lia. }
  specialize (G (Z.to_nat (2 ^ 30))). unfold ex_large. cbn [m_cands]. rewrite Z2Nat.id in G by lia. lia.
Qed.
End Examples.

Print Assumptions C71_cardinality.
Print Assumptions C71_intersection.
Print Assumptions C71_sum.
Print Assumptions C71_shares.
Print Assumptions C71_original.
Print Assumptions C71_deletion.
Print Assumptions C71_deletion_psi.
Print Assumptions C71_cardinality_result.
Print Assumptions C71_intersection_result.
Print Assumptions C71_sum_result.
Print Assumptions C71_shares_result.
Print Assumptions C71_original_result.
Print Assumptions C71_deletion_result.
Print Assumptions C71_deletion_no_crash.
Print Assumptions C71_deletion_psi_result.
Print Assumptions C71_message_size.
Print Assumptions C71_capacity.
Print Assumptions C71_too_large.
Print Assumptions C71_reply_too_large.
Print Assumptions C71_points_size.
