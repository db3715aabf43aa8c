(** * OnceModel against the sequential models AddModel and OrigModel. *)
Require Import String.
Require Import List Arith ZArith Bool Lia.
Import ListNotations.
From Verif Require Import Prelude Coins Group ElGamalModel PaillierModel TreeModel BytesModel CipherModel WireModel SyncModel AddModel OnceModel OnceProofs.
From Verif Require OrigModel.
Local Open Scope nat_scope.

Section Server.
Context {Gr : group}.
Variables (csize : client_msg Gr -> Z) (ssize : server_msg Gr -> Z).
Variable sk1 : Z.
Context {EL : Type}.
Variable gen2 : msg12 Gr -> list Z -> ST (tree Z * tree EL) (msg12 Gr).
Variable dec : Z -> Z -> outcome Z.
Notation wk_np := (np_work csize ssize gen2).
Notation wk_sum := (sum_work sk1 csize ssize gen2).
Notation wk_ss := (ss_work csize ssize gen2 dec).

(** *** the handlers in one step *)
Lemma answer_all (last : bool) m s tp after : (forall s, after s = if last then sv_finish_day s else s) ->
  match flagged last (answer_i ssize gen2 m s tp (fun s => s)) with
  | (s', Ok (p, l)) => (if l then sv_finish_day s' else s', Ok p)
  | (s', Err e) => (s', Err e) | (s', Abort) => (s', Abort) | (s', UB) => (s', UB)
  end = answer_i ssize gen2 m s tp after.
Proof. intros HA. unfold answer_i, flagged. destruct (gen2 _ _ _ _) as [ts [[r tp']| | |]]; auto. rewrite HA. reflexivity. Qed.
Lemma np_all r s tp : handle_all wk_np sv_finish_day r s tp = handle_no_payload csize ssize gen2 r s tp.
Proof.
  unfold handle_all, np_work, handle_no_payload. destruct (sv_finished s); auto. destruct r as [[m| | |]| |]; auto. apply (answer_all true). auto.
Qed.
Lemma sum_all r s tp : handle_all wk_sum sv_finish_day r s tp = handle_sum csize ssize gen2 sk1 r s tp.
Proof.
  unfold handle_all, sum_work, handle_sum. destruct (sv_finished s); auto. destruct r as [[m|w| |]| |]; auto; [apply (answer_all false); auto|].
  destruct (process_iii_sum sk1 w); auto.
Qed.
Lemma ss_all r s tp : handle_all wk_ss sv_finish_day r s tp = handle_ss csize ssize gen2 dec r s tp.
Proof.
  unfold handle_all, ss_work, handle_ss. destruct (sv_finished s); auto. destruct r as [[m|w|ps|]| |]; auto; [apply (answer_all false); auto|].
  destruct (process_iii_ss dec ps _) as [sh [u| | |]]; auto.
Qed.
(** *** the last day is over: refused *)
Lemma np_closed r s tp : sv_finished s = true -> exists e, wk_np r s tp = (s, Err e).
Proof. intros F. unfold np_work. rewrite F. eauto. Qed.
Lemma sum_closed r s tp : sv_finished s = true -> exists e, wk_sum r s tp = (s, Err e).
Proof. intros F. unfold sum_work. rewrite F. eauto. Qed.
Lemma ss_closed r s tp : sv_finished s = true -> exists e, wk_ss r s tp = (s, Err e).
Proof. intros F. unfold ss_work. rewrite F. eauto. Qed.
(** *** before FinishDay the day is not over *)
Lemma flagged_early last m s tp s' v : sv_finished s = false -> flagged last (answer_i ssize gen2 m s tp (fun s => s)) = (s', Ok v) -> sv_finished s' = false.
Proof. intros F. unfold answer_i, flagged. destruct (gen2 _ _ _ _) as [ts [[r tp']| | |]]; intros E; inversion E. exact F. Qed.
Lemma np_early r s tp s' v : wk_np r s tp = (s', Ok v) -> sv_finished s' = false.
Proof.
  unfold np_work. destruct (sv_finished s) eqn:F; [discriminate|]. destruct r as [[m| | |]| |]; try discriminate. apply flagged_early. exact F.
Qed.
Lemma sum_early r s tp s' v : wk_sum r s tp = (s', Ok v) -> sv_finished s' = false.
Proof.
  unfold sum_work. destruct (sv_finished s) eqn:F; [discriminate|]. destruct r as [[m|w| |]| |]; try discriminate; [apply flagged_early; exact F|].
  destruct (process_iii_sum sk1 w); intros E; inversion E. exact F.
Qed.
Lemma ss_early r s tp s' v : wk_ss r s tp = (s', Ok v) -> sv_finished s' = false.
Proof.
  unfold ss_work. destruct (sv_finished s) eqn:F; [discriminate|]. destruct r as [[m|w|ps|]| |]; try discriminate; [apply flagged_early; exact F|].
  destruct (process_iii_ss dec ps _) as [sh [u| | |]]; intros E; inversion E. exact F.
Qed.
(** *** days and kinds of replies *)
Definition same_plan (s s' : server EL) (k : nat) : Prop := sv_total s' = sv_total s /\ sv_day s' = sv_day s + k.
Lemma np_reply m s tp s' r : handle_no_payload csize ssize gen2 (C_party_zero (P0_I m)) s tp = (s', Ok r) -> same_plan s s' 1 /\ exists x, got r = S_party_one (P1_II x).
Proof.
  unfold handle_no_payload, answer_i. destruct (sv_finished s); [discriminate|]. destruct (gen2 _ _ _ _) as [ts [[x tp']| | |]]; intros E; inversion E. split; [split; cbn; lia|]. eexists; reflexivity.
Qed.
Lemma sum_reply_i m s tp s' r : handle_sum csize ssize gen2 sk1 (C_party_zero (P0_I m)) s tp = (s', Ok r) -> same_plan s s' 0 /\ exists x, got r = S_party_one (P1_II x).
Proof.
  unfold handle_sum, answer_i. destruct (sv_finished s); [discriminate|]. destruct (gen2 _ _ _ _) as [ts [[x tp']| | |]]; intros E; inversion E. split; [split; cbn; lia|]. eexists; reflexivity.
Qed.
Lemma sum_reply_iii w s tp s' r : handle_sum csize ssize gen2 sk1 (C_party_zero (P0_III_sum w)) s tp = (s', Ok r) -> same_plan s s' 1 /\ exists x, got r = S_party_one (P1_IV x).
Proof.
  unfold handle_sum. destruct (sv_finished s); [discriminate|]. destruct (process_iii_sum sk1 w); intros E; inversion E. split; [split; cbn; lia|]. eexists; reflexivity.
Qed.
Lemma ss_reply_i m s tp s' r : handle_ss csize ssize gen2 dec (C_party_zero (P0_I m)) s tp = (s', Ok r) -> same_plan s s' 0 /\ exists x, got r = S_party_one (P1_II x).
Proof.
  unfold handle_ss, answer_i. destruct (sv_finished s); [discriminate|]. destruct (gen2 _ _ _ _) as [ts [[x tp']| | |]]; intros E; inversion E. split; [split; cbn; lia|]. eexists; reflexivity.
Qed.
Lemma ss_reply_iii ps s tp s' r : handle_ss csize ssize gen2 dec (C_party_zero (P0_III_ss ps)) s tp = (s', Ok r) -> same_plan s s' 1.
Proof.
  unfold handle_ss. destruct (sv_finished s); [discriminate|]. destruct (process_iii_ss dec ps _) as [sh [u| | |]]; intros E; inversion E. split; cbn; lia.
Qed.
End Server.

(** *** Connection::Send is a call *)
Lemma send_Ok {Gr : group} {SV} (handle : client_msg Gr -> SV -> tape -> SV * outcome (option (server_msg Gr))) q s tp s' r tp' :
  send handle q s tp = Ok ((s', r), tp') -> exists x, handle q s (even_coins tp) = (s', Ok x) /\ r = got x.
Proof. unfold send, even_coins. destruct (handle q s _) as [s1 [x| | |]]; intros E; inversion E; subst. exists x. auto. Qed.

(** *** the days of the clients *)
Section Days.
Context {Gr : group}.
Variable hash : Z -> list bool.
Variable pk : pubkey Gr.
Variables sk0 sk1 : Z.
Variable csize : client_msg Gr -> Z.
Variable ssize : server_msg Gr -> Z.
Variable dec_string : Z -> string.
Variable n : Z.
Variables pai0 pai1 : pub.
Variables psk0 psk1 : Z.
Notation ca_wk := (np_work csize ssize (ca_gen2 hash pk sk1)).
Notation psi_wk := (np_work csize ssize (psi_gen2 hash pk sk1)).
Notation sum_wk := (sum_work sk1 csize ssize (sum_gen2 hash pk sk1)).
Notation ss_wk := (ss_work csize ssize (ss_gen2 hash pk sk1 pai1) (fun c p => thr_decrypt n psk1 c p)).
Definition as_day {C SV Req Rep} (handle : Req -> SV -> tape -> SV * outcome Rep) (o : outcome (client_prog Req Rep C * tape)) (s : SV) : outcome ((C * SV) * tape) :=
  match o with
  | Ok (p, tp1) => match serial handle p s tp1 with Ok (c', s', tp2) => Ok ((c', s'), tp2) | Err e => Err e | Abort => Abort | UB => UB end
  | Err e => Err e | Abort => Abort | UB => UB end.
Ltac open_all := repeat (match goal with |- context [match ?x with _ => _ end] => let E := fresh "E" in destruct x eqn:E; auto end).

Lemma ca_same c s tp : ca_day hash pk sk0 sk1 csize ssize (c, s) tp = as_day (handle_all ca_wk sv_finish_day) (ca_client hash pk sk0 c tp) s.
Proof.
  unfold ca_day, ca_client, as_day, bind, ret, lift. destruct (ca_gen1 _ _ _ _ _ tp) as [[[my m1] tp1]| | |]; auto. cbn [serial]. rewrite np_all. fold (ca_handle hash pk sk1 csize ssize).
  unfold send. fold (even_coins tp1). fold (odd_coins tp1). destruct (ca_handle _ _ _ _ _ _ s _) as [s' [r| | |]]; auto. fold (got r).
  destruct (cl_handle _ _ _ _ _ _); auto.
Qed.
Lemma psi_same c s tp : psi_day hash pk sk0 sk1 csize ssize dec_string (c, s) tp = as_day (handle_all psi_wk sv_finish_day) (psi_client hash pk sk0 dec_string c tp) s.
Proof.
  unfold psi_day, psi_client, as_day, bind, ret, lift. destruct (psi_gen1 _ _ _ _ _ tp) as [[[my m1] tp1]| | |]; auto. cbn [serial]. rewrite np_all. fold (psi_handle hash pk sk1 csize ssize).
  unfold send. fold (even_coins tp1). fold (odd_coins tp1). destruct (psi_handle _ _ _ _ _ _ s _) as [s' [r| | |]]; auto. fold (got r).
  destruct (cl_handle _ _ _ _ _ _); auto.
Qed.
Lemma sum_same c s tp : sum_day hash pk sk0 sk1 csize ssize (c, s) tp = as_day (handle_all sum_wk sv_finish_day) (sum_client hash pk sk0 c tp) s.
Proof.
  unfold sum_day, sum_client, sum_client_iv, bind, ret. destruct (sum_gen1 _ _ _ _ _ tp) as [[[my m1] tp1]| | |]; auto. cbn [as_day serial]. rewrite sum_all. fold (sum_handle hash pk sk1 csize ssize).
  unfold send at 1. fold (even_coins tp1). fold (odd_coins tp1). destruct (sum_handle _ _ _ _ _ _ s _) as [s1 [r| | |]]; auto. fold (got r).
  set (c1 := mkClient _ _ _ _ _ _). unfold cl_handle, bind, ret. destruct (cl_finished c1); auto. destruct (got r) as [[m|w|]| |] eqn:EG; auto.
  - destruct (sum_message_iii pk sk0 m c1 (odd_coins tp1)) as [[[c2 w] tp2]| | |]; auto. cbn [serial]. rewrite sum_all. fold (sum_handle hash pk sk1 csize ssize).
    unfold send at 1. fold (even_coins tp2). fold (odd_coins tp2). destruct (sum_handle _ _ _ _ _ _ s1 _) as [s2 [r4| | |]]; auto. fold (got r4).
    destruct (cl_finished c2); auto. destruct (got r4) as [[m2|w2|]| |]; auto.
    + destruct (sum_message_iii pk sk0 m2 c2 _) as [[[c3 w3] tp3]| | |]; auto. cbn [serial]. rewrite sum_all. fold (sum_handle hash pk sk1 csize ssize).
      unfold send. fold (even_coins tp3). fold (odd_coins tp3). destruct (sum_handle _ _ _ _ _ _ s2 _) as [s3 [r5| | |]]; auto.
    + unfold lift. destruct (sum_process_iv pk sk0 w2 c2); auto.
  - unfold lift. destruct (sum_process_iv pk sk0 w c1) as [c2| | |]; auto. cbn beta iota. destruct (cl_finished c2); auto. rewrite ?EG. destruct (sum_process_iv pk sk0 w c2); auto.
Qed.
Lemma ss_same c s tp : ss_day hash pk sk0 sk1 csize ssize n pai0 pai1 psk0 psk1 (c, s) tp = as_day (handle_all ss_wk sv_finish_day) (ss_client hash pk sk0 n pai0 psk0 c tp) s.
Proof.
  unfold ss_day, ss_client, bind, ret. destruct (ss_gen1 _ _ _ _ _ _ tp) as [[[my m1] tp1]| | |]; auto. cbn [as_day serial]. rewrite ss_all. fold (ss_handle hash pk sk1 csize ssize n pai1 psk1).
  unfold send at 1. fold (even_coins tp1). fold (odd_coins tp1). destruct (ss_handle _ _ _ _ _ _ _ _ _ s _) as [s1 [r| | |]]; auto. fold (got r).
  set (c1 := mkClient _ _ _ _ _ _). unfold cl_handle. destruct (cl_finished c1); auto. destruct (got r) as [[m|w|]| |] eqn:EG; auto.
  destruct (ss_message_iii sk0 n pai0 psk0 m c1 _) as [[[c2 w] tp2]| | |]; auto. cbn [serial]. rewrite ss_all. fold (ss_handle hash pk sk1 csize ssize n pai1 psk1).
  unfold send at 1. fold (even_coins tp2). fold (odd_coins tp2). destruct (ss_handle _ _ _ _ _ _ _ _ _ s1 _) as [s2 [r4| | |]]; auto.
Qed.

(** *** a day moves both parties to the next day *)
Definition next_day {A R EL} (st st' : client Gr A R * server EL) : Prop :=
  cl_total (fst st') = cl_total (fst st) /\ cl_day (fst st') = S (cl_day (fst st)) /\ sv_total (snd st') = sv_total (snd st) /\ sv_day (snd st') = S (sv_day (snd st)).
Lemma ca_next st tp st' tp' : ca_day hash pk sk0 sk1 csize ssize st tp = Ok (st', tp') -> next_day st st'.
Proof.
  destruct st as [c s]. unfold ca_day. intros E. apply bind_Ok in E as ([my m1] & t1 & _ & E). apply bind_Ok in E as ([s1 r] & t2 & E1 & E). apply bind_Ok in E as (c2 & t3 & E2 & E). apply ret_Ok in E as (E & _); subst st'.
  apply send_Ok in E1 as (x & E1 & ->). apply np_reply in E1 as ((P1 & P2) & y & EY). apply lift_Ok in E2 as (E2 & _). rewrite EY in E2. unfold cl_handle in E2. destruct (cl_finished _); [discriminate|]. unfold ca_process in E2.
  apply obind_Ok in E2 as (o & _ & E2). apply obind_Ok in E2 as (cs & _ & E2). inversion E2. unfold next_day. cbn. repeat split; lia.
Qed.
Lemma psi_next st tp st' tp' : psi_day hash pk sk0 sk1 csize ssize dec_string st tp = Ok (st', tp') -> next_day st st'.
Proof.
  destruct st as [c s]. unfold psi_day. intros E. apply bind_Ok in E as ([my m1] & t1 & _ & E). apply bind_Ok in E as ([s1 r] & t2 & E1 & E). apply bind_Ok in E as (c2 & t3 & E2 & E). apply ret_Ok in E as (E & _); subst st'.
  apply send_Ok in E1 as (x & E1 & ->). apply np_reply in E1 as ((P1 & P2) & y & EY). apply lift_Ok in E2 as (E2 & _). rewrite EY in E2. unfold cl_handle in E2. destruct (cl_finished _); [discriminate|]. unfold psi_process in E2.
  apply obind_Ok in E2 as (o & _ & E2). apply obind_Ok in E2 as (cs & _ & E2). apply obind_Ok in E2 as (f & _ & E2). inversion E2. unfold next_day. cbn. repeat split; lia.
Qed.
Lemma sum_next st tp st' tp' : sum_day hash pk sk0 sk1 csize ssize st tp = Ok (st', tp') -> next_day st st'.
Proof.
  destruct st as [c s]. unfold sum_day. intros E. apply bind_Ok in E as ([my m1] & t1 & _ & E). apply bind_Ok in E as ([s1 r] & t2 & E1 & E). apply bind_Ok in E as ([[c2 s2] r4] & t3 & E2 & E). apply bind_Ok in E as ([c3 s3] & t4 & E3 & E). apply ret_Ok in E as (E & _); subst st'.
  apply send_Ok in E1 as (x & E1 & ->). apply sum_reply_i in E1 as ((P1 & P2) & y & EY). rewrite EY in E2. unfold cl_handle in E2. destruct (cl_finished _); [discriminate|].
  apply bind_Ok in E2 as ([c2' w] & t5 & E4 & E2). apply bind_Ok in E2 as ([s2' r4'] & t6 & E5 & E2). apply ret_Ok in E2 as (E2 & _). inversion E2; subst c2' s2' r4'. clear E2.
  apply send_Ok in E5 as (x5 & E5 & ->). apply sum_reply_iii in E5 as ((P3 & P4) & y5 & Y5). rewrite Y5 in E3. unfold cl_handle in E3. destruct (cl_finished _); [discriminate|].
  apply bind_Ok in E3 as (c3' & t7 & E6 & E3). apply ret_Ok in E3 as (E3 & _). inversion E3; subst c3' s3. apply lift_Ok in E6 as (E6 & _). unfold sum_process_iv in E6.
  apply obind_Ok in E6 as (? & _ & E6). apply obind_Ok in E6 as (? & _ & E6). inversion E6.
  unfold sum_message_iii in E4. apply bind_Ok in E4 as (? & ? & _ & E4). apply bind_Ok in E4 as (? & ? & _ & E4). apply bind_Ok in E4 as (? & ? & _ & E4). apply bind_Ok in E4 as (? & ? & _ & E4). apply ret_Ok in E4 as (E4 & _). inversion E4.
  unfold next_day. cbn. repeat split; lia.
Qed.
Lemma ss_next st tp st' tp' : ss_day hash pk sk0 sk1 csize ssize n pai0 pai1 psk0 psk1 st tp = Ok (st', tp') -> next_day st st'.
Proof.
  destruct st as [c s]. unfold ss_day. intros E. apply bind_Ok in E as ([my m1] & t1 & _ & E). apply bind_Ok in E as ([s1 r] & t2 & E1 & E).
  apply send_Ok in E1 as (x & E1 & ->). apply ss_reply_i in E1 as ((P1 & P2) & y & EY). rewrite EY in E. unfold cl_handle in E. destruct (cl_finished _); [discriminate|].
  apply bind_Ok in E as ([c2 ps] & t5 & E4 & E). apply bind_Ok in E as ([s2 r4] & t6 & E5 & E). apply ret_Ok in E as (E & _); subst st'.
  apply send_Ok in E5 as (x5 & E5 & _). apply ss_reply_iii in E5 as (P3 & P4).
  unfold ss_message_iii in E4. apply bind_Ok in E4 as (? & ? & _ & E4). apply bind_Ok in E4 as (? & ? & _ & E4). apply bind_Ok in E4 as (? & ? & _ & E4). apply ret_Ok in E4 as (E4 & _). inversion E4.
  unfold next_day. cbn. repeat split; lia.
Qed.
Lemma days_end {A R EL} (day : client Gr A R * server EL -> M (client Gr A R * server EL)) :
  (forall st tp st' tp', day st tp = Ok (st', tp') -> next_day st st') ->
  forall k st tp st' tp', run_days cl_finished day k st tp = Ok (st', tp') -> cl_total (fst st) = sv_total (snd st) -> cl_day (fst st) = sv_day (snd st) ->
  cl_total (fst st) <= cl_day (fst st) + k -> sv_finished (snd st') = true.
Proof.
  intros HD. induction k as [|k IH]; intros st tp st' tp' E T D L; cbn [run_days] in E.
  - apply ret_Ok in E as (E & _); subst st'. unfold sv_finished. apply Nat.leb_le. lia.
  - destruct (cl_finished (fst st)) eqn:F.
    + apply ret_Ok in E as (E & _); subst st'. unfold sv_finished, cl_finished in *. apply Nat.leb_le in F. apply Nat.leb_le. lia.
    + apply bind_Ok in E as (st1 & t1 & E1 & E). apply HD in E1 as (N1 & N2 & N3 & N4). eapply IH; eauto; lia.
Qed.
End Days.

(** *** original *)
Section Original.
Import OrigModel.
Context {Gr : group}.
Variable hash : Z -> list bool.
Variable H : Z -> Gr.
Variable dec_string : Z -> string.
Variables (pk0 pk1 : pubkey Gr) (sk0 sk1 : Z).
Variables (csize : og_req Gr -> Z) (ssize : og_reply Gr -> Z).
Notation wk := (og_work hash H dec_string pk0 pk1 sk0 csize ssize).
Notation og := (og_handle hash H dec_string pk0 pk1 sk0 csize ssize).
Lemma og_all r s tp : handle_all wk og_finish_day r s tp = og r s tp.
Proof.
  unfold handle_all, og_work, og_handle. destruct (og_finished s); auto. destruct r as [m|css|ps| |]; auto.
  - destruct (og_message_ii _ _ _ _ _ _ _ _ _) as [s' [r| | |]]; auto.
  - destruct (og_message_iv _ _ _ _ _ _ _) as [s' [r| | |]]; auto.
  - destruct (og_message_v _ _ _) as [s' [r| | |]]; auto.
Qed.
Lemma og_closed r s tp : og_finished s = true -> exists e, wk r s tp = (s, Err e).
Proof. intros F. unfold og_work. rewrite F. eauto. Qed.
Definition og_plan (s s' : og_server Gr) : Prop := og_total s' = og_total s /\ og_day s' = og_day s.
Lemma ii_plan m s tp s' o : og_message_ii hash H pk0 pk1 sk0 ssize m s tp = (s', o) -> og_plan s s'.
Proof.
  unfold og_message_ii. destruct (recv_update _ _ _); [|intros E; inversion E; split; auto..]. destruct (og_lookups _ _ _ _) as [inter [[]| | |]]; [|intros E; inversion E; split; auto..].
  destruct (og_answer_ii _ _ _ _ _ _ _) as [[r tp']| | |]; intros E; inversion E; split; auto.
Qed.
Lemma iv_plan css s tp s' o : og_message_iv H dec_string sk0 ssize css s tp = (s', o) -> og_plan s s'.
Proof. unfold og_message_iv. destruct (og_sort_out _ _ _ _ _ _ _ _) as [[inter masks] [[ps tp']| | |]]; intros E; inversion E; split; auto. Qed.
Lemma v_plan ps s s' o : og_message_v dec_string ps s = (s', o) -> og_plan s s'.
Proof. unfold og_message_v. destruct (og_record _ _ _ _ _) as [m o']; intros E; inversion E; split; auto. Qed.
Lemma plan_finished s s' : og_plan s s' -> og_finished s' = og_finished s.
Proof. intros (P1 & P2). unfold og_finished. rewrite P1, P2. reflexivity. Qed.
Lemma og_early r s tp s' v : wk r s tp = (s', Ok v) -> og_finished s' = false.
Proof.
  unfold og_work. destruct (og_finished s) eqn:F; [discriminate|]. destruct r as [m|css|ps| |]; try discriminate.
  - destruct (og_message_ii _ _ _ _ _ _ _ _ _) as [s1 [r| | |]] eqn:E; intros X; inversion X; subst. apply ii_plan, plan_finished in E. rewrite E. exact F.
  - destruct (og_message_iv _ _ _ _ _ _ _) as [s1 [r| | |]] eqn:E; intros X; inversion X; subst. apply iv_plan, plan_finished in E. rewrite E. exact F.
  - destruct (og_message_v _ _ _) as [s1 [r| | |]] eqn:E; intros X; inversion X; subst. apply v_plan, plan_finished in E. rewrite E. exact F.
Qed.
Lemma og_same c s tp : og_day_run hash H dec_string pk0 pk1 sk0 sk1 csize ssize (c, s) tp = as_day (handle_all wk og_finish_day) (og_client_day hash H pk0 pk1 sk1 c tp) s.
Proof.
  unfold og_day_run, og_client_day, bind, ret. destruct (oc_message_i _ _ _ _ _ _ tp) as [[[t m1] tp1]| | |]; auto. cbn [as_day serial]. rewrite og_all.
  unfold og_send at 1. fold (even_coins tp1). fold (odd_coins tp1). destruct (og (OQ_I m1) s _) as [s1 [r| | |]]; auto. fold (og_got r).
  destruct (oc_message_iii _ _ _ _) as [[m3 tp2]| | |]; auto. cbn [serial]. rewrite og_all. unfold og_send at 1. fold (even_coins tp2). fold (odd_coins tp2). destruct (og (OQ_III m3) s1 _) as [s2 [r4| | |]]; auto. fold (og_got r4).
  unfold lift. destruct (oc_message_v _ _) as [m5| | |]; auto. cbn [serial]. rewrite og_all. unfold og_send. fold (even_coins (odd_coins tp2)). fold (odd_coins (odd_coins tp2)). destruct (og (OQ_V m5) s2 _) as [s3 [r5| | |]]; auto.
Qed.
Lemma og_send_Ok q s tp s' r tp' : og_send hash H dec_string pk0 pk1 sk0 csize ssize q s tp = Ok ((s', r), tp') -> exists x, og q s (even_coins tp) = (s', Ok x).
Proof. unfold og_send, even_coins. destruct (og q s _) as [s1 [x| | |]]; intros E; inversion E; subst. eauto. Qed.
Lemma og_next st tp st' tp' : og_day_run hash H dec_string pk0 pk1 sk0 sk1 csize ssize st tp = Ok (st', tp') ->
  oc_total (fst st') = oc_total (fst st) /\ oc_day (fst st') = S (oc_day (fst st)) /\ og_total (snd st') = og_total (snd st) /\ og_day (snd st') = S (og_day (snd st)).
Proof.
  destruct st as [c s]. unfold og_day_run. intros E. apply bind_Ok in E as ([t m1] & t1 & _ & E). apply bind_Ok in E as ([s1 r2] & t2 & E1 & E). apply bind_Ok in E as (m3 & t3 & _ & E). apply bind_Ok in E as ([s2 r4] & t4 & E2 & E).
  apply bind_Ok in E as (m5 & t5 & _ & E). apply bind_Ok in E as ([s3 r5] & t6 & E3 & E). apply ret_Ok in E as (E & _); subst st'.
  apply og_send_Ok in E1 as (x1 & E1), E2 as (x2 & E2), E3 as (x3 & E3). unfold og_handle in E1, E2, E3.
  destruct (og_finished s); [discriminate|]. apply ii_plan in E1 as (A1 & A2). destruct (og_finished s1); [discriminate|]. apply iv_plan in E2 as (B1 & B2). destruct (og_finished s2); [discriminate|].
  destruct (og_message_v _ _ _) as [s4 [u| | |]] eqn:EV; inversion E3; subst. apply v_plan in EV as (C1 & C2). cbn in *. repeat split; lia.
Qed.
Lemma og_days_end k : forall st tp st' tp', run_days oc_finished (og_day_run hash H dec_string pk0 pk1 sk0 sk1 csize ssize) k st tp = Ok (st', tp') ->
  oc_total (fst st) = og_total (snd st) -> oc_day (fst st) = og_day (snd st) -> oc_total (fst st) <= oc_day (fst st) + k -> og_finished (snd st') = true.
Proof.
  induction k as [|k IH]; intros st tp st' tp' E T D L; cbn [run_days] in E.
  - apply ret_Ok in E as (E & _); subst st'. unfold og_finished. apply Nat.leb_le. lia.
  - destruct (oc_finished (fst st)) eqn:F.
    + apply ret_Ok in E as (E & _); subst st'. unfold og_finished, oc_finished in *. apply Nat.leb_le in F. apply Nat.leb_le. lia.
    + apply bind_Ok in E as (st1 & t1 & E1 & E). apply og_next in E1 as (N1 & N2 & N3 & N4). eapply IH; eauto; lia.
Qed.
End Original.
