(** * Properties C47 (flags) and C48 (one reply per request). *)
Require Import List String Bool.
Import ListNotations.
From Verif Require Import Prelude FlagModel.

Lemma flag_roundtrip :
  (forall f old, parse_flag (unparse_flag f) old = (f, None, true))
  /\ (forall text old f e, parse_flag text old = (f, e, true) -> unparse_flag f = text)
  /\ (forall text old f e, parse_flag text old = (f, e, false) ->
        f = old /\ e <> None /\ forall g, unparse_flag g <> text).
Proof.
  split; [intros [] old; reflexivity|]. split.
  - intros text old f e. unfold parse_flag.
    destruct (text =? "PSI")%string eqn:E1. { apply String.eqb_eq in E1; subst. intros H; inversion H; reflexivity. }
    destruct (text =? "CA")%string eqn:E2. { apply String.eqb_eq in E2; subst. intros H; inversion H; reflexivity. }
    destruct (text =? "SUM")%string eqn:E3. { apply String.eqb_eq in E3; subst. intros H; inversion H; reflexivity. }
    destruct (text =? "SS")%string eqn:E4. { apply String.eqb_eq in E4; subst. intros H; inversion H; reflexivity. }
    destruct (text =? "DEL")%string eqn:E5. { apply String.eqb_eq in E5; subst. intros H; inversion H; reflexivity. }
    discriminate.
  - intros text old f e. unfold parse_flag.
    destruct (text =? "PSI")%string eqn:E1; [discriminate|].
    destruct (text =? "CA")%string eqn:E2; [discriminate|].
    destruct (text =? "SUM")%string eqn:E3; [discriminate|].
    destruct (text =? "SS")%string eqn:E4; [discriminate|].
    destruct (text =? "DEL")%string eqn:E5; [discriminate|].
    intros H; inversion H; subst. split; auto. split; [discriminate|].
    intros g Hg. apply String.eqb_neq in E1, E2, E3, E4, E5. destruct g; simpl in Hg; congruence.
Qed.

(** C47. *)
Theorem C47_flag_roundtrip :
  (forall f old, parse_flag (unparse_flag f) old = (f, None, true))
  /\ (forall text old f e, parse_flag text old = (f, e, true) -> unparse_flag f = text)
  /\ (forall text old f e, parse_flag text old = (f, e, false) ->
        f = old /\ e <> None /\ forall g, unparse_flag g <> text).
Proof. exact flag_roundtrip. Qed.

Lemma run_sent {Msg} (h : handler Msg) : forall s, s_sent s = true ->
  forall st s' log, run_handler h s = (st, s', log) ->
  s' = s /\ Forall (fun p => snd p = SErr InvalidArgument) log.
Proof.
  induction h as [st0|m k IH]; intros s Hs st s' log H; cbn [run_handler] in H.
  - inversion H; subst; auto.
  - unfold sink_send in H. rewrite Hs in H. simpl negb in H. cbv iota in H.
    destruct (run_handler (k (SErr InvalidArgument)) s) as [[r s''] log'] eqn:E.
    inversion H; subst. destruct (IH _ _ Hs _ _ _ E). subst. split; auto.
Qed.
Lemma one_reply {Msg} (h : handler Msg) st s log :
  run_handler h (mkSink None false) = (st, s, log) ->
  s_msg s = option_map fst (hd_error log)
  /\ (forall p r, log = p :: r -> snd p = SOk /\ Forall (fun q => snd q = SErr InvalidArgument) r)
  /\ service_handle h = (convert_status st, option_map fst (hd_error log)).
Proof.
  intros H. assert (G : s_msg s = option_map fst (hd_error log) /\ (forall p r, log = p :: r -> snd p = SOk /\ Forall (fun q => snd q = SErr InvalidArgument) r)).
  { destruct h as [st0|m k]; cbn [run_handler] in H.
    - inversion H; subst. split; auto. intros; discriminate.
    - unfold sink_send in H. simpl negb in H. cbv iota in H.
      destruct (run_handler (k SOk) {| s_msg := Some m; s_sent := true |}) as [[r s''] log'] eqn:E.
      inversion H; subst. destruct (run_sent (k SOk) {| s_msg := Some m; s_sent := true |} eq_refl _ _ _ E). subst. split; auto.
      intros p l Hl. inversion Hl; subst. auto. }
  destruct G as (G1 & G2). split; auto. split; auto. unfold service_handle. rewrite H. rewrite G1. reflexivity.
Qed.

(** C48. Whatever the handler does: the response is the first message it sent
    (if any), the first send succeeds and every later one is refused; the
    transport status is the handler's status for OK, InvalidArgument and
    Internal and UNKNOWN for any other code. *)
Theorem C48_one_reply :
  forall (Msg : Type) (h : handler Msg) st s log,
  run_handler h (mkSink None false) = (st, s, log) ->
  s_msg s = option_map fst (hd_error log)
  /\ (forall p r, log = p :: r -> snd p = SOk /\ Forall (fun q => snd q = SErr InvalidArgument) r)
  /\ service_handle h = (convert_status st, option_map fst (hd_error log)).
Proof. exact @one_reply. Qed.
Theorem C48_status_codes :
  convert_status SOk = GOk /\ convert_status (SErr InvalidArgument) = GInvalidArgument
  /\ convert_status (SErr Internal) = GInternal
  /\ (forall s, convert_status s = GOk <-> s = SOk)
  /\ (forall s, s <> SOk -> s <> SErr InvalidArgument -> s <> SErr Internal -> convert_status s = GUnknown).
Proof.
  repeat split; try congruence; intros; subst; auto.
  - destruct s as [|[]|]; simpl in *; congruence.
  - destruct s as [|[]|]; simpl in *; congruence.
Qed.

(* a handler that sends twice *)
Example ex_handler : service_handle (HSend 1 (fun _ => HSend 2 (fun st => HRet st))) = (GInvalidArgument, Some 1).
Proof. reflexivity. Qed.
Print Assumptions C47_flag_roundtrip.
Print Assumptions C48_one_reply.
Print Assumptions C48_status_codes.
