(** * C53: the traffic report. *)
Require Import String.
Require Import List Arith Lia ZArith Bool.
Import ListNotations.
From Verif Require Import Prelude TreeModel Coins Group ElGamalModel BytesModel CipherModel PaillierModel WireModel SyncModel AddModel ServerSpec PropsServer PropsAdd PropsSync TrafficModel.
From Verif Require OrigModel.
Local Open Scope nat_scope.

(** ** Specification *)
(** the bytes of requests received and replies sent on day [d], when [ex] are
    the requests with their outcomes, in order, starting on day [day] *)
Section Spec.
Context {Q R : Type}.
Variable received : Q -> Z.
Variable sent : R -> Z.
Variable completes : Q -> R -> bool.
Fixpoint traffic (d day : nat) (ex : list (Q * outcome R)) : Z :=
  match ex with
  | [] => 0%Z
  | (q, o) :: rest =>
      ((if (d =? day)%nat then received q + match o with Ok r => sent r | _ => 0%Z end else 0)
      + traffic d (match o with Ok r => if completes q r then Datatypes.S day else day | _ => day end) rest)%Z
  end.
End Spec.
(** the value of a number stored in an int *)
Definition as_int (z : Z) : Z := ((z + 2 ^ 31) mod 2 ^ 32 - 2 ^ 31)%Z.
Definition ints (l : list Z) : Prop := Forall (fun c => as_int c = c) l.
Lemma as_int_id z : (- 2 ^ 31 <= z < 2 ^ 31)%Z -> as_int z = z.
Proof. intros B. unfold as_int. rewrite Z.mod_small; lia. Qed.
Lemma as_int_add a b : as_int (as_int a + b) = as_int (a + b).
Proof. unfold as_int. f_equal. replace ((a + 2 ^ 31) mod 2 ^ 32 - 2 ^ 31 + b + 2 ^ 31)%Z with ((a + 2 ^ 31) mod 2 ^ 32 + b)%Z by lia. rewrite Zplus_mod_idemp_l. f_equal. lia. Qed.

(** ** generic part *)
Section Generic.
Context {Q R S : Type}.
Variable handle : Q -> S -> tape -> S * outcome R.
Variables (received : Q -> Z) (sent : R -> Z) (completes : Q -> R -> bool).
Variables (comm : S -> list Z) (day total : S -> nat).
Hypothesis step : forall q s tp, let '(s', o) := handle q s tp in
  total s' = total s /\ length (comm s') = length (comm s) /\ (ints (comm s) -> ints (comm s'))
  /\ day s' = day s + match o with Ok r => if completes q r then 1 else 0 | _ => 0 end
  /\ forall d, d < length (comm s) -> d < total s -> as_int (nth d (comm s') 0%Z) =
       as_int (nth d (comm s) 0 + (if (d =? day s)%nat then received q + match o with Ok r => sent r | _ => 0 end else 0))%Z.
Lemma serve_traffic reqs : forall s, let '(s', os) := serve handle reqs s in
  length (comm s') = length (comm s) /\ total s' = total s /\ (ints (comm s) -> ints (comm s')) /\
  forall d, d < length (comm s) -> d < total s -> as_int (nth d (comm s') 0%Z) = as_int (nth d (comm s) 0 + traffic received sent completes d (day s) (combine (map fst reqs) os))%Z.
Proof.
  induction reqs as [|[q tp] r IH]; intros s; cbn [serve map combine fst traffic]; [split; auto; split; auto; split; auto; intros; rewrite Z.add_0_r; auto|].
  pose proof (step q s tp) as X. destruct (handle q s tp) as [s1 o]. destruct X as (T1 & L1 & K1 & D1 & E1).
  assert (IH1 := IH s1).
  destruct o as [v|c| |].
  - destruct (serve handle r s1) as [s2 os]. destruct IH1 as (L2 & T2 & K2 & E2). cbn [combine]. split; [congruence|]. split; [congruence|]. split; [auto|]. intros d B1 B2. cbn [traffic].
    rewrite E2 by lia. rewrite <- as_int_add, E1, as_int_add by auto. f_equal. rewrite D1. rewrite <- Z.add_assoc. f_equal. f_equal. f_equal. destruct (completes q v); lia.
  - destruct (serve handle r s1) as [s2 os]. destruct IH1 as (L2 & T2 & K2 & E2). cbn [combine]. split; [congruence|]. split; [congruence|]. split; [auto|]. intros d B1 B2. cbn [traffic].
    rewrite E2 by lia. rewrite <- as_int_add, E1, as_int_add by auto. f_equal. rewrite D1. rewrite <- Z.add_assoc. rewrite Nat.add_0_r. auto.
  - split; auto. split; auto. split; auto. intros d B1 B2. cbn [combine]. rewrite combine_nil. cbn [traffic]. rewrite Z.add_0_r. apply E1; auto.
  - split; auto. split; auto. split; auto. intros d B1 B2. cbn [combine]. rewrite combine_nil. cbn [traffic]. rewrite Z.add_0_r. apply E1; auto.
Qed.
End Generic.

Lemma set_nth_ints i x l : as_int x = x -> ints l -> ints (set_nth i x l).
Proof. intros X. revert i. induction l; intros [|i] F; cbn [set_nth]; auto; inversion F; subst; constructor; auto. apply IHl. auto. Qed.
Lemma as_int_twice z : as_int (as_int z) = as_int z.
Proof. pose proof (as_int_add z 0) as X. rewrite !Z.add_0_r in X. auto. Qed.
(** what AddComm does to the vector *)
Definition bump (day : nat) (size : Z) (l : list Z) : list Z := set_nth day (as_int (nth day l 0%Z + size)) l.
Lemma bump_length d z l : length (bump d z l) = length l. Proof. apply set_nth_length. Qed.
Lemma bump_ints d z l : ints l -> ints (bump d z l). Proof. apply set_nth_ints, as_int_twice. Qed.
Lemma bump_nth day z l d : d < length l -> as_int (nth d (bump day z l) 0%Z) = as_int (nth d l 0 + if (d =? day)%nat then z else 0)%Z.
Proof.
  intros B. unfold bump. destruct (Nat.eqb_spec d day) as [->|NE].
  - rewrite nth_set_nth_eq by auto. apply as_int_twice.
  - rewrite nth_set_nth_neq by auto. rewrite Z.add_0_r. auto.
Qed.

Definition counted (l l' : list Z) (day total : nat) (size : Z) : Prop :=
  length l' = length l /\ (ints l -> ints l') /\ forall d, d < length l -> d < total -> as_int (nth d l' 0%Z) = as_int (nth d l 0 + if (d =? day)%nat then size else 0)%Z.
Lemma counted_one l day total z : counted l (bump day z l) day total z.
Proof. split; [apply bump_length|]. split; [apply bump_ints|]. intros d B _. apply bump_nth. auto. Qed.
Lemma counted_two l day total a b : counted l (bump day b (bump day a l)) day total (a + b).
Proof.
  split; [rewrite !bump_length; auto|]. split; [intros; apply bump_ints, bump_ints; auto|]. intros d B _. rewrite bump_nth by (rewrite bump_length; auto).
  rewrite <- as_int_add, bump_nth, as_int_add by auto. f_equal. destruct (d =? day); lia.
Qed.
Lemma counted_late l day total z : total <= day -> counted l l day total z.
Proof. intros L. split; auto. split; auto. intros d B1 B2. destruct (Nat.eqb_spec d day); [lia|]. rewrite Z.add_0_r. auto. Qed.
Lemma counted_0 l day total : counted l l day total 0.
Proof. split; auto. split; auto. intros d B1 B2. destruct (d =? day); rewrite Z.add_0_r; auto. Qed.

(** For every sequence of requests to a server that has counted nothing yet:
    the number reported for a day is the bytes received and sent on that day
    (stored in an int), and the total is their sum. *)
Definition reports {Q R S : Type} (handle : Q -> S -> tape -> S * outcome R) (received : Q -> Z) (sent : R -> Z) (ends : Q -> R -> bool)
    (comm : S -> list Z) (day total : S -> nat) : Prop :=
  forall reqs s s' outs, serve handle reqs s = (s', outs) -> comm s = repeat 0%Z (total s) ->
  let bytes d := traffic received sent ends d (day s) (combine (map fst reqs) outs) in
  let report := print_comm (comm s') in
  length (fst report) = total s
  /\ (forall d, d < total s -> nth d (fst report) 0%Z = as_int (bytes d))
  /\ ((forall d, d < total s -> (0 <= bytes d < 2 ^ 31)%Z) -> (Z.of_nat (total s) < 2 ^ 31)%Z ->
      fst report = map bytes (seq 0 (total s)) /\ snd report = fold_right Z.add 0%Z (map bytes (seq 0 (total s)))).
Lemma print_total (l : list Z) : (forall c, In c l -> 0 <= c < 2 ^ 31)%Z -> (Z.of_nat (length l) < 2 ^ 31)%Z -> snd (print_comm l) = fold_right Z.add 0%Z l.
Proof.
  intros B L. unfold print_comm. cbn [snd].
  assert (X : forall l a, (forall c, In c l -> 0 <= c < 2 ^ 31)%Z -> (0 <= a)%Z -> (a + Z.of_nat (length l) * 2 ^ 31 < 2 ^ 64)%Z -> fold_left (fun t c => ((t + c) mod 2 ^ 64)%Z) l a = (a + fold_right Z.add 0 l)%Z).
  { clear. induction l as [|c l IH]; intros a B GA L; cbn [fold_left fold_right length] in *; [lia|].
    assert (C : (0 <= c < 2 ^ 31)%Z) by (apply B; left; auto). rewrite Z.mod_small by lia. rewrite IH; [lia| |lia|lia]. intros; apply B; right; auto. }
  rewrite X; auto; lia.
Qed.
Lemma reports_of {Q R S : Type} (handle : Q -> S -> tape -> S * outcome R) (received : Q -> Z) (sent : R -> Z) (ends : Q -> R -> bool) (comm : S -> list Z) (day total : S -> nat) :
  (forall q s tp, let '(s', o) := handle q s tp in total s' = total s /\ day s' = day s + match o with Ok r => if ends q r then 1 else 0 | _ => 0 end) ->
  (forall q s tp, let '(s', o) := handle q s tp in counted (comm s) (comm s') (day s) (total s) (received q + match o with Ok r => sent r | _ => 0 end)%Z) ->
  reports handle received sent ends comm day total.
Proof.
  intros HD HC reqs s s' outs EQ Z0 bytes report.
  assert (ST := serve_traffic handle received sent ends comm day total).
  match type of ST with ?h -> _ => assert (HS : h) end.
  { intros q s0 tp. pose proof (HD q s0 tp) as X. pose proof (HC q s0 tp) as Y. destruct (handle q s0 tp) as [s1 o]. destruct X as (X1 & X2). destruct Y as (Y1 & Y2 & Y3).
    repeat (split; [solve [auto]|]). auto. }
  specialize (ST HS reqs s). rewrite EQ in ST. destruct ST as (L1 & T1 & K1 & E1). rewrite Z0, repeat_length in *.
  assert (I0 : ints (repeat 0%Z (total s))) by (apply Forall_forall; intros c Hc; apply repeat_spec in Hc; subst; reflexivity).
  specialize (K1 I0).
  assert (ND : forall d, d < total s -> nth d (comm s') 0%Z = as_int (bytes d)).
  { intros d B. specialize (E1 d B B). rewrite nth_repeat in E1. cbn [Z.add] in E1. unfold bytes. rewrite <- E1. symmetry.
    unfold ints in K1. rewrite Forall_forall in K1. apply K1. apply nth_In. lia. }
  unfold report. split; [exact L1|]. split; [exact ND|]. intros SM LT.
  assert (EQC : comm s' = map bytes (seq 0 (total s))).
  { apply nth_ext with (d := 0%Z) (d' := bytes 0); [rewrite map_length, seq_length; auto|]. intros d B. rewrite L1 in B. rewrite ND by auto. rewrite map_nth, seq_nth by auto. cbn [plus]. apply as_int_id. specialize (SM d B). lia. }
  split; [exact EQC|]. rewrite <- EQC. apply print_total; [|rewrite L1; auto]. intros c Hc. rewrite EQC in Hc. apply in_map_iff in Hc as (d & <- & Hd). apply in_seq in Hd. apply SM. lia.
Qed.
Section Addition.
Variables (Gr : group) (hash : Z -> list bool) (pk : pubkey Gr) (sk1 : Z).
Variables (csize : client_msg Gr -> Z) (ssize : server_msg Gr -> Z).
Variables (n : Z) (paillier : pub) (psk1 : Z).
Notation reply := (option (server_msg Gr)).
Notation ca := (ca_handle hash pk sk1 csize ssize).
Notation psi := (psi_handle hash pk sk1 csize ssize).
Notation sum := (sum_handle hash pk sk1 csize ssize).
Notation ss := (ss_handle hash pk sk1 csize ssize n paillier psk1).
(** requests of another protocol are refused unseen; a call without reply sends nothing *)
Definition received_bytes (q : client_msg Gr) : Z := match q with C_party_zero _ => csize q | _ => 0%Z end.
Definition sent_bytes (r : reply) : Z := match r with Some m => ssize m | None => 0%Z end.
Definition event (q : client_msg Gr) (o : outcome reply) : Z := (received_bytes q + match o with Ok r => sent_bytes r | _ => 0 end)%Z.

Lemma comm_add {E} z (s : server E) : sv_comm (add_comm z s) = bump (sv_day s) z (sv_comm s). Proof. reflexivity. Qed.
Lemma answer_counted {E} gen2 m q (s : server E) tp after : (forall s, sv_comm (after s) = sv_comm s) -> received_bytes q = csize q ->
  let '(s', o) := answer_i ssize gen2 m (add_comm (csize q) s) tp after in counted (sv_comm s) (sv_comm s') (sv_day s) (sv_total s) (event q o).
Proof.
  intros HA HR. unfold answer_i, event. rewrite HR. destruct (gen2 _ _ _ _) as [ts [[r tp']| | |]]; cbn [sent_bytes]; try (rewrite Z.add_0_r; apply counted_one).
  rewrite HA. apply counted_two.
Qed.
Ltac late := match goal with F : sv_finished _ = true |- _ => apply counted_late; apply Nat.leb_le; exact F end.
Lemma np_counted {E} gen2 q (s : server E) tp : let '(s', o) := handle_no_payload csize ssize gen2 q s tp in counted (sv_comm s) (sv_comm s') (sv_day s) (sv_total s) (event q o).
Proof.
  unfold handle_no_payload. destruct (sv_finished s) eqn:F; [late|].
  destruct q as [[m| | |]| |]; try (apply counted_0); try (unfold event; cbn [received_bytes]; rewrite Z.add_0_r; apply counted_one).
  apply answer_counted; auto.
Qed.
Lemma sum_counted q s tp : let '(s', o) := sum q s tp in counted (sv_comm s) (sv_comm s') (sv_day s) (sv_total s) (event q o).
Proof.
  unfold sum_handle, handle_sum. destruct (sv_finished s) eqn:F; [late|].
  destruct q as [[m|w| |]| |]; try (apply counted_0); try (unfold event; cbn [received_bytes]; rewrite Z.add_0_r; apply counted_one).
  - apply answer_counted; auto.
  - destruct (process_iii_sum sk1 w); unfold event; cbn [received_bytes sent_bytes]; try (rewrite Z.add_0_r; apply counted_one). apply counted_two.
Qed.
Lemma ss_counted q s tp : let '(s', o) := ss q s tp in counted (sv_comm s) (sv_comm s') (sv_day s) (sv_total s) (event q o).
Proof.
  unfold ss_handle, handle_ss. destruct (sv_finished s) eqn:F; [late|].
  destruct q as [[m|w|ps|]| |]; try (apply counted_0); try (unfold event; cbn [received_bytes]; rewrite Z.add_0_r; apply counted_one).
  - apply answer_counted; auto.
  - destruct (process_iii_ss _ _ _) as [sh [[]| | |]]; unfold event; cbn [received_bytes sent_bytes]; rewrite Z.add_0_r; apply counted_one.
Qed.
Notation reported h ends := (reports h received_bytes sent_bytes ends sv_comm sv_day sv_total).
Theorem C53_addition : reported ca (no_payload_ends Gr) /\ reported psi (no_payload_ends Gr) /\ reported sum (sum_ends Gr) /\ reported ss (ss_ends Gr).
Proof.
  assert (D : forall (E : Type) (handle : client_msg Gr -> server E -> tape -> server E * outcome reply) (ends : client_msg Gr -> reply -> bool),
    (forall q (s : server E) tp, let '(s', o) := handle q s tp in config s s' /\ sv_day s' = sv_day s + match o with Ok r => if ends q r then 1 else 0 | _ => 0 end) ->
    (forall q (s : server E) tp, let '(s', o) := handle q s tp in sv_total s' = sv_total s /\ sv_day s' = sv_day s + match o with Ok r => if ends q r then 1 else 0 | _ => 0 end)).
  { intros E handle ends H0 q s tp. specialize (H0 q s tp). destruct (handle q s tp). destruct H0 as ((X & _) & Y). auto. }
  split; [apply reports_of; [apply D; intros; apply np_days|intros; apply np_counted]|]. split; [apply reports_of; [apply D; intros; apply np_days|intros; apply np_counted]|].
  split; apply reports_of; [apply D; intros; eapply sum_days|intros; apply sum_counted|apply D; intros; eapply ss_days|intros; apply ss_counted].
Qed.
End Addition.

Section Original.
Import OrigModel.
Variables (Gr : group) (hash : Z -> list bool) (H : Z -> Gr) (dec_string : Z -> string) (pk0 pk1 : pubkey Gr) (sk0 : Z).
Variables (csize : og_req Gr -> Z) (ssize : og_reply Gr -> Z).
Notation og := (og_handle hash H dec_string pk0 pk1 sk0 csize ssize).
Definition og_received (q : og_req Gr) : Z := match q with OQ_other => 0%Z | _ => csize q end.
Definition og_sent (r : option (og_reply Gr)) : Z := match r with Some m => ssize m | None => 0%Z end.
Theorem C53_original : reports og og_received og_sent (og_ends Gr) og_comm og_day og_total.
Proof.
  apply reports_of.
  - intros q a tp. unfold og_handle. destruct (og_finished a) eqn:F; [fin|].
    destruct q as [m|css|ps| |]; try (fin).
    + unfold og_message_ii. destruct (recv_update _ _ _); [|fin..]. destruct (og_lookups _ _ _ _) as [inter [[]| | |]]; [|fin..].
      destruct (og_answer_ii _ _ _ _ _ _ _) as [[r tp']| | |]; fin.
    + unfold og_message_iv. destruct (og_sort_out _ _ _ _ _ _ _ _) as [[inter masks] [[ps tp']| | |]]; fin.
    + unfold og_message_v. destruct (og_record _ _ _ _ _) as [m [[]| | |]]; fin.
  - intros q a tp. unfold og_handle. destruct (og_finished a) eqn:F; [apply counted_late; apply Nat.leb_le; exact F|].
    destruct q as [m|css|ps| |]; cbn [og_received]; try (apply counted_0); try (rewrite Z.add_0_r; apply counted_one).
    + unfold og_message_ii. destruct (recv_update _ _ _); try (rewrite Z.add_0_r; apply counted_one). destruct (og_lookups _ _ _ _) as [inter [[]| | |]]; try (rewrite Z.add_0_r; apply counted_one).
      destruct (og_answer_ii _ _ _ _ _ _ _) as [[r tp']| | |]; try (rewrite Z.add_0_r; apply counted_one). apply counted_two.
    + unfold og_message_iv. destruct (og_sort_out _ _ _ _ _ _ _ _) as [[inter masks] [[ps tp']| | |]]; try (rewrite Z.add_0_r; apply counted_one). apply counted_two.
    + unfold og_message_v. destruct (og_record _ _ _ _ _) as [m [[]| | |]]; cbn [og_sent]; rewrite Z.add_0_r; apply counted_one.
Qed.
End Original.

(** ** Examples: requests of 10 bytes, replies of 7; a refused request of the
    right protocol counts, one of another protocol and one after the last day
    do not *)
Section Examples.
Local Open Scope Z_scope.
Example ex_C53_addition :
  (let '(s, os) := serve (sum_handle ex_bits ex_pk 9 (fun _ => 10) (fun _ => 7))
       [(C_original, ex_tape); (ex_empty, ex_tape); (ex_empty, ex_tape); (ex_sum_ct, ex_tape); (C_party_zero P0_unset, ex_tape); (ex_sum_ct, ex_tape); (ex_empty, ex_tape)] ex_new in
   match print_comm (sv_comm s) with ([a; b], t) => (a =? 51) && (b =? 27) && (t =? 78) | _ => false end) = true.
Proof. vm_cast_no_check (eq_refl true). Qed.
(** the int overflows: three gigabytes are reported as a negative number, and the total as almost 2^64 *)
Example ex_C53_overflow :
  (let '(s, os) := serve (sum_handle ex_bits ex_pk 9 (fun _ => 3 * 2 ^ 30) (fun _ => 0)) [(ex_sum_ct, ex_tape)] ex_new in
   match print_comm (sv_comm s) with ([a; b], t) => (a =? - 2 ^ 30) && (b =? 0) && (t =? 2 ^ 64 - 2 ^ 30) | _ => false end) = true.
Proof. vm_cast_no_check (eq_refl true). Qed.
End Examples.
Print Assumptions C53_addition.
Print Assumptions C53_original.
