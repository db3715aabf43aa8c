(** * C24-C27: what the servers do with arbitrary request sequences *)
Require Import String.
Require Import List Arith Lia ZArith Permutation Bool.
Import ListNotations.
From Verif Require Import Prelude TreeModel TreeSpec TreeHistory Coins Group ElGamalModel ElGamalProofs BytesModel CipherModel PaillierModel PaillierProofs PropsPaillier WireModel SyncModel SyncSpec SyncProofs AddModel AddSpec AddProofs PropsAdd PropsSync ServerSpec.
From Verif Require DelModel PsiModel OrigModel.
Local Open Scope nat_scope.

Ltac fin := cbn; repeat split; cbn; eauto; intros; cbn in *; lia.
(** ** generic facts about [serve] *)
Section Generic.
Context {Q R S : Type}.
Variable handle : Q -> S -> tape -> S * outcome R.
Lemma refuses_of s : (forall q tp, handle q s tp = (s, Err InvalidArgument)) -> refuses_everything handle s.
Proof. intros H reqs. induction reqs as [|[q tp] r IH]; cbn [serve map]; auto. rewrite H, IH. auto. Qed.

(** an invariant that counts *)
Variable day : S -> nat.
Variable completes : Q -> R -> bool.
Variable Inv : S -> S -> Prop.
Hypothesis Inv_refl : forall s, Inv s s.
Hypothesis Inv_trans : forall a b c, Inv a b -> Inv b c -> Inv a c.
Hypothesis step : forall q s tp, let '(s', o) := handle q s tp in
  Inv s s' /\ day s' = day s + match o with Ok r => if completes q r then 1 else 0 | _ => 0 end.
Lemma serve_days reqs : forall s, let '(s', os) := serve handle reqs s in
  Inv s s' /\ day s' = day s + days_completed completes (combine (map fst reqs) os).
Proof.
  induction reqs as [|[q tp] r IH]; intros s; cbn [serve map combine days_completed]; [split; auto; lia|].
  pose proof (step q s tp) as X. destruct (handle q s tp) as [s1 [v|c| |]]; destruct X as (I1 & D1);
    try (specialize (IH s1); destruct (serve handle r s1) as [s2 os]; destruct IH as (I2 & D2);
         cbn [fst combine days_completed]; split; [eauto|lia]).
  - cbn. split; auto. rewrite D1. rewrite combine_nil. cbn. lia.
  - cbn. split; auto. rewrite D1. rewrite combine_nil. cbn. lia.
Qed.

(** insertions *)
Context {A : Type}.
Variable hash : A -> list bool.
Variable first : Q -> bool.
Variable tree_of : S -> tree A.
Variable today : S -> nat -> list A.
Hypothesis inv_today : forall a b, Inv a b -> today b = today a.
Hypothesis istep : forall q s tp, let '(s', o) := handle q s tp in
  (exists bits, first q = true /\ valid_batch (today s (day s), bits) /\ tree_of s' = fst (insert hash (today s (day s)) bits (tree_of s)))
  \/ (tree_of s' = tree_of s /\ (first q = true -> forall r, o <> Ok r)).
Lemma serve_insertions reqs : forall s, let '(s', os) := serve handle reqs s in
  exists log bs, inserted first completes (day s) (combine (map fst reqs) os) log /\
    map fst bs = map (today s) log /\ Forall valid_batch bs /\ tree_of s' = run_release hash bs (tree_of s).
Proof.
  induction reqs as [|[q tp] r IH]; intros s; cbn [serve map combine].
  { exists [], []. repeat split; auto. constructor. }
  pose proof (step q s tp) as X. pose proof (istep q s tp) as Y.
  assert (OK : forall v (s1 : S), Inv s s1 -> day s1 = day s + (if completes q v then 1 else 0) ->
     (if completes q v then Datatypes.S (day s) else day s) = day s1) by (intros v s1 _ ->; destruct (completes q v); lia).
  destruct (handle q s tp) as [s1 [v|c| |]]; destruct X as (I1 & D1).
  - specialize (IH s1). destruct (serve handle r s1) as [s2 os]. destruct IH as (log & bs & IL & EM & V & ET).
    cbn [fst map combine]. rewrite (inv_today _ _ I1) in EM.
    destruct Y as [(bits & F & VB & E)|(E & F)].
    + exists (day s :: log), ((today s (day s), bits) :: bs). split. { apply ins_first; auto. rewrite (OK _ _ I1 D1). auto. }
      cbn [map fst]. split; [congruence|]. split; auto. rewrite ET, E. reflexivity.
    + exists log, bs. split. { destruct (first q) eqn:EF. { exfalso. eapply (F eq_refl); reflexivity. } apply ins_other; auto. rewrite (OK _ _ I1 D1). auto. }
      rewrite ET, E. auto.
  - specialize (IH s1). destruct (serve handle r s1) as [s2 os]. destruct IH as (log & bs & IL & EM & V & ET).
    cbn [fst map combine]. rewrite (inv_today _ _ I1) in EM. rewrite D1, Nat.add_0_r in IL.
    destruct Y as [(bits & F & VB & E)|(E & F)].
    + exists (day s :: log), ((today s (day s), bits) :: bs). split. { apply ins_failed; auto. congruence. }
      cbn [map fst]. split; [congruence|]. split; auto. rewrite ET, E. reflexivity.
    + exists log, bs. split. { apply ins_refused; auto. congruence. } rewrite ET, E. auto.
  - cbn [map fst combine]. rewrite combine_nil. destruct Y as [(bits & F & VB & E)|(E & F)].
    + exists [day s], [(today s (day s), bits)]. split. { apply ins_failed; auto; [congruence|constructor]. } repeat split; auto.
    + exists [], []. split. { apply ins_refused; [congruence|constructor]. } repeat split; auto.
  - cbn [map fst combine]. rewrite combine_nil. destruct Y as [(bits & F & VB & E)|(E & F)].
    + exists [day s], [(today s (day s), bits)]. split. { apply ins_failed; auto; [congruence|constructor]. } repeat split; auto.
    + exists [], []. split. { apply ins_refused; [congruence|constructor]. } repeat split; auto.
Qed.
End Generic.

(** ** the four addition-only servers *)
Section Addition.
Variables (Gr : group) (hash : Z -> list bool) (pk : pubkey Gr) (sk1 : Z).
Variables (csize : client_msg Gr -> Z) (ssize : server_msg Gr -> Z).
Variables (n : Z) (paillier : pub) (psk1 : Z).
Notation reply := (option (server_msg Gr)).
Notation ca := (ca_handle hash pk sk1 csize ssize).
Notation psi := (psi_handle hash pk sk1 csize ssize).
Notation sum := (sum_handle hash pk sk1 csize ssize).
Notation ss := (ss_handle hash pk sk1 csize ssize n paillier psk1).

(** *** C24 *)
Theorem C24_finished_refuses :
  (forall s, sv_total s <= sv_day s -> refuses_everything ca s) /\
  (forall s, sv_total s <= sv_day s -> refuses_everything psi s) /\
  (forall s, sv_total s <= sv_day s -> refuses_everything sum s) /\
  (forall s, sv_total s <= sv_day s -> refuses_everything ss s).
Proof.
  repeat split; intros s L; apply refuses_of; intros q tp; apply Nat.leb_le in L.
  all: unfold ca_handle, psi_handle, sum_handle, ss_handle, handle_no_payload, handle_sum, handle_ss, sv_finished; rewrite L; reflexivity.
Qed.

(** *** C25: kinds *)
(** everything but the byte counter *)
Definition only_comm {E} (s s' : server E) : Prop :=
  sv_my s' = sv_my s /\ sv_other s' = sv_other s /\ sv_data s' = sv_data s /\ sv_day s' = sv_day s
  /\ sv_total s' = sv_total s /\ sv_shares s' = sv_shares s.
(** the messages of each protocol, network/upsi.proto *)
Definition no_payload_kind (q : client_msg Gr) : bool :=
  match q with C_party_zero (P0_I _) => true | _ => false end.
Definition sum_kind (q : client_msg Gr) : bool :=
  match q with C_party_zero (P0_I _) | C_party_zero (P0_III_sum _) => true | _ => false end.
Definition ss_kind (q : client_msg Gr) : bool :=
  match q with C_party_zero (P0_I _) | C_party_zero (P0_III_ss _) => true | _ => false end.
Theorem C25_wrong_kind :
  (forall q s, no_payload_kind q = false -> rejects ca only_comm q s) /\
  (forall q s, no_payload_kind q = false -> rejects psi only_comm q s) /\
  (forall q s, sum_kind q = false -> rejects sum only_comm q s) /\
  (forall q s, ss_kind q = false -> rejects ss only_comm q s).
Proof.
  repeat split; intros q s K tp;
  unfold ca_handle, psi_handle, sum_handle, ss_handle, handle_no_payload, handle_sum, handle_ss;
  destruct (sv_finished s); [eexists; split; [reflexivity|repeat split]| |eexists; split; [reflexivity|repeat split]| |
                             eexists; split; [reflexivity|repeat split]| |eexists; split; [reflexivity|repeat split]|];
  destruct q as [[]| |]; cbn in K; try discriminate; (eexists; split; [reflexivity|repeat split]).
Qed.

(** *** C26 *)
Definition config {E} (s s' : server E) : Prop :=
  sv_total s' = sv_total s /\ sv_data s' = sv_data s /\ sv_day s <= sv_day s'
  /\ (sv_day s <= sv_total s -> sv_day s' <= sv_total s).
Lemma config_refl {E} (s : server E) : config s s. Proof. repeat split; auto. Qed.
Lemma config_trans {E} (a b c : server E) : config a b -> config b c -> config a c.
Proof. intros (A1 & A2 & A3 & A4) (B1 & B2 & B3 & B4). repeat split; try congruence; [lia|]. rewrite A1 in B4. auto. Qed.
(** which replies end a day *)
Definition no_payload_ends (q : client_msg Gr) (r : reply) : bool := true.
Definition sum_ends (q : client_msg Gr) (r : reply) : bool := match r with Some (S_party_one (P1_IV _)) => true | _ => false end.
Definition ss_ends (q : client_msg Gr) (r : reply) : bool := match r with None => true | _ => false end.
Definition is_first (q : client_msg Gr) : bool := match q with C_party_zero (P0_I _) => true | _ => false end.
Definition batch_of {E} (s : server E) (d : nat) : list Z := nth d (sv_data s) [].

Lemma answer_days {E} gen2 m (s : server E) tp after k : k <= 1 ->
  sv_day s < sv_total s -> (forall s, config s (after s) -> True) ->
  (forall s, after s = if k =? 1 then sv_finish_day s else s) ->
  let '(s', o) := answer_i ssize gen2 m s tp after in
  config s s' /\ sv_day s' = sv_day s + match o with Ok r => k | _ => 0 end
  /\ match o with Ok r => exists x, r = Some (S_party_one (P1_II x)) | _ => True end.
Proof.
  intros K L _ HA. unfold answer_i. destruct (gen2 _ _ _ _) as [ts [[r tp']| | |]]; [|fin..].
  rewrite HA. destruct k as [|[|]]; try lia; fin.
Qed.
Lemma unfinished {E} (s : server E) : sv_finished s = false -> sv_day s < sv_total s.
Proof. unfold sv_finished. intros H. apply Nat.leb_gt in H. auto. Qed.

Lemma np_days {E} gen2 q (s : server E) tp : let '(s', o) := handle_no_payload csize ssize gen2 q s tp in
  config s s' /\ sv_day s' = sv_day s + match o with Ok r => if no_payload_ends q r then 1 else 0 | _ => 0 end.
Proof.
  unfold handle_no_payload. destruct (sv_finished s) eqn:F; [fin|]. apply unfinished in F.
  destruct q as [[m| | |]| |]; try (fin).
  pose proof (answer_days gen2 m (add_comm (csize (C_party_zero (P0_I m))) s) tp sv_finish_day 1 ltac:(lia) F ltac:(auto) ltac:(auto)) as X.
  destruct (answer_i _ _ _ _ _ _) as [s' [r| | |]]; cbn [no_payload_ends]; cbn in X; destruct X as (X & Y & _); cbn; auto.
Qed.
Lemma sum_days q s tp : let '(s', o) := sum q s tp in
  config s s' /\ sv_day s' = sv_day s + match o with Ok r => if sum_ends q r then 1 else 0 | _ => 0 end.
Proof.
  unfold sum_handle, handle_sum. destruct (sv_finished s) eqn:F; [fin|]. apply unfinished in F.
  destruct q as [[m|w| |]| |]; try (fin).
  - pose proof (answer_days (sum_gen2 hash pk sk1) m (add_comm (csize (C_party_zero (P0_I m))) s) tp (fun s => s) 0 ltac:(lia) F ltac:(auto) ltac:(auto)) as X.
    destruct (answer_i _ _ _ _ _ _) as [s' [r| | |]]; cbn in X; destruct X as (X & Y & Z); cbn; auto.
    destruct Z as (x & ->). cbn. auto.
  - destruct (process_iii_sum sk1 w); fin.
Qed.
Lemma ss_days q s tp : let '(s', o) := ss q s tp in
  config s s' /\ sv_day s' = sv_day s + match o with Ok r => if ss_ends q r then 1 else 0 | _ => 0 end.
Proof.
  unfold ss_handle, handle_ss. destruct (sv_finished s) eqn:F; [fin|]. apply unfinished in F.
  destruct q as [[m|w|ps|]| |]; try (fin).
  - pose proof (answer_days (ss_gen2 hash pk sk1 paillier) m (add_comm (csize (C_party_zero (P0_I m))) s) tp (fun s => s) 0 ltac:(lia) F ltac:(auto) ltac:(auto)) as X.
    destruct (answer_i _ _ _ _ _ _) as [s' [r| | |]]; cbn in X; destruct X as (X & Y & Z); cbn; auto.
    destruct Z as (x & ->). cbn. auto.
  - destruct (process_iii_ss _ _ _) as [sh [[]| | |]]; fin.
Qed.

(** The day counter after any requests: it grows by one for every completed
    day, never beyond the total, and nothing changes the plan.  (On a single
    request the count on the right is at most 1.) *)
Definition counts_days {E : Type} (handle : client_msg Gr -> server E -> tape -> server E * outcome reply) (ends : client_msg Gr -> reply -> bool) : Prop :=
  forall reqs s s' outs, serve handle reqs s = (s', outs) ->
    sv_day s' = sv_day s + days_completed ends (combine (map fst reqs) outs) /\
    (sv_day s <= sv_total s -> sv_day s' <= sv_total s) /\
    sv_total s' = sv_total s /\ sv_data s' = sv_data s.
Theorem C26_days :
  counts_days ca no_payload_ends /\ counts_days psi no_payload_ends /\ counts_days sum sum_ends /\ counts_days ss ss_ends.
Proof.
  assert (X : forall (E : Type) (handle : client_msg Gr -> server E -> tape -> server E * outcome reply) (ends : client_msg Gr -> reply -> bool),
    (forall q (s : server E) tp, let '(s', o) := handle q s tp in config s s' /\ sv_day s' = sv_day s + match o with Ok r => if ends q r then 1 else 0 | _ => 0 end) ->
    counts_days handle ends).
  { intros E handle ends H reqs s s' outs EQ. pose proof (serve_days handle sv_day ends config config_refl config_trans H reqs s) as Y.
    rewrite EQ in Y. destruct Y as ((A & B & C & D) & Y). repeat split; auto. }
  split; [apply X; intros; apply np_days|]. split; [apply X; intros; apply np_days|]. split; apply X; [apply sum_days|apply ss_days].
Qed.

(** insertions into the server's own tree *)
Lemma gen2_tree {E P} deser deser_cand (split : E -> ct Gr * P) mask seal m es my other tp :
  let '((my', other'), o) := generate_message_ii hash pk deser deser_cand split mask seal m es (my, other) tp in
  (exists bits, valid_batch (es, bits) /\ my' = fst (insert hash es bits my)) \/ (my' = my /\ forall r, o <> Ok r).
Proof.
  unfold generate_message_ii. destruct (recv_update _ _ _) as [other'| | |]; try (right; split; [reflexivity|congruence]).
  destruct (answer_candidates _ _ _ _ _ _ _ _ _ _) as [[ws tp1]| | |]; try (right; split; [reflexivity|congruence]).
  unfold send_update. destruct (random_hashes (length es) tp1) as [[hs tp2]| | |] eqn:EH; try (right; split; [reflexivity|cbn; congruence]).
  destruct (insert hash es (map byte2binary hs) my) as [my' nodes] eqn:EI.
  left. exists (map byte2binary hs). rewrite EI. split; [eapply hashes_valid; eauto|]. reflexivity.
Qed.
Definition gen2_like {E} (gen2 : msg12 Gr -> list Z -> ST (tree Z * tree E) (msg12 Gr)) : Prop :=
  forall m es my other tp, let '((my', other'), o) := gen2 m es (my, other) tp in
  (exists bits, valid_batch (es, bits) /\ my' = fst (insert hash es bits my)) \/ (my' = my /\ forall r, o <> Ok r).
Lemma answer_tree {E} gen2 m (s : server E) tp after : gen2_like gen2 ->
  (forall s, sv_my (after s) = sv_my s) ->
  let '(s', o) := answer_i ssize gen2 m s tp after in
  (exists bits, valid_batch (batch_of s (sv_day s), bits) /\ sv_my s' = fst (insert hash (batch_of s (sv_day s)) bits (sv_my s)))
  \/ (sv_my s' = sv_my s /\ forall r, o <> Ok r).
Proof.
  intros G HA. unfold answer_i. fold (batch_of s (sv_day s)). specialize (G m (batch_of s (sv_day s)) (sv_my s) (sv_other s) tp).
  destruct (gen2 _ _ _ _) as [[my' other'] [[r tp']| | |]]; destruct G as [(bits & V & G)|(G & N)];
    try (left; exists bits; split; [auto|]; rewrite ?HA; cbn; exact G); try (right; split; [cbn; auto|congruence]).
  exfalso. eapply N; reflexivity.
Qed.
Definition tree_step {E} (handle : client_msg Gr -> server E -> tape -> server E * outcome reply) : Prop :=
  forall q s tp, let '(s', o) := handle q s tp in
  (exists bits, is_first q = true /\ valid_batch (batch_of s (sv_day s), bits) /\ sv_my s' = fst (insert hash (batch_of s (sv_day s)) bits (sv_my s)))
  \/ (sv_my s' = sv_my s /\ (is_first q = true -> forall r, o <> Ok r)).
Lemma np_tree {E} gen2 : gen2_like gen2 -> @tree_step E (handle_no_payload csize ssize gen2).
Proof.
  intros G q s tp. unfold handle_no_payload. destruct (sv_finished s); [right; split; [auto|congruence]|].
  destruct q as [[m| | |]| |]; try (right; cbn; split; [auto|congruence]).
  pose proof (answer_tree gen2 m (add_comm (csize (C_party_zero (P0_I m))) s) tp sv_finish_day G ltac:(auto)) as X.
  destruct (answer_i _ _ _ _ _ _) as [s' o]. destruct X as [(bits & V & X)|(X & Y)]; [left|right]; eauto.
Qed.
Lemma sum_tree : tree_step sum.
Proof.
  intros q s tp. unfold sum_handle, handle_sum. destruct (sv_finished s); [right; split; [auto|congruence]|].
  destruct q as [[m|w| |]| |]; try (right; cbn; split; [auto|congruence]).
  - pose proof (answer_tree (sum_gen2 hash pk sk1) m (add_comm (csize (C_party_zero (P0_I m))) s) tp (fun s => s) ltac:(red; intros; apply gen2_tree) ltac:(auto)) as X.
    destruct (answer_i _ _ _ _ _ _) as [s' o]. destruct X as [(bits & V & X)|(X & Y)]; [left|right]; eauto.
  - destruct (process_iii_sum sk1 w); right; (split; [reflexivity|discriminate]).
Qed.
Lemma ss_tree : tree_step ss.
Proof.
  intros q s tp. unfold ss_handle, handle_ss. destruct (sv_finished s); [right; split; [auto|congruence]|].
  destruct q as [[m|w|ps|]| |]; try (right; cbn; split; [auto|congruence]).
  - pose proof (answer_tree (ss_gen2 hash pk sk1 paillier) m (add_comm (csize (C_party_zero (P0_I m))) s) tp (fun s => s) ltac:(red; intros; apply gen2_tree) ltac:(auto)) as X.
    destruct (answer_i _ _ _ _ _ _) as [s' o]. destruct X as [(bits & V & X)|(X & Y)]; [left|right]; eauto.
  - destruct (process_iii_ss _ _ _) as [sh [[]| | |]]; right; (split; [reflexivity|discriminate]).
Qed.
(** The own tree is the result of inserting, in order, the batches of the days
    in [log], where [log] has one entry for every answered first message. *)
Definition inserts_batches {E : Type} (handle : client_msg Gr -> server E -> tape -> server E * outcome reply) (ends : client_msg Gr -> reply -> bool) : Prop :=
  forall reqs s s' outs, serve handle reqs s = (s', outs) ->
    exists log batches, inserted is_first ends (sv_day s) (combine (map fst reqs) outs) log /\
      map fst batches = map (fun d => nth d (sv_data s) []) log /\ Forall valid_batch batches /\
      sv_my s' = run_release hash batches (sv_my s).
Theorem C26_batches :
  inserts_batches ca no_payload_ends /\ inserts_batches psi no_payload_ends /\ inserts_batches sum sum_ends /\ inserts_batches ss ss_ends.
Proof.
  assert (X : forall (E : Type) (handle : client_msg Gr -> server E -> tape -> server E * outcome reply) (ends : client_msg Gr -> reply -> bool),
    (forall q (s : server E) tp, let '(s', o) := handle q s tp in config s s' /\ sv_day s' = sv_day s + match o with Ok r => if ends q r then 1 else 0 | _ => 0 end) ->
    tree_step handle -> inserts_batches handle ends).
  { intros E handle ends H T reqs s s' outs EQ.
    pose proof (serve_insertions handle sv_day ends config H hash is_first sv_my batch_of) as Y.
    specialize (Y ltac:(intros a b (_ & D & _); unfold batch_of; rewrite D; auto) T reqs s). rewrite EQ in Y. exact Y. }
  split; [apply X; [intros; apply np_days|apply np_tree; red; intros; apply gen2_tree]|].
  split; [apply X; [intros; apply np_days|apply np_tree; red; intros; apply gen2_tree]|].
  split; apply X; [apply sum_days|apply sum_tree|apply ss_days|apply ss_tree].
Qed.

(** Replies and new states do not depend on the batches of other days. *)
Definition with_data {E} (d : list (list Z)) (s : server E) : server E :=
  mkServer (sv_my s) (sv_other s) d (sv_day s) (sv_total s) (sv_comm s) (sv_shares s).
Definition uses_only_today {E} (handle : client_msg Gr -> server E -> tape -> server E * outcome reply) : Prop :=
  forall q s tp d, nth (sv_day s) d [] = nth (sv_day s) (sv_data s) [] ->
    handle q (with_data d s) tp = (with_data d (fst (handle q s tp)), snd (handle q s tp)).
Theorem C26_only_today : uses_only_today ca /\ uses_only_today psi /\ uses_only_today sum /\ uses_only_today ss.
Proof.
  repeat split; intros q s tp d ED;
  unfold ca_handle, psi_handle, sum_handle, ss_handle, handle_no_payload, handle_sum, handle_ss;
  change (sv_finished (with_data d s)) with (sv_finished s); destruct (sv_finished s); try reflexivity;
  destruct q as [[m|w|ps|]| |]; try reflexivity;
  try (unfold answer_i; cbn [add_comm with_data sv_day sv_data sv_my sv_other sv_total sv_comm sv_shares set_trees sv_finish_day]; rewrite ED;
       match goal with |- context [?g m ?es ?ts tp] => destruct (g m es ts tp) as [ts' [[r tp']| | |]] end; reflexivity).
  - destruct (process_iii_sum sk1 w); reflexivity.
  - cbn [add_comm with_data sv_shares]. destruct (process_iii_ss _ _ _) as [sh [[]| | |]]; reflexivity.
Qed.

(** *** C27 *)
(** A third message on a fresh day ends it; neither tree changes.  For SUM any
    readable ciphertext whose partial decryption is not the point at infinity
    does; for SS the empty list of payloads already does. *)
Theorem C27_third_without_first :
  (forall w c s tp, sv_day s < sv_total s -> deser_ct w = Ok c -> ct_u c <> gid -> ct_e (partial_decrypt sk1 c) <> gid ->
    exists s' r, sum (C_party_zero (P0_III_sum w)) s tp = (s', Ok (Some (S_party_one (P1_IV r)))) /\
      sv_day s' = S (sv_day s) /\ sv_my s' = sv_my s /\ sv_other s' = sv_other s) /\
  (forall s tp, sv_day s < sv_total s ->
    exists s', ss (C_party_zero (P0_III_ss [])) s tp = (s', Ok None) /\
      sv_day s' = S (sv_day s) /\ sv_my s' = sv_my s /\ sv_other s' = sv_other s /\ sv_shares s' = sv_shares s).
Proof.
  split.
  - intros w c s tp L D NU NE. unfold sum_handle, handle_sum, sv_finished. rewrite (proj2 (Nat.leb_gt _ _) L).
    unfold process_iii_sum. rewrite D. cbn [obind]. unfold ser_ct, point_to_bytes.
    change (ct_u (partial_decrypt sk1 c)) with (ct_u c).
    destruct (geqb (ct_u c) gid) eqn:E1; [exfalso; apply NU, geqb_spec; auto|].
    destruct (geqb (ct_e (partial_decrypt sk1 c)) gid) eqn:E2; [exfalso; apply NE, geqb_spec; auto|].
    eexists _, _. split; [reflexivity|]. repeat split.
  - intros s tp L. unfold ss_handle, handle_ss, sv_finished. rewrite (proj2 (Nat.leb_gt _ _) L). cbn. eexists. split; [reflexivity|]. repeat split.
Qed.

Lemma side_batch {A} (h : A -> list bool) t H b : (forall x, length (h x) = 256) -> side h t H -> valid_batch b -> int_range (length H + length (fst b)) ->
  side h (fst (insert h (fst b) (snd b) t)) (H ++ fst b).
Proof.
  intros HH (R & lost & P) V IR. destruct (insert h (fst b) (snd b) t) as [t' out] eqn:EI.
  destruct (reach_step h t _ b t' out HH R V IR EI) as (_ & R' & _ & _ & _ & PL & _). cbn [fst]. split; [rewrite app_length; auto|].
  exists (lost_by h (fst b) (snd b) t ++ lost). rewrite app_assoc, PL, <- app_assoc, P. apply Permutation_app_comm.
Qed.
(** Two first messages answered on the same day: the day has not moved and
    the batch of the day is in the tree twice (up to entries lost to a full
    stash). *)
Definition inserts_twice {E} (handle : client_msg Gr -> server E -> tape -> server E * outcome reply) : Prop :=
  forall m1 m2 tp1 tp2 s s' r1 r2 H, (forall x, length (hash x) = 256) ->
    side hash (sv_my s) H -> int_range (length H + 2 * length (batch_of s (sv_day s))) ->
    serve handle [(C_party_zero (P0_I m1), tp1); (C_party_zero (P0_I m2), tp2)] s = (s', [Ok r1; Ok r2]) ->
    sv_day s' = sv_day s /\
    exists lost, Permutation (contents (sv_my s') ++ lost) (H ++ batch_of s (sv_day s) ++ batch_of s (sv_day s)) /\ (no_overflow (sv_my s') -> lost = []).
Lemma first_never_ends s tp m s' r :
  (sum (C_party_zero (P0_I m)) s tp = (s', Ok r) -> sum_ends (C_party_zero (P0_I m)) r = false).
Proof.
  intros E. unfold sum_handle, handle_sum in E. destruct (sv_finished s); [discriminate|]. unfold answer_i in E.
  destruct (sum_gen2 _ _ _ _ _ _ _) as [ts [[x tp']| | |]]; inversion E; reflexivity.
Qed.
Lemma first_never_ends_ss s tp m s' r :
  (ss (C_party_zero (P0_I m)) s tp = (s', Ok r) -> ss_ends (C_party_zero (P0_I m)) r = false).
Proof.
  intros E. unfold ss_handle, handle_ss in E. destruct (sv_finished s); [discriminate|]. unfold answer_i in E.
  destruct (ss_gen2 _ _ _ _ _ _ _ _) as [ts [[x tp']| | |]]; inversion E; reflexivity.
Qed.
Theorem C27_first_twice : inserts_twice sum /\ inserts_twice ss.
Proof.
  assert (X : forall (E : Type) (handle : client_msg Gr -> server E -> tape -> server E * outcome reply) (ends : client_msg Gr -> reply -> bool),
     tree_step handle -> counts_days handle ends ->
     (forall s tp m s' r, handle (C_party_zero (P0_I m)) s tp = (s', Ok r) -> ends (C_party_zero (P0_I m)) r = false) -> inserts_twice handle).
  { intros E handle ends TS CD NE m1 m2 tp1 tp2 s s' r1 r2 H HH SD IR EQ.
    cbn [serve] in EQ. pose proof (TS (C_party_zero (P0_I m1)) s tp1) as T1.
    pose proof (fun s' => CD [(C_party_zero (P0_I m1), tp1)] s s' [Ok r1]) as C1. cbn [serve] in C1.
    destruct (handle (C_party_zero (P0_I m1)) s tp1) as [s1 [v1| | |]] eqn:E1;
      try (destruct (handle (C_party_zero (P0_I m2)) s1 tp2) as [? []]; discriminate); try discriminate.
    pose proof (TS (C_party_zero (P0_I m2)) s1 tp2) as T2.
    pose proof (fun s' => CD [(C_party_zero (P0_I m2), tp2)] s1 s' [Ok r2]) as C2. cbn [serve] in C2.
    destruct (handle (C_party_zero (P0_I m2)) s1 tp2) as [s2 [v2| | |]] eqn:E2; inversion EQ; subst v1 v2 s2; clear EQ.
    destruct (C1 s1 eq_refl) as (D1 & _ & _ & DA1). destruct (C2 s' eq_refl) as (D2 & _ & _ & DA2).
    cbn in D1, D2. rewrite (NE _ _ _ _ _ E1), Nat.add_0_r in D1. rewrite (NE _ _ _ _ _ E2), Nat.add_0_r in D2.
    split; [congruence|].
    destruct T1 as [(b1 & _ & V1 & T1)|(_ & T1)]; [|exfalso; eapply T1; reflexivity].
    destruct T2 as [(b2 & _ & V2 & T2)|(_ & T2)]; [|exfalso; eapply T2; reflexivity].
    unfold batch_of in *. rewrite D1, DA1 in *. set (es := nth (sv_day s) (sv_data s) []) in *.
    apply side_lost with (hash := hash). rewrite T2, T1.
    rewrite app_assoc.
    refine (side_batch hash _ (H ++ es) (es, b2) HH (side_batch hash _ H (es, b1) HH SD V1 _) V2 _);
      cbn [fst]; rewrite ?app_length; unfold int_range in *; lia. }
  split; [apply (X _ _ sum_ends)|apply (X _ _ ss_ends)]; try apply sum_tree; try apply ss_tree; try apply C26_days;
    intros; [eapply first_never_ends|eapply first_never_ends_ss]; eauto.
Qed.
End Addition.

(** ** the deletion and deletion-psi servers *)
Section Deletion.
Variables (Gr : group) (hash : Z -> list bool) (P : pub) (V : priv).
Notation reply := (option (server_msg Gr)).
Notation del := (@DelModel.del_handle Gr hash P V).
Notation dpsi := (@PsiModel.psi_handle Gr hash P V).
Import DelModel PsiModel.
Theorem C24_deletion :
  (forall s, ds_finished s = true -> refuses_everything del s) /\
  (forall s, ps_finished s = true -> refuses_everything dpsi s).
Proof. split; intros s F; apply refuses_of; intros q tp; unfold del_handle, PsiModel.psi_handle; rewrite F; reflexivity. Qed.
Theorem C25_deletion :
  (forall q s, is_first Gr q = false -> rejects del eq q s) /\
  (forall q s, is_first Gr q = false -> rejects dpsi eq q s).
Proof.
  split; intros q s K tp; unfold del_handle, PsiModel.psi_handle.
  - destruct (ds_finished s); [eauto|]. destruct q as [[]| |]; cbn in K; try discriminate; eauto.
  - destruct (ps_finished s); [eauto|]. destruct q as [[]| |]; cbn in K; try discriminate; eauto.
Qed.
(** number of requests answered *)
Definition answered (outs : list (outcome reply)) : nat :=
  length (filter (fun o => match o with Ok _ => true | _ => false end) outs).
Lemma answered_days (reqs : list (client_msg Gr * tape)) : forall outs, length outs <= length reqs ->
  days_completed (fun _ _ => true) (combine (map fst reqs) outs) = answered outs.
Proof.
  induction reqs as [|[q tp] r IH]; intros outs L; destruct outs as [|o outs]; cbn in *; auto; try lia.
  unfold answered in *. cbn. destruct o; cbn; rewrite IH; auto; lia.
Qed.
Lemma serve_length {Q R S} (handle : Q -> S -> tape -> S * outcome R) reqs : forall s, length (snd (serve handle reqs s)) <= length reqs.
Proof.
  induction reqs as [|[q tp] r IH]; intros s; cbn [serve length]; [auto|].
  destruct (handle q s tp) as [s1 [v|c| |]]; cbn; try (specialize (IH s1); destruct (serve handle r s1); cbn in *); lia.
Qed.
(** Between two resets the deletion server answers at most one request and
    then moves on by exactly one day; the deletion-psi server answers at most
    two (deletions, then additions) and moves on by one day with the second. *)
Theorem C26_deletion : forall reqs s s' outs, serve del reqs s = (s', outs) ->
  ds_day s' = ds_day s + answered outs /\ answered outs <= (if ds_finished s then 0 else 1) /\ ds_data s' = ds_data s.
Proof.
  intros reqs s s' outs EQ.
  pose proof (serve_days del ds_day (fun _ _ => true)
     (fun a b => ds_data b = ds_data a /\ ds_day b + (if ds_finished b then 0 else 1) <= ds_day a + (if ds_finished a then 0 else 1))) as X.
  specialize (X ltac:(intros; split; auto) ltac:(intros a b c (A1 & A2) (B1 & B2); split; [congruence|lia])).
  match type of X with ?H -> _ => assert (ST : H) end.
  { intros q a tp. unfold del_handle. destruct (ds_finished a) eqn:F; [rewrite F; repeat split; lia|].
    destruct q as [[m| | |]| |]; try (rewrite F; repeat split; lia).
    destruct (nth_error _ _) as [es|]; [|rewrite F; repeat split; lia].
    destruct (del_gen2 _ _ _ _ _ _ _) as [p' [[r tp']| | |]]; cbn; repeat split; lia. }
  specialize (X ST reqs s). pose proof (serve_length del reqs s) as L. rewrite EQ in X, L. cbn in L. rewrite answered_days in X by auto.
  destruct X as ((D & M) & E). destruct (ds_finished s), (ds_finished s'); repeat split; auto; lia.
Qed.
(** 0: waiting for deletions, 1: waiting for additions, 2: finished *)
Definition phase (s : pserver) : nat := if ps_finished s then 2 else if ps_first s then 1 else 0.
Theorem C26_deletion_psi : forall reqs s s' outs, serve dpsi reqs s = (s', outs) ->
  phase s' = phase s + answered outs /\ answered outs <= 2 - phase s /\ ps_data s' = ps_data s /\
  ps_day s' = ps_day s + (if (phase s <? 2) && (phase s' =? 2) then 1 else 0).
Proof.
  intros reqs s s' outs EQ. set (b2n := fun b : bool => if b then 1 else 0).
  pose proof (serve_days dpsi phase (fun _ _ => true)
     (fun a b => ps_data b = ps_data a /\ ps_day b + b2n (ps_finished a) = ps_day a + b2n (ps_finished b) /\ phase a <= phase b <= 2)) as X.
  assert (PH : forall s, phase s <= 2) by (intros a; unfold phase; destruct (ps_finished a), (ps_first a); lia).
  specialize (X ltac:(intros a; specialize (PH a); repeat split; auto) ltac:(intros a b c (A1 & A2 & A3) (B1 & B2 & B3); repeat split; [congruence|lia..])).
  match type of X with ?H -> _ => assert (ST : H) end.
  { intros q a tp. unfold PsiModel.psi_handle. destruct (ps_finished a) eqn:F; [specialize (PH a); rewrite F; repeat split; auto; lia|].
    destruct q as [[m| | |]| |]; try (specialize (PH a); rewrite F; repeat split; auto; lia).
    destruct (nth_error _ _) as [[dels adds]|]; [|specialize (PH a); rewrite F; repeat split; auto; lia].
    destruct (psi_gen2 _ _ _ _ _ _ _) as [p' [[r tp']| | |]]; unfold phase; cbn [ps_finish ps_first ps_finished ps_day ps_data ps_party]; rewrite ?F;
      subst b2n; unfold ps_finish; cbn; destruct (ps_first a); cbn; repeat split; auto; lia. }
  specialize (X ST reqs s). pose proof (serve_length dpsi reqs s) as L. rewrite EQ in X, L. cbn in L. rewrite answered_days in X by auto.
  destruct X as ((D & M & R) & E). specialize (PH s). split; auto. split; [lia|]. split; auto.
  subst b2n. unfold phase in *. cbn beta in M. destruct (ps_finished s), (ps_finished s'), (ps_first s), (ps_first s'); cbn in *; lia.
Qed.
End Deletion.

(** ** the server of the original construction *)
Section Original.
Import OrigModel.
Variables (Gr : group) (hash : Z -> list bool) (H : Z -> Gr) (dec_string : Z -> string) (pk0 pk1 : pubkey Gr) (sk0 : Z).
Variables (csize : og_req Gr -> Z) (ssize : og_reply Gr -> Z).
Notation og := (og_handle hash H dec_string pk0 pk1 sk0 csize ssize).
Theorem C24_original : forall s, og_total s <= og_day s -> refuses_everything og s.
Proof. intros s L; apply refuses_of; intros q tp; apply Nat.leb_le in L. unfold og_handle, og_finished. rewrite L. reflexivity. Qed.
(** messages I, III and V are the requests of this protocol *)
Definition og_kind (q : og_req Gr) : bool := match q with OQ_I _ | OQ_III _ | OQ_V _ => true | _ => false end.
Definition og_only_comm (s s' : og_server Gr) : Prop :=
  og_tree s' = og_tree s /\ og_map s' = og_map s /\ og_inter s' = og_inter s /\ og_masks s' = og_masks s
  /\ og_data s' = og_data s /\ og_day s' = og_day s /\ og_total s' = og_total s.
Theorem C25_original : forall q s, og_kind q = false -> rejects og og_only_comm q s.
Proof.
  intros q s K tp. unfold og_handle. destruct (og_finished s); [eexists; split; [reflexivity|repeat split]|].
  destruct q; cbn in K; try discriminate; (eexists; split; [reflexivity|repeat split]).
Qed.
Definition og_ends (q : og_req Gr) (r : option (og_reply Gr)) : bool := match q with OQ_V _ => true | _ => false end.
Definition og_config (s s' : og_server Gr) : Prop :=
  og_total s' = og_total s /\ og_data s' = og_data s /\ og_day s <= og_day s'
  /\ (og_day s <= og_total s -> og_day s' <= og_total s).
Theorem C26_original : forall reqs s s' outs, serve og reqs s = (s', outs) ->
  og_day s' = og_day s + days_completed og_ends (combine (map fst reqs) outs) /\
  (og_day s <= og_total s -> og_day s' <= og_total s) /\ og_total s' = og_total s /\ og_data s' = og_data s.
Proof.
  intros reqs s s' outs EQ. pose proof (serve_days og og_day og_ends og_config) as X.
  specialize (X ltac:(intros; repeat split; auto)).
  match type of X with ?H -> _ => assert (TR : H) end.
  { intros a b c (A1 & A2 & A3 & A4) (B1 & B2 & B3 & B4). repeat split; try congruence; [lia|]. rewrite A1 in B4. auto. }
  specialize (X TR). match type of X with ?H -> _ => assert (ST : H) end.
  { intros q a tp. unfold og_handle. destruct (og_finished a) eqn:F; [fin|]. unfold og_finished in F. apply Nat.leb_gt in F.
    destruct q as [m|css|ps| |]; try (fin).
    - unfold og_message_ii. destruct (recv_update _ _ _); [|fin..]. destruct (og_lookups _ _ _ _) as [inter [[]| | |]]; [|fin..].
      destruct (og_answer_ii _ _ _ _ _ _ _) as [[r tp']| | |]; fin.
    - unfold og_message_iv. destruct (og_sort_out _ _ _ _ _ _ _ _) as [[inter masks] [[ps tp']| | |]]; fin.
    - unfold og_message_v. destruct (og_record _ _ _ _ _) as [m [[]| | |]]; fin. }
  specialize (X ST reqs s). rewrite EQ in X. destruct X as ((A & B & C & D) & E). auto.
Qed.
Definition og_with_data (d : list (list Z)) (s : og_server Gr) : og_server Gr :=
  mkOgS (og_tree s) (og_map s) (og_inter s) (og_masks s) d (og_day s) (og_total s) (og_comm s).
Theorem C26_original_only_today : forall q s tp d, nth (og_day s) d [] = nth (og_day s) (og_data s) [] ->
  og q (og_with_data d s) tp = (og_with_data d (fst (og q s tp)), snd (og q s tp)).
Proof.
  intros q s tp d ED. unfold og_handle. change (og_finished (og_with_data d s)) with (og_finished s). destruct (og_finished s); [reflexivity|].
  destruct q as [m|css|ps| |]; try reflexivity.
  - unfold og_message_ii, og_add_comm, og_today. cbn [og_with_data og_tree og_map og_inter og_data og_day og_masks og_total og_comm]. destruct (recv_update _ _ _); try reflexivity.
    destruct (og_lookups _ _ _ _) as [inter [[]| | |]]; try reflexivity. rewrite ED. destruct (og_answer_ii _ _ _ _ _ _ _) as [[r tp']| | |]; reflexivity.
  - unfold og_message_iv, og_add_comm, og_today. cbn [og_with_data og_tree og_map og_inter og_data og_day og_masks og_total og_comm]. rewrite ED.
    destruct (og_sort_out _ _ _ _ _ _ _ _) as [[inter masks] [[ps tp']| | |]]; reflexivity.
  - unfold og_message_v, og_add_comm, og_today. cbn [og_with_data og_tree og_map og_inter og_data og_day og_masks og_total og_comm]. rewrite ED.
    destruct (og_record _ _ _ _ _) as [m [[]| | |]]; reflexivity.
Qed.
End Original.

(** ** Concrete cases *)
Section Examples.
Local Open Scope Z_scope.
Notation sum := (sum_handle (Gr := exG) ex_bits ex_pk 9 zero_size zero_size).
Notation ca := (ca_handle (Gr := exG) ex_bits ex_pk 9 zero_size zero_size).
(** a first message without updates or candidates *)
Definition ex_empty : client_msg exG := C_party_zero (P0_I (mkMsg (mkUpdate [] []) [])).
Definition ex_new {E} : server E := server_new 3 2 2 [[5; 7]; [8]].
Definition is_ok {R} (o : outcome R) : bool := match o with Ok _ => true | _ => false end.
Definition ex_sum_ct : client_msg exG := C_party_zero (P0_III_sum (WPt (gen : exG), WPt gen)).
(** the payload server: twice the first message, then the third: the batch 5, 7
    is there twice and the day is over *)
Example ex_C27_twice :
  (let '(s, os) := serve sum [(ex_empty, ex_tape); (ex_empty, ex_tape); (ex_sum_ct, ex_tape)] ex_new in
   forallb is_ok os && (length os =? 3)%nat && (length (contents (sv_my s)) =? 4)%nat
   && (length (filter (Z.eqb 5) (contents (sv_my s))) =? 2)%nat && (sv_day s =? 1)%nat) = true.
Proof. vm_cast_no_check (eq_refl true). Qed.
(** a whole protocol of third messages: both days finished, nothing inserted;
    further requests are refused *)
Example ex_C27_third :
  (let '(s, os) := serve sum [(ex_sum_ct, ex_tape); (ex_sum_ct, ex_tape); (ex_empty, ex_tape)] ex_new in
   match os with [Ok _; Ok _; Err InvalidArgument] => (sv_day s =? 2)%nat && (length (contents (sv_my s)) =? 0)%nat | _ => false end) = true.
Proof. vm_cast_no_check (eq_refl true). Qed.
(** the cardinality server refuses the third message, then handles both days *)
Example ex_C26_run :
  (let '(s, os) := serve ca [(ex_sum_ct, ex_tape); (ex_empty, ex_tape); (ex_empty, ex_tape); (ex_empty, ex_tape)] ex_new in
   match os with [Err InvalidArgument; Ok _; Ok _; Err InvalidArgument] => (sv_day s =? 2)%nat && (length (contents (sv_my s)) =? 3)%nat | _ => false end) = true.
Proof. vm_cast_no_check (eq_refl true). Qed.
Example ex_C26_log : inserted (is_first exG) (no_payload_ends exG) 0 [(ex_sum_ct, Err InvalidArgument); (ex_empty, Ok None); (ex_empty, Ok None)] [0; 1]%nat.
Proof. apply ins_refused; [discriminate|]. apply ins_first; auto. apply ins_first; auto. constructor. Qed.
End Examples.
Print Assumptions C24_finished_refuses.
Print Assumptions C24_deletion.
Print Assumptions C24_original.
Print Assumptions C25_wrong_kind.
Print Assumptions C25_deletion.
Print Assumptions C25_original.
Print Assumptions C26_days.
Print Assumptions C26_batches.
Print Assumptions C26_only_today.
Print Assumptions C26_deletion.
Print Assumptions C26_deletion_psi.
Print Assumptions C26_original.
Print Assumptions C26_original_only_today.
Print Assumptions C27_third_without_first.
Print Assumptions C27_first_twice.
