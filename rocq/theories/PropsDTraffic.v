(** * C62: the traffic report of the programs with deletions. *)
Require Import List Arith Lia ZArith Bool.
Import ListNotations.
From Verif Require Import Prelude TreeModel TreeDelModel Coins Group ElGamalModel BytesModel CipherModel PaillierModel WireModel SyncModel AddModel ServerSpec DelModel DTrafficModel DTrafficSpec DTrafficProofs.
From Verif Require PsiModel.
Local Open Scope Z_scope.

Section Thm.
Variables (Gr : group) (hash : Z -> list bool) (body1 body2 : msg12 Gr -> Z).

(** ** party one *)
Lemma del_step P V q s tp : let '(s', o) := del_handle (Gr := Gr) hash P V q s tp in
  match o with
  | Ok (Some (S_party_one (P1_II r))) => ds_finished s = false /\ ((ds_day s' = S (ds_day s) /\ ds_finished s' = true) \/ (ds_day s' = ds_day s /\ ds_finished s' = false))
  | Ok _ => False
  | _ => ds_day s' = ds_day s /\ ds_finished s' = ds_finished s
  end.
Proof.
  unfold del_handle. destruct (ds_finished s) eqn:F; [auto|]. destruct q as [[m| | |]| |]; auto. destruct (nth_error _ _); auto.
  destruct (del_gen2 _ _ _ _ _ _ _) as [p' [[r t]| | |]]; cbn; auto.
Qed.
Definition del_need (s : dserver) : nat := if ds_finished s then 0 else 1.
Lemma del_need_step P V q s tp : let '(s', o) := del_handle (Gr := Gr) hash P V q s tp in del_need s = (del_need s' + length (replies [o]))%nat.
Proof.
  unfold del_handle, del_need. destruct (ds_finished s) eqn:F; [rewrite F; auto|]. destruct q as [[m| | |]| |]; try (rewrite F; auto; fail). destruct (nth_error _ _); [|rewrite F; auto].
  destruct (del_gen2 _ _ _ _ _ _ _) as [p' [[r t]| | |]]; cbn; auto.
Qed.
Import PsiModel.
Lemma psi_step P V q s tp : let '(s', o) := psi_handle (Gr := Gr) hash P V q s tp in
  match o with
  | Ok (Some (S_party_one (P1_II r))) => ps_finished s = false /\ ((ps_day s' = S (ps_day s) /\ ps_finished s' = true) \/ (ps_day s' = ps_day s /\ ps_finished s' = false))
  | Ok _ => False
  | _ => ps_day s' = ps_day s /\ ps_finished s' = ps_finished s
  end.
Proof.
  unfold psi_handle. destruct (ps_finished s) eqn:F; [auto|]. destruct q as [[m| | |]| |]; auto. destruct (nth_error _ _) as [[dels adds]|]; auto.
  destruct (psi_gen2 _ _ _ _ _ _ _) as [p' [[r t]| | |]]; cbn; auto. split; auto. unfold ps_finish. cbn. destruct (ps_first s); cbn; auto.
Qed.
Definition psi_need (s : pserver) : nat := if ps_finished s then 0 else if ps_first s then 1 else 2.
Lemma psi_need_step P V q s tp : let '(s', o) := psi_handle (Gr := Gr) hash P V q s tp in psi_need s = (psi_need s' + length (replies [o]))%nat.
Proof.
  unfold psi_handle, psi_need. destruct (ps_finished s) eqn:F; [rewrite F; auto|]. destruct q as [[m| | |]| |]; try (rewrite F; destruct (ps_first s); auto; fail).
  destruct (nth_error _ _) as [[dels adds]|]; [|rewrite F; destruct (ps_first s); auto].
  destruct (psi_gen2 _ _ _ _ _ _ _) as [p' [[r t]| | |]]; cbn [ps_finished ps_first]; try (destruct (ps_first s); cbn; auto; fail).
Qed.

Notation reqs_of := (map (fun d : list (client_msg Gr * tape) * bool * Z => fst (fst d))).
Notation counters_of := (map (fun d : list (client_msg Gr * tape) * bool * Z => snd d)).
Notation bytes_of := (map (fun outs => sum (map body2 (replies (Gr := Gr) outs)))).

(** Whatever requests reach the server on each day: if the program gets to the
    end, it answered them as it would without counting, exactly one of each day
    with a reply, and the report is the size of the reply's body on each day,
    and the bytes over the socket. *)
Theorem C62_deletion_party_one P V (s0 : dserver) days setup sent s' mt' log :
  let total := length (ds_data s0) in
  ds_day s0 = 0%nat -> length days = total -> (0 < total)%nat -> length sent = total -> counters_of days = readings setup sent ->
  one_loop body2 (del_handle (Gr := Gr) hash P V) ds_day ds_finished ds_reset 0 days (s0, meter_new total) = Some ((s', mt'), log) ->
  log = answers (del_handle hash P V) ds_reset (reqs_of days) s0
  /\ Forall (fun outs => length (replies outs) = 1%nat) log
  /\ meter_print mt' = Ok (report (bytes_of log) setup sent).
Proof.
  intros total D L T LS CS E.
  assert (CT := loop_counts (del_handle hash P V) ds_finished ds_reset del_need 1 (del_need_step P V) (fun s => eq_refl)).
  assert (CE := E). apply CT in CE; [|intros s F; unfold del_need; rewrite F; auto].
  apply (loop_spec body2 (del_handle hash P V) ds_day ds_finished ds_reset total (del_step P V) (fun s => conj eq_refl eq_refl)) with (bytes := []) (counters := []) in E; [|reflexivity|cbn [length]; lia|exact D|apply so_far_0].
  destruct E as (LG & LL & SF). split; [exact LG|]. split; [exact CE|]. cbn [app snd] in SF. rewrite CS in SF.
  apply so_far_end with (total := total); auto; [rewrite map_length; lia|]. intros X. apply (f_equal (@length Z)) in X. rewrite map_length in X. cbn in X. lia.
Qed.
(** deletion-psi: two replies a day *)
Theorem C62_psi_party_one P V (s0 : pserver) days setup sent s' mt' log :
  let total := length (ps_data s0) in
  ps_day s0 = 0%nat -> length days = total -> (0 < total)%nat -> length sent = total -> counters_of days = readings setup sent ->
  one_loop body2 (psi_handle (Gr := Gr) hash P V) ps_day ps_finished ps_reset 0 days (s0, meter_new total) = Some ((s', mt'), log) ->
  log = answers (psi_handle hash P V) ps_reset (reqs_of days) s0
  /\ Forall (fun outs => length (replies outs) = 2%nat) log
  /\ meter_print mt' = Ok (report (bytes_of log) setup sent).
Proof.
  intros total D L T LS CS E.
  assert (CT := loop_counts (psi_handle hash P V) ps_finished ps_reset psi_need 2 (psi_need_step P V) (fun s => eq_refl)).
  assert (CE := E). apply CT in CE; [|intros s F; unfold psi_need; rewrite F; auto].
  apply (loop_spec body2 (psi_handle hash P V) ps_day ps_finished ps_reset total (psi_step P V) (fun s => conj eq_refl eq_refl)) with (bytes := []) (counters := []) in E; [|reflexivity|cbn [length]; lia|exact D|apply so_far_0].
  destruct E as (LG & LL & SF). split; [exact LG|]. split; [exact CE|]. cbn [app snd] in SF. rewrite CS in SF.
  apply so_far_end with (total := total); auto; [rewrite map_length; lia|]. intros X. apply (f_equal (@length Z)) in X. rewrite map_length in X. cbn in X. lia.
Qed.

(** ** party zero *)
(** Whatever the server answers and the circuits deliver: if the program gets to
    the end, the report is the size of the whole request (of the two requests) of
    each day, and the bytes over the socket. *)
Notation request_bytes := (map (fun ms => sum (map (request_size body1) ms))).
Theorem C62_deletion_party_zero P1 V0 (c0 : dclient) days setup sent tp c' mt' log tp' :
  let total := length (dc_data c0) in
  dc_day c0 = 0%nat -> length days = total -> (0 < total)%nat -> length sent = total -> map snd days = readings setup sent ->
  zero_loop (Gr := Gr) hash body1 P1 V0 0 days (c0, meter_new total) tp = Ok (c', mt', log, tp') ->
  length log = total /\ Forall (fun ms => length ms = 1%nat) log
  /\ meter_print mt' = Ok (report (request_bytes log) setup sent).
Proof.
  intros total D L T LS CS E.
  apply (zero_loop_spec hash body1 P1 V0 total) with (bytes := []) (counters := []) in E; [|reflexivity|cbn [length]; lia|exact D|apply so_far_0].
  destruct E as (LL & F & SF). split; [lia|]. split; [exact F|]. cbn [app snd] in SF. rewrite CS in SF.
  apply so_far_end with (total := total); auto; [rewrite map_length; lia|]. intros X. apply (f_equal (@length Z)) in X. rewrite map_length in X. cbn in X. lia.
Qed.
Theorem C62_psi_party_zero P1 V0 (c0 : pclient) days setup sent tp c' mt' log tp' :
  let total := length (pc_data c0) in
  pc_day c0 = 0%nat -> length days = total -> (0 < total)%nat -> length sent = total -> map snd days = readings setup sent ->
  pzero_loop (Gr := Gr) hash body1 P1 V0 0 days (c0, meter_new total) tp = Ok (c', mt', log, tp') ->
  length log = total /\ Forall (fun ms => length ms = 2%nat) log
  /\ meter_print mt' = Ok (report (request_bytes log) setup sent).
Proof.
  intros total D L T LS CS E.
  apply (pzero_loop_spec hash body1 P1 V0 total) with (bytes := []) (counters := []) in E; [|reflexivity|cbn [length]; lia|exact D|apply so_far_0].
  destruct E as (LL & F & SF). split; [lia|]. split; [exact F|]. cbn [app snd] in SF. rewrite CS in SF.
  apply so_far_end with (total := total); auto; [rewrite map_length; lia|]. intros X. apply (f_equal (@length Z)) in X. rewrite map_length in X. cbn in X. lia.
Qed.

(** The counting parties are the parties of the other theorems: a day of the
    protocol is a run of party zero and one request to party one. *)
Definition from {A} (o : outcome (A * tape)) (a : A) : Prop := exists tp, o = Ok (a, tp).
Theorem C62_same_day P0 P1 V0 V1 c s mt mt1 tp c' s' tp' :
  dc_run (Gr := Gr) hash P0 P1 V0 V1 (c, s) tp = Ok ((c', s'), tp') ->
  exists m r tq mt',
    from (zero_run hash body1 P1 V0 (Ok (S_party_one (P1_II r))) (c, mt) tp) (c', mt', m)
    /\ one_handle body2 (del_handle hash P0 V1) ds_day (C_party_zero (P0_I m)) (s, mt1) tq
       = ((s', meter_add (ds_day s) (body2 r) mt1), Ok (Some (S_party_one (P1_II r)))).
Proof.
  unfold dc_run, zero_run. intros E. destruct (nth_error _ _) as [es|]; [|discriminate].
  apply bind_Ok in E as ([p1 m1] & t1 & G1 & E). apply bind_Ok in E as ([s1 r] & t2 & G2 & E). apply bind_Ok in E as (c1 & t3 & G3 & E). apply ret_Ok in E as (E & _). inversion E; subst c1 s1.
  unfold send in G2. pose proof (del_step P0 V1 (C_party_zero (P0_I m1)) s (fun i => t1 (2 * i)%nat)) as ST.
  destruct (del_handle hash P0 V1 (C_party_zero (P0_I m1)) s (fun i => t1 (2 * i)%nat)) as [s1 o] eqn:HD. destruct o as [[[[q| |]| |]|]| | |]; try discriminate; try contradiction.
  injection G2 as <- <- <-. apply lift_Ok in G3 as (G3 & _).
  exists m1, q, (fun i => t1 (2 * i)%nat), (meter_add (dc_day c) (request_size body1 m1) mt). split; [|unfold one_handle; cbn [fst snd]; rewrite HD; auto].
  exists t1. unfold bind, lift, ret. rewrite G1. cbn beta iota. rewrite G3. auto.
Qed.
Theorem C62_same_half P0 P1 V0 V1 es c s mt mt1 tp c' s' tp' :
  exchange (Gr := Gr) hash P0 P1 V0 V1 es (c, s) tp = Ok ((c', s'), tp') ->
  exists m r tq mt',
    from (pzero_half hash body1 P1 V0 es (Ok (S_party_one (P1_II r))) (c, mt) tp) (c', mt', m)
    /\ one_handle body2 (psi_handle hash P0 V1) ps_day (C_party_zero (P0_I m)) (s, mt1) tq
       = ((s', meter_add (ps_day s) (body2 r) mt1), Ok (Some (S_party_one (P1_II r)))).
Proof.
  unfold exchange, pzero_half. intros E.
  apply bind_Ok in E as ([p1 m1] & t1 & G1 & E). apply bind_Ok in E as ([s1 r] & t2 & G2 & E). apply bind_Ok in E as (c1 & t3 & G3 & E). apply ret_Ok in E as (E & _). inversion E; subst c1 s1.
  unfold send in G2. pose proof (psi_step P0 V1 (C_party_zero (P0_I m1)) s (fun i => t1 (2 * i)%nat)) as ST.
  destruct (psi_handle hash P0 V1 (C_party_zero (P0_I m1)) s (fun i => t1 (2 * i)%nat)) as [s1 o] eqn:HD. destruct o as [[[[q| |]| |]|]| | |]; try discriminate; try contradiction.
  injection G2 as <- <- <-. apply lift_Ok in G3 as (G3 & _).
  exists m1, q, (fun i => t1 (2 * i)%nat), (meter_add (pc_day c) (request_size body1 m1) mt). split; [|unfold one_handle; cbn [fst snd]; rewrite HD; auto].
  exists t1. unfold bind, lift, ret. rewrite G1. cbn beta iota. rewrite G3. auto.
Qed.
End Thm.

(** ** the numbers *)
(** Without overflow the report is exact. *)
Theorem C62_exact bytes setup sent : fits bytes setup sent -> report bytes setup sent = exact_report bytes setup sent.
Proof. apply report_exact. Qed.
(** Party one does not count the fields around its reply: from 4 to 12 bytes for replies below 2^31 bytes. *)
Theorem C62_undercount b : 0 <= b < 2 ^ 31 -> b + 4 <= field_size (field_size b) <= b + 12.
Proof.
  assert (V : forall f n, 0 <= n -> 1 <= varint_size f n).
  { induction f; intros n N; cbn [varint_size]; [lia|]. destruct (n <? 128); [lia|]. specialize (IHf (n / 128) ltac:(apply Z.div_pos; lia)). lia. }
  assert (U0 : forall k f n, 0 <= n < 128 ^ Z.of_nat (S k) -> varint_size f n <= Z.of_nat (S k)).
  { induction k; intros [|f] n N; [cbn; lia|change (128 ^ Z.of_nat 1) with 128 in N; cbn [varint_size]; destruct (Z.ltb_spec n 128); lia| |]; cbn [varint_size]; try lia; destruct (Z.ltb_spec n 128); try lia.
    assert (X : varint_size f (n / 128) <= Z.of_nat (S k)); [|lia]. apply IHk. split; [apply Z.div_pos; lia|]. apply Z.div_lt_upper_bound; [lia|].
    replace (Z.of_nat (S (S k))) with (Z.of_nat (S k) + 1) in N by lia. rewrite Z.pow_add_r in N by lia. lia. }
  assert (U : forall n, 0 <= n < 2 ^ 32 -> varint_size 9 n <= 5) by (intros n N; apply (U0 4%nat); split; [lia|]; apply (Z.lt_trans _ (2 ^ 32)); [lia|reflexivity]).
  intros B. unfold field_size. pose proof (V 9%nat b ltac:(lia)). pose proof (U b ltac:(lia)). set (x := 1 + varint_size 9 b + b) in *.
  pose proof (V 9%nat x ltac:(lia)). pose proof (U x ltac:(lia)). lia.
Qed.
(** A program run for no day at all reads outside a vector when it prints. *)
Theorem C62_no_days : meter_print (meter_new 0) = UB.
Proof. reflexivity. Qed.

(** ** Examples: request bodies of 10 bytes, reply bodies of 7; refused requests
    do not count; 100 bytes of set-up, 5 and 6 bytes over the socket on two days *)
From Verif Require Import BigPrime PropsAdd PropsDel.
Section Examples.
Definition exm : msg12 exG := mkMsg (mkUpdate [] []) [].
Definition exq : client_msg exG := C_party_zero (P0_I exm).
Definition ext : tape := fun i => 123456 + Z.of_nat i.
Definition ex_check (o : outcome (list (Z * Z) * Z)) (w : list (Z * Z) * Z) : bool :=
  match o with
  | Ok (l, t) => (t =? snd w) && (length l =? length (fst w))%nat && forallb (fun p => (fst (fst p) =? fst (snd p)) && (snd (fst p) =? snd (snd p))) (combine l (fst w))
  | _ => false
  end.
Definition exs0 : dserver := mkDS (party_new 1 1) [[]; []] 0 false.
Example ex_C62_deletion_party_one :
  match one_loop (fun _ => 7) (del_handle ex_hash exk0P exk1V) ds_day ds_finished ds_reset 0
      [([(C_unset, ext); (exq, ext); (exq, ext)], true, 105); ([(exq, ext)], true, 111)] (exs0, meter_new 2) with
  | Some ((_, mt), _) => ex_check (meter_print mt) ([(7, 105); (7, 6)], 125)
  | None => false
  end = true.
Proof. vm_cast_no_check (eq_refl true). Qed.
Example ex_C62_readings : readings 100 [5; 6] = [105; 111]. Proof. reflexivity. Qed.
Example ex_C62_psi_party_one :
  match one_loop (fun _ => 7) (PsiModel.psi_handle ex_hash exk0P exk1V) PsiModel.ps_day PsiModel.ps_finished PsiModel.ps_reset 0
      [([(C_unset, ext); (exq, ext); (exq, ext)], true, 105); ([(exq, ext); (exq, ext); (exq, ext)], true, 111)]
      (PsiModel.mkPS (PsiModel.pparty_new 1 1) [([], []); ([], [])] 0 false false, meter_new 2) with
  | Some ((_, mt), _) => ex_check (meter_print mt) ([(14, 105); (14, 6)], 139)
  | None => false
  end = true.
Proof. vm_cast_no_check (eq_refl true). Qed.
Example ex_C62_deletion_party_zero :
  match zero_loop (Gr := exG) ex_hash (fun _ => 10) exk1P exk0V 0
      [(Ok (S_party_one (P1_II exm)), Ok 3, 105); (Ok (S_party_one (P1_II exm)), Ok 2, 111)] (mkDC (party_new 1 1) [[]; []] 0 2 0, meter_new 2) ext with
  | Ok (c, mt, _, _) => (dc_result c =? 5) && ex_check (meter_print mt) ([(14, 105); (14, 6)], 139)
  | _ => false
  end = true.
Proof. vm_cast_no_check (eq_refl true). Qed.
Example ex_C62_psi_party_zero :
  match pzero_loop (Gr := exG) ex_hash (fun _ => 10) exk1P exk0V 0
      [((Ok (S_party_one (P1_II exm)), Ok (S_party_one (P1_II exm))), Ok [], 105)] (PsiModel.mkPC (PsiModel.pparty_new 1 1) [([], [])] 0 1 0 [], meter_new 1) ext with
  | Ok (_, mt, _, _) => ex_check (meter_print mt) ([(28, 105)], 133)
  | _ => false
  end = true.
Proof. vm_cast_no_check (eq_refl true). Qed.
Example ex_C62_fits : fits [7; 7] 100 [5; 6].
Proof. repeat split; repeat constructor; cbn; lia. Qed.
End Examples.
Print Assumptions C62_deletion_party_one.
Print Assumptions C62_psi_party_one.
Print Assumptions C62_deletion_party_zero.
Print Assumptions C62_psi_party_zero.
Print Assumptions C62_same_day.
Print Assumptions C62_same_half.
Print Assumptions C62_undercount.
