(** The deletion protocol (CA and SUM) over many days. *)
Require Import List Arith Lia ZArith Permutation Bool Znumtheory.
Import ListNotations.
From Verif Require Import Prelude TreeModel TreeSpec TreeHistory TreeDelModel TreeDelSpec TreeDelProofs Coins Group ElGamalModel BytesModel BytesProofs PropsBytes ContextModel CipherModel NumTheory PaillierModel PaillierProofs PropsPaillier WireModel WireProofs PropsWire SyncModel SyncSpec SyncProofs KindProofs AddModel AddSpec AddProofs AddRun DelModel DelSpec DelProofs.
Local Open Scope Z_scope.

Lemma filter_none {A} (p : A -> bool) l : (forall x, In x l -> p x = false) -> filter p l = [].
Proof. induction l; intros H; cbn; auto. rewrite H by (left; auto). apply IHl. intros; apply H; right; auto. Qed.

(** ** pieces shared with deletion-psi *)
Section Pieces.
Context {Gr : group}.
Variable hash : Z -> list bool.
Hypothesis hash_len : forall x, length (hash x) = 256%nat.

Lemma del_sync p q fl V es ts tr cnt tp : priv_new fl p q 1 = Ok V ->
  reach (hash_entry hash) ts cnt -> mirrors (del_rep (p * q)) pad_entry ts tr -> int_range (cnt + length es) ->
  let '(ts', o) := del_update (Gr := Gr) hash V es ts tp in
  reach (hash_entry hash) ts' (cnt + length es) /\
  match o with
  | Ok (u, _) => exists tr', recv_update deser_deletion u tr = Ok tr' /\ mirrors (del_rep (p * q)) pad_entry ts' tr'
  | Err _ => True | _ => False
  end.
Proof.
  intros HV R MI IR. unfold del_update. assert (EN : pv_n V = p * q) by (apply priv_new_spec in HV; tauto). rewrite EN.
  pose proof (sync_step (hash_entry hash) (insert_del hash) pad_payload (enc_deletion (p * q) (priv_encrypt V)) ser_deletion (@deser_deletion Gr) (del_rep (p * q)) pad_entry) as X.
  specialize (X (fun x => hash_len (fst x)) (ins_like_insert_del hash hash_len)).
  specialize (X (fun x H => conj H eq_refl)).
  match type of X with ?Q -> _ => assert (H1 : Q) end.
  { intros a t. pose proof (enc_deletion_ok V p q fl a t HV) as Y. destruct (enc_deletion (p * q) (priv_encrypt V) a t) as [[c ?]| | |]; auto. }
  specialize (X H1).
  match type of X with ?Q -> _ => assert (H2 : Q) end.
  { intros a c (_ & (B & _) & (B' & _)). destruct (@ser_deletion_ok Gr c) as (w & E & E'); try lia. rewrite E. auto. }
  specialize (X H2 es ts tr cnt tp R MI IR). destruct (send_update _ _ _ _ es ts tp) as [ts' o].
  destruct X as (X1 & _ & _ & X4). auto.
Qed.
Lemma path_net t cnt x : reach (hash_entry hash) t cnt -> int_range cnt -> net x (get_path (hash x) t) = net x (contents t).
Proof.
  intros R IR.
  assert (P : Permutation (filter (fun e => fst e =? x) (get_path (hash x) t)) (filter (fun e => fst e =? x) (contents t))).
  { apply (placed_filter_path (hash_entry hash)).
    - apply R.
    - intros y. unfold hash_entry. rewrite hash_len. pose proof (depth_bound _ _ (r_min _ _ _ R) IR). lia.
    - intros y Hy. apply Z.eqb_eq in Hy. unfold hash_entry. congruence. }
  assert (F : forall l, net x (filter (fun e => fst e =? x) l) = net x l).
  { induction l as [|e l IH]; [reflexivity|]. cbn [filter]. destruct (fst e =? x) eqn:EE; rewrite !net_cons, EE, IH; auto. }
  rewrite <- F, (net_perm _ _ _ P), F. auto.
Qed.
(** candidates on the wire *)
Lemma wire_items items ps n (V : priv) : Forall2 (item_ok n V) items ps ->
  exists ws, omap (only_paillier (Gr := Gr)) (map g_c items) = Ok ws /\ omap (@deser_cand_only_paillier Gr) ws = Ok (map g_c items).
Proof.
  induction 1 as [|it p items ps (_ & _ & PC) F (ws & E1 & E2)]; [exists []; auto|].
  cbn [map omap]. unfold only_paillier at 1. destruct (to_bytes_of _ PC) as (b & E & E'). rewrite E. cbn [obind]. rewrite E1. cbn [obind].
  eexists. split; [reflexivity|]. cbn [omap deser_cand_only_paillier]. cbn [obind]. rewrite E'. rewrite E2. cbn. auto.
Qed.
Lemma decrypt_items items ps n (V : priv) : Forall2 (item_ok n V) items ps -> combine_responder V (map g_c items) = Ok (map snd ps).
Proof.
  unfold combine_responder. induction 1 as [|it p items ps (_ & D & _) F IH]; [reflexivity|].
  cbn [map omap]. rewrite D. cbn [obind]. rewrite IH. reflexivity.
Qed.
End Pieces.

Lemma mod_sum4 m r a b c d : m <> 0 ->
  (r + (((a mod m + d mod m) mod m) + ((b mod m + c mod m) mod m)) mod m) mod m = (r + (a + b) + (c + d)) mod m.
Proof.
  intros H. apply eqm_iff; auto. apply eqm_trans with (r + ((a + d) + (b + c))); [|exists 0; ring].
  apply eqm_add; [apply eqm_refl|]. eapply eqm_trans; [apply eqm_mod; auto|].
  apply eqm_add; (eapply eqm_trans; [apply eqm_mod; auto|]; apply eqm_add; apply eqm_mod; auto).
Qed.
Section Del.
Context {Gr : group}.
Variable hash : Z -> list bool.
Variable ci : Z -> outcome (list bool).
Hypothesis hash_len : forall x, length (hash x) = 256%nat.
Variables (p0 q0 p1 q1 : Z) (P0 P1 : pub) (V0 V1 : priv).
Hypothesis KP0 : paillier_pair p0 q0 P0 V0.
Hypothesis KP1 : paillier_pair p1 q1 P1 V1.
Let n0 := p0 * q0.
Let n1 := p1 * q1.
Variables (d0 d1 : list (list entry)).
Hypothesis LEN : length d1 = length d0.
Hypothesis PR0 : proper_signed n1 d0.
Hypothesis PR1 : proper_signed n0 d1.
(** the first [o] batches are not among the days of the run: they are in the
    trees the parties start with *)
Variable o : nat.
(** what a batch receives from a tree *)
Definition against (t : tree entry) (es : list entry) : Z := total (map (fun e => snd e * net (fst e) (get_path (hash (fst e)) t)) es).

Record dinv (k : nat) (c : dclient) (s : dserver) : Prop := {
  di_reach0 : reach (hash_entry hash) (pt_my (dc_party c)) (length (upto k d0));
  di_reach1 : reach (hash_entry hash) (pt_my (ds_party s)) (length (upto k d1));
  di_mir0 : mirrors (del_rep n0) pad_entry (pt_my (dc_party c)) (pt_other (ds_party s));
  di_mir1 : mirrors (del_rep n1) pad_entry (pt_my (ds_party s)) (pt_other (dc_party c));
  di_day0 : (o + dc_day c = k)%nat; di_day1 : (o + ds_day s = k)%nat; di_tot : (o + dc_total c = length d0)%nat;
  di_dat0 : dc_data c = skipn o d0; di_dat1 : ds_data s = skipn o d1 }.
Lemma nth_error_skipn' {A} (m : nat) : forall (l : list A) i, nth_error (skipn m l) i = nth_error l (m + i).
Proof. induction m as [|m IH]; intros [|x l] i; cbn; auto. destruct i; auto. Qed.

Lemma KN0 : keyed n0 P0 V0. Proof. apply pair_keyed; auto. Qed.
Lemma KN1 : keyed n1 P1 V1. Proof. apply pair_keyed; auto. Qed.
Lemma sane_batch n d k es : proper_signed n d -> nth_error d k = Some es -> Forall (sane n) es.
Proof.
  intros (F & _) E. apply nth_error_In in E. apply Forall_forall. intros e He. rewrite Forall_forall in F. apply F. apply in_concat. eauto.
Qed.

Lemma run_step k c s tp : (k < length d0)%nat -> dinv k c s ->
  match dc_run (Gr := Gr) hash P0 P1 V0 V1 (c, ds_reset s) tp with
  | Ok ((c', s'), _) => dinv (S k) c' s' /\ dc_result c' = dc_result c /\
      exists i0 ps0 i1 ps1,
        pt_x (dc_party c') = map g_x i0 /\ pt_z (dc_party c') = map g_z i0 /\ pt_y (ds_party s') = map snd ps0 /\
        pt_x (ds_party s') = map g_x i1 /\ pt_z (ds_party s') = map g_z i1 /\ pt_y (dc_party c') = map snd ps1 /\
        Forall2 (item_ok n1 V1) i0 ps0 /\ msum i0 ps0 = against (pt_my (ds_party s)) (nth k d0 []) /\
        Forall2 (item_ok n0 V0) i1 ps1 /\ msum i1 ps1 = against (pt_my (dc_party c')) (nth k d1 [])
  | Err _ => True | _ => False end.
Proof.
  intros LK [R0 R1 M0 M1 D0 D1 TT A0 A1].
  destruct (nth_error d0 k) as [es0|] eqn:E0. 2:{ apply nth_error_None in E0. lia. }
  destruct (nth_error d1 k) as [es1|] eqn:E1. 2:{ apply nth_error_None in E1. lia. }
  assert (N0 : nth k d0 [] = es0) by (apply nth_error_nth with (d := []) in E0; auto).
  assert (N1 : nth k d1 [] = es1) by (apply nth_error_nth with (d := []) in E1; auto).
  assert (S0 := sane_batch _ _ _ _ PR0 E0). assert (S1 := sane_batch _ _ _ _ PR1 E1).
  assert (L0 : length (upto (S k) d0) = (length (upto k d0) + length es0)%nat) by (rewrite upto_S, app_length, N0; auto).
  assert (L1 : length (upto (S k) d1) = (length (upto k d1) + length es1)%nat) by (rewrite upto_S, app_length, N1; auto).
  assert (IR0 : int_range (length (upto (S k) d0))) by (apply upto_range; apply PR0).
  assert (IR1 : int_range (length (upto (S k) d1))) by (apply upto_range; apply PR1).
  rewrite L0 in IR0. rewrite L1 in IR1.
  destruct KP0 as (_ & fl0 & HV0). destruct KP1 as (_ & fl1 & HV1).
  assert (E0' : nth_error (skipn o d0) (dc_day c) = Some es0) by (rewrite nth_error_skipn', D0; auto).
  assert (E1' : nth_error (skipn o d1) (ds_day s) = Some es1) by (rewrite nth_error_skipn', D1; auto).
  unfold dc_run. rewrite A0, E0'.
  unfold bind at 1. unfold del_gen1. cbn [pt_my pt_other reset_gc pt_x pt_y pt_z app].
  pose proof (del_sync (Gr := Gr) hash hash_len p0 q0 fl0 V0 es0 (pt_my (dc_party c)) (pt_other (ds_party s)) _ tp HV0 R0 M0 IR0) as X.
  destruct (del_update hash V0 es0 (pt_my (dc_party c)) tp) as [my0' ou]. destruct X as (R0' & X).
  unfold bind at 1. destruct ou as [[u0 tp1]| | |]; auto. destruct X as (other1 & U1 & M0').
  unfold bind at 1. pose proof (initiate_spec hash n1 P1 V1 KN1 es0 _ _ tp1 S0 M1) as I0.
  destruct (initiate hash P1 es0 (pt_other (dc_party c)) tp1) as [[i0 tp2]| | |]; auto. destruct I0 as (ps0 & F0 & Q0).
  destruct (wire_items (Gr := Gr) i0 ps0 n1 V1 F0) as (ws0 & W1 & W2). unfold bind at 1. unfold lift at 1. rewrite W1. unfold ret at 1.
  (* the server *)
  unfold bind at 1. unfold send, del_handle. cbn [ds_finished ds_reset ds_data ds_day ds_party]. rewrite A1, E1'.
  unfold del_gen2, del_receive. cbn [pt_my pt_other reset_gc pt_x pt_y pt_z m_updates m_cands mkMsg app]. rewrite U1, W2. cbn [obind].
  rewrite (decrypt_items _ _ _ _ F0). cbn [pt_my pt_other pt_x pt_y pt_z].
  set (tps := fun i => tp2 (2 * i)%nat).
  pose proof (del_sync (Gr := Gr) hash hash_len p1 q1 fl1 V1 es1 (pt_my (ds_party s)) (pt_other (dc_party c)) _ tps HV1 R1 M1 IR1) as X.
  destruct (del_update hash V1 es1 (pt_my (ds_party s)) tps) as [my1' ou]. destruct X as (R1' & X).
  unfold bind at 1. destruct ou as [[u1 tp3]| | |]; auto. destruct X as (other0 & U0 & M1').
  unfold bind at 1. pose proof (initiate_spec hash n0 P0 V0 KN0 es1 _ _ tp3 S1 M0') as I1.
  destruct (initiate hash P0 es1 other1 tp3) as [[i1 tp4]| | |]; auto. destruct I1 as (ps1 & F1 & Q1).
  destruct (wire_items (Gr := Gr) i1 ps1 n0 V0 F1) as (ws1 & W3 & W4). unfold bind at 1. unfold lift at 1. rewrite W3. unfold ret at 1.
  (* back at the client *)
  unfold bind, lift, dc_handle. cbn [dc_total dc_day dc_party dc_data dc_result]. destruct (Nat.leb_spec (dc_total c) (dc_day c)); [lia|].
  unfold del_receive. cbn [pt_my pt_other pt_x pt_y pt_z m_updates m_cands mkMsg]. rewrite U0, W4. cbn [obind].
  rewrite (decrypt_items _ _ _ _ F1). cbn [app]. unfold ret.
  split; [|split; [reflexivity|]].
  - constructor; cbn [dc_party ds_party pt_my pt_other dc_day ds_day dc_total dc_data ds_data]; auto; congruence || lia.
  - exists i0, ps0, i1, ps1. cbn [dc_party ds_party pt_my pt_other pt_x pt_y pt_z]. rewrite N0, N1.
    do 6 (split; [reflexivity|]). auto.
Qed.

Lemma day_step k c s rr tp : (k < length d0)%nat -> dinv k c s ->
  match del_day (Gr := Gr) hash ci P0 P1 V0 V1 (c, s, rr) tp with
  | Ok ((c', s', (r0, r1)), _) => dinv (S k) c' s' /\
      (0 <= fst r0 < n1 /\ 0 <= snd r0 < n1 /\ (told_apart ci (pt_x (dc_party c')) (pt_y (ds_party s')) -> eqm n1 (fst r0 + snd r0) (against (pt_my (ds_party s)) (nth k d0 [])))) /\
      (0 <= fst r1 < n0 /\ 0 <= snd r1 < n0 /\ (told_apart ci (pt_x (ds_party s')) (pt_y (dc_party c')) -> eqm n0 (fst r1 + snd r1) (against (pt_my (dc_party c')) (nth k d1 [])))) /\
      dc_result c' = (dc_result c + (centered n1 (fst r0) + centered n1 (snd r0)) + (centered n0 (fst r1) + centered n0 (snd r1))) mod 2 ^ 64
  | Err _ => True | _ => ~ (forall x, returns (ci x)) end.
Proof.
  intros LK I. unfold del_day. cbn [fst snd]. unfold bind at 1.
  pose proof (run_step k c s tp LK I) as X. destruct (dc_run hash P0 P1 V0 V1 (c, ds_reset s) tp) as [[[c1 s1] tp1]| | |]; auto; try tauto.
  destruct X as (I' & RS & i0 & ps0 & i1 & ps1 & X1 & X2 & X3 & X4 & X5 & X6 & F0 & Q0 & F1 & Q1).
  unfold bind at 1. unfold del_circuits. rewrite X1, X2, X3, X4, X5, X6.
  unfold bind at 1. pose proof (gc_sums_spec hash ci n1 P1 V1 KN1 false i0 ps0 tp1 F0) as G0.
  destruct (gc_sums ci P1 V1 false _ _ _ tp1) as [[[s0 t1] tp2]| | |]; auto. destruct G0 as (B1 & B2 & G0).
  unfold bind at 1. pose proof (gc_sums_spec hash ci n0 P0 V0 KN0 true i1 ps1 tp2 F1) as G1.
  destruct (gc_sums ci P0 V0 true _ _ _ tp2) as [[[ss1 t0] tp3]| | |]; auto. destruct G1 as (B3 & B4 & G1).
  assert (EN0 : pp_n P0 = n0) by apply KN0. assert (EN1 : pp_n P1 = n1) by apply KN1. rewrite EN0, EN1. cbn [fst snd].
  rewrite !to_share_spec by auto. unfold bind, lift, ret. cbn [fst snd].
  split. { destruct I' as [? ? ? ? ? ? ? ? ?]. constructor; cbn [dc_party dc_day dc_total dc_data]; auto. }
  cbn [dc_party dc_result]. rewrite X1, X3, X4, X6, <- Q0, <- Q1.
  split; [auto|]. split; [auto|].
  rewrite RS. apply mod_sum4. lia.
Qed.

(** ** the trace of a run *)
Definition good_day (j : nat) (st : dclient * dserver * (round * round)) : Prop :=
  let '(c, s, (r0, r1)) := st in
  holds (pt_my (dc_party c)) (upto (S j) d0) /\ holds (pt_my (ds_party s)) (upto (S j) d1) /\
  told_apart ci (pt_x (dc_party c)) (pt_y (ds_party s)) /\ told_apart ci (pt_x (ds_party s)) (pt_y (dc_party c)) /\
  undisturbed n1 (fst r0) (inner (nth j d0 []) (upto j d1)) /\ undisturbed n0 (fst r1) (inner (nth j d1 []) (upto (S j) d0)).

Lemma against_inner t h k es : reach (hash_entry hash) t k -> int_range k -> holds t h -> against t es = inner es h.
Proof.
  intros R IR H. unfold against. rewrite inner_sum. f_equal. apply map_ext. intros e.
  rewrite (path_net hash hash_len t k _ R IR), H. auto.
Qed.
Lemma inner_day j : inner (upto (S j) d0) (upto (S j) d1)
  = inner (upto j d0) (upto j d1) + inner (nth j d0 []) (upto j d1) + inner (nth j d1 []) (upto (S j) d0).
Proof.
  rewrite (inner_comm (nth j d1 [])), (upto_S j d1), inner_app_r. rewrite (upto_S j d0) at 1. rewrite inner_app_l. ring.
Qed.

Lemma trace_spec (base : Z) : forall k j c s rr tp, (j + k <= length d0)%nat -> dinv j c s ->
  match run_trace (del_day (Gr := Gr) hash ci P0 P1 V0 V1) k (c, s, rr) tp with
  | Ok (trace, _) => length trace = k /\
      (forall i c' s' r', nth_error trace i = Some (c', s', r') -> dinv (S (j + i)) c' s') /\
      (holds (pt_my (dc_party c)) (upto j d0) -> holds (pt_my (ds_party s)) (upto j d1) ->
       dc_result c = (inner (upto j d0) (upto j d1) - base) mod 2 ^ 64 ->
       forall i c' s' r', nth_error trace i = Some (c', s', r') ->
         (forall i' st, (i' <= i)%nat -> nth_error trace i' = Some st -> good_day (j + i') st) ->
         dc_result c' = (inner (upto (S (j + i)) d0) (upto (S (j + i)) d1) - base) mod 2 ^ 64)
  | Err _ => True | _ => ~ (forall x, returns (ci x)) end.
Proof.
  induction k as [|k IH]; intros j c s rr tp LE I; cbn [run_trace].
  - split; [reflexivity|]. split; [intros i; destruct i; discriminate|]. intros _ _ _ i; destruct i; discriminate.
  - unfold bind at 1. pose proof (day_step j c s rr tp ltac:(lia) I) as X.
    destruct (del_day hash ci P0 P1 V0 V1 (c, s, rr) tp) as [[[[c1 s1] [r0 r1]] tp1]| | |]; auto.
    destruct X as (I' & (B1 & B2 & G0) & (B3 & B4 & G1) & RS).
    unfold bind at 1. specialize (IH (S j) c1 s1 (r0, r1) tp1 ltac:(lia) I').
    destruct (run_trace _ k _ tp1) as [[trace tp2]| | |]; auto. destruct IH as (L & DI & OUT). unfold ret.
    split; [cbn; lia|]. split.
    { intros [|i] c' s' r' E; cbn [nth_error] in E.
      - inversion E; subst. rewrite Nat.add_0_r. auto.
      - replace (j + S i)%nat with (S j + i)%nat by lia. eapply DI; eauto. }
    intros H0 H1 HR i c' s' r' E GD.
    assert (GD0 : good_day j (c1, s1, (r0, r1))) by (specialize (GD 0%nat _ ltac:(lia) eq_refl); rewrite Nat.add_0_r in GD; auto).
    destruct GD0 as (HO0 & HO1 & T0 & T1 & U0 & U1).
    assert (R1 : dc_result c1 = (inner (upto (S j) d0) (upto (S j) d1) - base) mod 2 ^ 64).
    { pose proof KN0 as (K0 & _). pose proof KN1 as (K1 & _).
      specialize (G0 T0). specialize (G1 T1).
      rewrite (against_inner _ _ _ _ (di_reach1 _ _ _ I) (upto_range _ _ (proj2 PR1)) H1) in G0.
      rewrite (against_inner _ _ _ _ (di_reach0 _ _ _ I') (upto_range _ _ (proj2 PR0)) HO0) in G1.
      rewrite RS. rewrite (centered_sum n1 _ _ _ B1 B2 ltac:(lia) G0 U0), (centered_sum n0 _ _ _ B3 B4 ltac:(lia) G1 U1).
      rewrite inner_day, HR. rewrite <- !Z.add_assoc, Zplus_mod_idemp_l. f_equal. ring. }
    destruct i as [|i]; cbn [nth_error] in E.
    + inversion E; subst. rewrite Nat.add_0_r. auto.
    + replace (S (j + S i)) with (S (S j + i)) by lia. eapply OUT; eauto.
      intros i' st Hi Est. replace (S j + i')%nat with (j + S i')%nat by lia. apply GD; [lia|]. auto.
Qed.
Lemma dinv_start ss ns : o = O -> dinv 0 (fst (fst (del_start ss ns d0 d1))) (snd (fst (del_start ss ns d0 d1))).
Proof. intros EO. constructor; cbn [del_start fst snd dc_party ds_party party_new pt_my pt_other dc_day ds_day dc_total dc_data ds_data]; try apply reach_new; try apply mirrors_new; rewrite EO; auto. Qed.
Lemma holds_new ss ns : holds (tree_new ss ns) [].
Proof. intros x. reflexivity. Qed.
End Del.

(** ** how often a share disturbs the result *)
Lemma undisturbed_iff n h s v : n = 2 * h + 1 -> 0 <= s < n -> - n < 2 * v <= n ->
  (undisturbed n s v <-> ~ (if 0 <=? v then h + 1 <= s <= h + v else h + v + 1 <= s <= h)).
Proof.
  intros E Hs Hv. unfold undisturbed, centered. destruct (Z.ltb_spec n (2 * s)), (Z.leb_spec 0 v); lia.
Qed.
Lemma count_interval m : forall a b, 0 <= a -> a <= b + 1 -> b < Z.of_nat m ->
  Z.of_nat (length (filter (fun s => (a <=? s) && (s <=? b)) (map Z.of_nat (seq 0 m)))) = b - a + 1.
Proof.
  induction m as [|m IH]; intros a b Ha Hab Hb; [cbn in *; lia|].
  rewrite seq_S, map_app, filter_app, app_length, Nat2Z.inj_add. cbn [map Nat.add filter].
  destruct (Z.leb_spec (Z.of_nat m) b).
  - assert (b = Z.of_nat m) by lia. subst b. destruct (Z.leb_spec a (Z.of_nat m)); cbn [andb length].
    + erewrite filter_ext_in.
      * rewrite (IH a (Z.of_nat m - 1)) by lia. cbn. lia.
      * intros s Hs. apply in_map_iff in Hs as (i & <- & Hi). apply in_seq in Hi. cbv beta. f_equal. destruct (Z.leb_spec (Z.of_nat i) (Z.of_nat m)), (Z.leb_spec (Z.of_nat i) (Z.of_nat m - 1)); lia.
    + replace (filter _ (map Z.of_nat (seq 0 m))) with (@nil Z); [cbn; lia|]. symmetry.
      apply (filter_none _ (map Z.of_nat (seq 0 m))). intros s Hs. apply in_map_iff in Hs as (i & <- & Hi). apply in_seq in Hi. destruct (Z.leb_spec a (Z.of_nat i)); lia.
  - rewrite andb_false_r. cbn [length]. rewrite (IH a b) by lia. lia.
Qed.
