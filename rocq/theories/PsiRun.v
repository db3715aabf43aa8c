(** deletion-psi over many days. *)
Require Import List Arith Lia ZArith Permutation Bool Znumtheory.
Import ListNotations.
From Verif Require Import Prelude TreeModel TreeSpec TreeHistory TreeDelModel TreeDelSpec TreeDelProofs Coins Group ElGamalModel BytesModel BytesProofs PropsBytes ContextModel CipherModel NumTheory PaillierModel PaillierProofs PropsPaillier WireModel WireProofs PropsWire SyncModel SyncSpec SyncProofs KindProofs AddModel AddSpec AddProofs AddRun DelModel DelSpec DelProofs DelRun PsiModel PsiSpec PsiSets.
Local Open Scope Z_scope.

Definition gsum (IT : list (list (Z * Z * Z))) (PS : list (list (Z * Z))) : list Z := map (fun p => msum (fst p) (snd p)) (combine IT PS).
Lemma gsum_app I1 P1 I2 P2 : length I1 = length P1 -> gsum (I1 ++ I2) (P1 ++ P2) = gsum I1 P1 ++ gsum I2 P2.
Proof. intros L. unfold gsum. rewrite combine_app, map_app; auto. Qed.

Section Groups.
Context {Gr : group}.
Variable hash : Z -> list bool.
Variable ci : Z -> outcome (list bool).
Variables (n : Z) (P : pub) (V : priv).
Hypothesis K : keyed n P V.

Lemma pinitiate_spec es t other : Forall (sane n) es -> mirrors (del_rep n) pad_entry t other -> forall tp,
  match pinitiate hash P es other tp with
  | Ok (IT, _) => exists PS, Forall2 (Forall2 (item_ok n V)) IT PS /\ gsum IT PS = map (fun e => snd e * net (fst e) (get_path (hash (fst e)) t)) es
  | Err _ => True | _ => False end.
Proof.
  intros FS MI. unfold pinitiate. induction FS as [|e es SE FS IH]; intros tp; cbn [mapM].
  - exists []. split; [constructor|reflexivity].
  - unfold bind at 1. pose proof (combine_initiator_spec hash n P V K e t other tp SE MI) as X.
    destruct (combine_initiator hash P other e tp) as [[items tp1]| | |]; auto. destruct X as (p1 & G1 & S1).
    unfold bind. specialize (IH tp1). destruct (mapM _ es tp1) as [[l tp2]| | |]; auto. destruct IH as (p2 & G2 & S2).
    exists (p1 :: p2). split; [constructor; auto|]. unfold gsum in *. cbn [combine map fst snd]. rewrite S1, S2. auto.
Qed.
Lemma wire_groups IT PS : Forall2 (Forall2 (item_ok n V)) IT PS ->
  exists ws, omap (fun l => omap (only_paillier (Gr := Gr)) (map g_c l)) IT = Ok ws /\
    omap (omap (@deser_cand_only_paillier Gr)) ws = Ok (map (map g_c) IT) /\ omap (combine_responder V) (map (map g_c) IT) = Ok (map (map snd) PS).
Proof.
  induction 1 as [|i ps IT PS F FF (ws & E1 & E2 & E3)]; [exists []; auto|].
  destruct (wire_items (Gr := Gr) i ps n V F) as (w & W1 & W2).
  exists (w :: ws). cbn [omap map]. rewrite W1, E1. cbn [obind]. split; [auto|]. rewrite W2, E2. cbn [obind]. split; [auto|].
  rewrite (decrypt_items _ _ _ _ F). cbn [obind]. rewrite E3. auto.
Qed.
(** the sums of all groups *)
Definition told_apart_groups (xs ys : list (list Z)) : Prop := Forall2 (told_apart ci) xs ys.
Lemma gc_groups_spec alice IT PS : Forall2 (Forall2 (item_ok n V)) IT PS -> forall tp,
  match gc_groups ci P V alice (map (map g_x) IT) (map (map g_z) IT) (map (map snd) PS) tp with
  | Ok (rs, _) => length rs = length IT /\ Forall (fun r => 0 <= fst r < n /\ 0 <= snd r < n) rs /\
      (told_apart_groups (map (map g_x) IT) (map (map snd) PS) -> Forall2 (fun r v => eqm n (fst r + snd r) v) rs (gsum IT PS))
  | Err _ => True
  | _ => ~ (forall x, returns (ci x)) end.
Proof.
  intros F. unfold gc_groups. rewrite !map_length, (F2_length _ _ _ F), Nat.eqb_refl. cbn [andb negb].
  induction F as [|i ps IT PS F FF IH]; intros tp; cbn [map combine mapM].
  - unfold ret. split; [auto|]. split; [constructor|]. intros _. constructor.
  - unfold bind at 1. cbn [fst snd]. pose proof (gc_sums_spec hash ci n P V K alice i ps tp F) as X.
    destruct (gc_sums ci P V alice _ _ _ tp) as [[[s t] tp1]| | |]; auto. destruct X as (B1 & B2 & G).
    unfold bind. specialize (IH tp1). destruct (mapM _ _ tp1) as [[rs tp2]| | |]; auto. destruct IH as (L & B & GG). unfold ret.
    split; [cbn; lia|]. split; [constructor; auto|]. intros TA. inversion TA; subst. constructor; cbn [fst snd]; auto.
Qed.
End Groups.

Lemma ps_party_finish s : ps_party (ps_finish s) = ps_party s.
Proof. unfold ps_finish. destruct (ps_first s); reflexivity. Qed.
Section Psi.
Context {Gr : group}.
Variable hash : Z -> list bool.
Variable ci : Z -> outcome (list bool).
Hypothesis hash_len : forall x, length (hash x) = 256%nat.
Variables (p0 q0 p1 q1 : Z) (P0 P1 : pub) (V0 V1 : priv).
Hypothesis KP0 : paillier_pair p0 q0 P0 V0.
Hypothesis KP1 : paillier_pair p1 q1 P1 V1.
Let n0 := p0 * q0.
Let n1 := p1 * q1.
Let KN0 : keyed n0 P0 V0 := pair_keyed _ _ _ _ KP0.
Let KN1 : keyed n1 P1 V1 := pair_keyed _ _ _ _ KP1.
(** the batches of the half days *)
Variables (b0 b1 : list (list entry)).
Hypothesis PR0 : proper_signed n1 b0.
Hypothesis PR1 : proper_signed n0 b1.

Record xinv (i : nat) (p q : pparty) : Prop := {
  xi_reach0 : reach (hash_entry hash) (pg_my p) (length (upto i b0));
  xi_reach1 : reach (hash_entry hash) (pg_my q) (length (upto i b1));
  xi_mir0 : mirrors (del_rep n0) pad_entry (pg_my p) (pg_other q);
  xi_mir1 : mirrors (del_rep n1) pad_entry (pg_my q) (pg_other p) }.
Definition own (t : tree entry) (es : list entry) : list Z := map (fun e => snd e * net (fst e) (get_path (hash (fst e)) t)) es.

Lemma sane_half n d k : proper_signed n d -> Forall (sane n) (nth k d []).
Proof.
  intros (F & _). apply Forall_forall. intros e He. rewrite Forall_forall in F. apply F. apply in_concat. exists (nth k d []). split; auto.
  apply nth_In. destruct (Nat.lt_ge_cases k (length d)); auto. rewrite nth_overflow in He by auto. destruct He.
Qed.
Lemma exchange_step i c s dels adds tp :
  xinv i (pc_party c) (ps_party s) -> (pc_day c < pc_total c)%nat -> ps_finished s = false ->
  nth_error (ps_data s) (ps_day s) = Some (dels, adds) -> (if ps_first s then adds else dels) = nth i b1 [] ->
  match exchange (Gr := Gr) hash P0 P1 V0 V1 (nth i b0 []) (c, s) tp with
  | Ok ((c', s'), _) => xinv (S i) (pc_party c') (ps_party s') /\ c' = pc_with (pc_party c') c /\
      s' = ps_finish (mkPS (ps_party s') (ps_data s) (ps_day s) (ps_first s) false) /\
      exists I0 PS0 I1 PS1,
        pg_x (pc_party c') = pg_x (pc_party c) ++ map (map g_x) I0 /\ pg_z (pc_party c') = pg_z (pc_party c) ++ map (map g_z) I0 /\
        pg_y (ps_party s') = pg_y (ps_party s) ++ map (map snd) PS0 /\
        pg_x (ps_party s') = pg_x (ps_party s) ++ map (map g_x) I1 /\ pg_z (ps_party s') = pg_z (ps_party s) ++ map (map g_z) I1 /\
        pg_y (pc_party c') = pg_y (pc_party c) ++ map (map snd) PS1 /\
        Forall2 (Forall2 (item_ok n1 V1)) I0 PS0 /\ gsum I0 PS0 = own (pg_my (ps_party s)) (nth i b0 []) /\
        Forall2 (Forall2 (item_ok n0 V0)) I1 PS1 /\ gsum I1 PS1 = own (pg_my (pc_party c')) (nth i b1 [])
  | Err _ => True | _ => False end.
Proof.
  intros [R0 R1 M0 M1] DAY FIN ND EB. set (es0 := nth i b0 []) in *. set (es1 := nth i b1 []) in *.
  assert (S0 : Forall (sane n1) es0) by (apply sane_half; auto). assert (S1 : Forall (sane n0) es1) by (apply sane_half; auto).
  assert (L0 : length (upto (S i) b0) = (length (upto i b0) + length es0)%nat) by (rewrite upto_S, app_length; auto).
  assert (L1 : length (upto (S i) b1) = (length (upto i b1) + length es1)%nat) by (rewrite upto_S, app_length; auto).
  assert (IR0 : int_range (length (upto (S i) b0))) by (apply upto_range; apply PR0).
  assert (IR1 : int_range (length (upto (S i) b1))) by (apply upto_range; apply PR1).
  rewrite L0 in IR0. rewrite L1 in IR1.
  pose proof KP0 as (_ & fl0 & HV0). pose proof KP1 as (_ & fl1 & HV1).
  unfold exchange. unfold bind at 1. unfold psi_gen1.
  pose proof (del_sync (Gr := Gr) hash hash_len p0 q0 fl0 V0 es0 (pg_my (pc_party c)) (pg_other (ps_party s)) _ tp HV0 R0 M0 IR0) as X.
  destruct (del_update hash V0 es0 (pg_my (pc_party c)) tp) as [my0' ou]. destruct X as (R0' & X).
  unfold bind at 1. destruct ou as [[u0 tp1]| | |]; auto. destruct X as (other1 & U1 & M0').
  unfold bind at 1. pose proof (pinitiate_spec hash n1 P1 V1 KN1 es0 _ _ S0 M1 tp1) as I0.
  destruct (pinitiate hash P1 es0 (pg_other (pc_party c)) tp1) as [[i0 tp2]| | |]; auto. destruct I0 as (ps0 & F0 & Q0).
  destruct (wire_groups (Gr := Gr) n1 V1 i0 ps0 F0) as (ws0 & W1 & W2 & W2'). unfold bind at 1. unfold lift at 1. rewrite W1. unfold ret at 1.
  (* the server *)
  unfold bind at 1. unfold send, psi_handle. rewrite FIN, ND, EB.
  unfold psi_gen2, psi_receive. cbn [m_updates m_vct]. rewrite U1, W2. cbn [obind]. rewrite W2'. cbn [pg_my pg_other pg_x pg_y pg_z].
  set (tps := fun i => tp2 (2 * i)%nat).
  pose proof (del_sync (Gr := Gr) hash hash_len p1 q1 fl1 V1 es1 (pg_my (ps_party s)) (pg_other (pc_party c)) _ tps HV1 R1 M1 IR1) as X.
  destruct (del_update hash V1 es1 (pg_my (ps_party s)) tps) as [my1' ou]. destruct X as (R1' & X).
  unfold bind at 1. destruct ou as [[u1 tp3]| | |]; auto. destruct X as (other0 & U0 & M1').
  unfold bind at 1. pose proof (pinitiate_spec hash n0 P0 V0 KN0 es1 _ _ S1 M0' tp3) as I1.
  destruct (pinitiate hash P0 es1 other1 tp3) as [[i1 tp4]| | |]; auto. destruct I1 as (ps1 & F1 & Q1).
  destruct (wire_groups (Gr := Gr) n0 V0 i1 ps1 F1) as (ws1 & W3 & W4 & W4'). unfold bind at 1. unfold lift at 1. rewrite W3. unfold ret at 1.
  (* back at the client *)
  unfold bind, lift, pc_handle. cbn [pc_with pc_total pc_day pc_party pc_data pc_result pc_set]. destruct (Nat.leb_spec (pc_total c) (pc_day c)); [lia|].
  unfold psi_receive. cbn [pg_my pg_other pg_x pg_y pg_z m_updates m_vct]. rewrite U0, W4. cbn [obind]. rewrite W4'. unfold ret.
  rewrite ps_party_finish. cbn [pc_party pc_with ps_party]. split; [|split; [reflexivity|split; [reflexivity|]]].
  - constructor; cbn [pg_my pg_other]; auto; congruence.
  - exists i0, ps0, i1, ps1. cbn [pg_my pg_other pg_x pg_y pg_z].
    do 6 (split; [reflexivity|]). split; [auto|]. split; [exact Q0|]. split; [auto|exact Q1].
Qed.

(** ** a day *)
Variables (d0 d1 : list (list entry)).
Hypothesis EB0 : b0 = halves d0.
Hypothesis EB1 : b1 = halves d1.
Hypothesis LEN : length d1 = length d0.
(** the first [o] days are not among the days of the run: they are in the trees
    the parties start with *)
Variable o : nat.
Record pinv (k : nat) (c : pclient) (s : pserver) : Prop := {
  pi_x : xinv (2 * k) (pc_party c) (ps_party s);
  pi_day0 : (o + pc_day c = k)%nat; pi_day1 : (o + ps_day s = k)%nat; pi_tot : (o + pc_total c = length d0)%nat;
  pi_dat0 : pc_data c = map load_day (skipn o d0); pi_dat1 : ps_data s = map load_day (skipn o d1) }.
Lemma load_halves d k : (k < length d)%nat -> nth_error (map load_day d) k = Some (nth (2 * k) (halves d) [], nth (2 * k + 1) (halves d) []).
Proof.
  intros L. destruct (nth_halves d k) as (-> & ->). rewrite nth_error_map, (nth_error_nth' d [] L). cbn [option_map]. unfold load_day. f_equal. f_equal.
  apply filter_ext. intros e. unfold is_deletion. rewrite Z.leb_antisym. auto.
Qed.
Lemma load_halves_from d m i k : (o + i = k)%nat -> m = map load_day (skipn o d) -> (k < length d)%nat ->
  nth_error m i = Some (nth (2 * k) (halves d) [], nth (2 * k + 1) (halves d) []).
Proof. intros E -> L. rewrite <- load_halves by auto. rewrite !nth_error_map, nth_error_skipn', E. auto. Qed.
Lemma psi_run_step k c s tp : (k < length d0)%nat -> pinv k c s ->
  match psi_run (Gr := Gr) hash P0 P1 V0 V1 (c, ps_reset s) tp with
  | Ok ((c', s', (mid0, mid1)), _) => pinv (S k) c' s' /\ pc_result c' = pc_result c /\ pc_set c' = pc_set c /\
      reach (hash_entry hash) mid0 (length (upto (2 * k + 1) b0)) /\ reach (hash_entry hash) mid1 (length (upto (2 * k + 1) b1)) /\
      exists I0 PS0 I1 PS1,
        pg_x (pc_party c') = map (map g_x) I0 /\ pg_z (pc_party c') = map (map g_z) I0 /\ pg_y (ps_party s') = map (map snd) PS0 /\
        pg_x (ps_party s') = map (map g_x) I1 /\ pg_z (ps_party s') = map (map g_z) I1 /\ pg_y (pc_party c') = map (map snd) PS1 /\
        Forall2 (Forall2 (item_ok n1 V1)) I0 PS0 /\ gsum I0 PS0 = own (pg_my (ps_party s)) (nth (2 * k) b0 []) ++ own mid1 (nth (2 * k + 1) b0 []) /\
        Forall2 (Forall2 (item_ok n0 V0)) I1 PS1 /\ gsum I1 PS1 = own mid0 (nth (2 * k) b1 []) ++ own (pg_my (pc_party c')) (nth (2 * k + 1) b1 [])
  | Err _ => True | _ => False end.
Proof.
  intros LK [X D0 D1 TT A0 A1]. unfold psi_run. rewrite (load_halves_from d0 _ _ k D0 A0 LK). rewrite <- EB0.
  set (c1 := pc_with (preset (pc_party c)) c). set (s1 := ps_reset s).
  assert (ND1 : nth_error (ps_data s1) (ps_day s1) = Some (nth (2 * k) b1 [], nth (2 * k + 1) b1 [])).
  { unfold s1, ps_reset. cbn [ps_data ps_day]. rewrite (load_halves_from d1 _ _ k D1 A1 ltac:(lia)), EB1. auto. }
  unfold bind at 1.
  pose proof (exchange_step (2 * k) c1 s1 (nth (2 * k) b1 []) (nth (2 * k + 1) b1 []) tp) as E1.
  assert (X1 : xinv (2 * k) (pc_party c1) (ps_party s1)) by (destruct X; constructor; auto).
  specialize (E1 X1). unfold c1 at 1 2 in E1. cbn [pc_with pc_day pc_total] in E1. specialize (E1 ltac:(lia) eq_refl ND1 eq_refl).
  destruct (exchange hash P0 P1 V0 V1 (nth (2 * k) b0 []) (c1, s1) tp) as [[[c2 s2] tp1]| | |]; auto.
  destruct E1 as (X2 & EC & ES & I0 & PS0 & I1 & PS1 & G1 & G2 & G3 & G4 & G5 & G6 & F0 & Q0 & F1 & Q1).
  unfold c1, s1, preset, ps_reset in G1, G2, G3, G4, G5, G6. cbn [pc_with pc_party pg_x pg_y pg_z ps_party app] in G1, G2, G3, G4, G5, G6.
  unfold bind at 1. cbn [ps_first ps_finish ps_reset s1] in ES.
  replace (2 * k + 1)%nat with (S (2 * k)) in * by lia.
  pose proof (exchange_step (S (2 * k)) c2 s2 (nth (2 * k) b1 []) (nth (S (2 * k)) b1 []) tp1 X2) as E2.
  assert (FS : ps_first s2 = true /\ ps_finished s2 = false /\ ps_data s2 = ps_data s /\ ps_day s2 = ps_day s) by (rewrite ES; auto).
  destruct FS as (FS1 & FS2 & FS3 & FS4). rewrite FS1, FS2, FS3, FS4 in E2.
  assert (FC : pc_day c2 = pc_day c /\ pc_total c2 = pc_total c /\ pc_data c2 = pc_data c /\ pc_result c2 = pc_result c /\ pc_set c2 = pc_set c).
  { rewrite EC. unfold c1. cbn [pc_with pc_day pc_total pc_data pc_result pc_set]. auto. }
  destruct FC as (FC1 & FC2 & FC3 & FC4 & FC5). rewrite FC1, FC2 in E2.
  specialize (E2 ltac:(lia) eq_refl ND1 eq_refl).
  destruct (exchange hash P0 P1 V0 V1 (nth (S (2 * k)) b0 []) (c2, s2) tp1) as [[[c3 s3] tp2]| | |]; auto.
  destruct E2 as (X3 & EC3 & ES3 & I0' & PS0' & I1' & PS1' & H1 & H2 & H3 & H4 & H5 & H6 & F0' & Q0' & F1' & Q1').
  unfold ret. cbn [pc_result pc_set pc_party].
  assert (FC' : pc_day c3 = pc_day c /\ pc_total c3 = pc_total c /\ pc_data c3 = pc_data c /\ pc_result c3 = pc_result c /\ pc_set c3 = pc_set c).
  { rewrite EC3. cbn [pc_with pc_day pc_total pc_data pc_result pc_set]. auto. }
  destruct FC' as (FD1 & FD2 & FD3 & FD4 & FD5). cbn [ps_finish ps_first] in ES3.
  assert (FS' : ps_data s3 = ps_data s /\ ps_day s3 = S (ps_day s)) by (rewrite ES3; auto). destruct FS' as (FE1 & FE2).
  split.
  { constructor; cbn [pc_party pc_day pc_total pc_data]; try congruence; try lia. replace (2 * S k)%nat with (S (S (2 * k))) by lia. auto. }
  split; [auto|]. split; [auto|]. split; [apply X2|]. split; [apply X2|].
  exists (I0 ++ I0'), (PS0 ++ PS0'), (I1 ++ I1'), (PS1 ++ PS1'). rewrite !map_app.
  split; [rewrite H1, G1; auto|]. split; [rewrite H2, G2; auto|]. split; [rewrite H3, G3; auto|]. split; [rewrite H4, G4; auto|].
  split; [rewrite H5, G5; auto|]. split; [rewrite H6, G6; auto|].
  split; [apply F2_app; auto|]. split; [rewrite gsum_app by (eapply F2_length; eauto); rewrite Q0, Q0'; reflexivity|].
  split; [apply F2_app; auto|]. rewrite gsum_app by (eapply F2_length; eauto). rewrite Q1, Q1'. reflexivity.
Qed.

(** ** the second phase *)
Hypothesis BIG0 : 2 ^ 65 <= n0.
Lemma over_io_ok m c : ct_of n0 m c -> over_io (blocks_for (pv_n V0)) c = Ok c.
Proof.
  intros C. unfold over_io. assert (EN : pv_n V0 = n0) by apply KN0. rewrite EN.
  destruct (proj1 C38_ciphertext_width n0 c) as (bl & E1 & E2); [lia|eapply ct_range; eauto|]. rewrite E1. cbn [obind]. congruence.
Qed.
Lemma combine_shares_spec l : Forall (fun ab => 0 <= fst ab < 2 ^ 64 /\ 0 <= snd ab < 2 ^ 64) l -> forall tp,
  match mapM (combine_share P0 V0) l tp with
  | Ok (cs, _) => Forall2 (fun ab c => ct_of n0 (fst ab + snd ab) c) l cs
  | Err _ => True | _ => False end.
Proof.
  pose proof KP0 as (_ & fl0 & HV0). pose proof KN0 as (_ & _ & _ & HE & HA & _).
  induction 1 as [|ab l (B1 & B2) F IH]; intros tp; cbn [mapM]; [constructor|].
  unfold bind at 1. unfold combine_share at 1. unfold bind at 1.
  pose proof (priv_enc_ok V0 p0 q0 fl0 (fst ab) tp HV0) as X. destruct (priv_encrypt V0 (fst ab) tp) as [[c tp1]| | |]; auto. destruct X as (_ & C). fold n0 in C.
  unfold bind at 1. unfold lift at 1. rewrite (over_io_ok _ _ C). unfold bind at 1.
  destruct (HE (snd ab) tp1) as ((d & tp2 & E & C2) & _); [lia|]. rewrite E. unfold ret at 1.
  unfold bind. specialize (IH tp2). destruct (mapM _ l tp2) as [[cs tp3]| | |]; auto. unfold ret. constructor; auto.
Qed.
Lemma open_spec cs vs : Forall2 (fun v c => ct_of n0 v c) vs cs -> Forall (fun v => 0 <= v < 2 ^ 65) vs ->
  omap (open_share V0) cs = Ok (map (fun v => v mod 2 ^ 64) vs).
Proof.
  intros F. pose proof KN0 as (_ & _ & _ & _ & _ & _ & HD). induction F as [|v c vs cs C F IH]; intros B; [reflexivity|].
  inversion_clear B. cbn [omap map]. unfold open_share at 1. rewrite (over_io_ok _ _ C). cbn [obind]. rewrite (HD _ _ C). cbn [obind].
  rewrite (Z.mod_small v n0) by lia. unfold to_int_value.
  assert (E : (if 2 ^ 64 <=? v then v - 2 ^ 64 else v) = v mod 2 ^ 64).
  { destruct (Z.leb_spec (2 ^ 64) v); [|symmetry; apply Z.mod_small; lia].
    replace v with (v - 2 ^ 64 + 1 * 2 ^ 64) at 2 by lia. rewrite Z.mod_add by lia. symmetry. apply Z.mod_small. lia. }
  rewrite E. destruct (Z.ltb_spec (v mod 2 ^ 64) (2 ^ 64)); [|pose proof (Z.mod_pos_bound v (2 ^ 64)); lia]. cbn [obind]. rewrite IH by auto. auto.
Qed.
Lemma second_phase_spec rs0 rs1 tp : length rs0 = length rs1 -> Forall (fun a => 0 <= a < 2 ^ 64) rs0 -> Forall (fun a => 0 <= a < 2 ^ 64) rs1 ->
  match second_phase P0 V0 rs0 rs1 tp with
  | Ok (us, _) => Permutation us (filter (fun u => 0 <? u) (map (fun ab => (fst ab + snd ab) mod 2 ^ 64) (combine rs0 rs1)))
  | Err _ => True | _ => False end.
Proof.
  intros L F0 F1. unfold second_phase. rewrite L, Nat.eqb_refl. cbn [negb].
  assert (F : Forall (fun ab => 0 <= fst ab < 2 ^ 64 /\ 0 <= snd ab < 2 ^ 64) (combine rs0 rs1)).
  { apply Forall_forall. intros [a b] H. rewrite Forall_forall in F0, F1. split; [apply F0; eapply in_combine_l; eauto|apply F1; eapply in_combine_r; eauto]. }
  unfold bind at 1. pose proof (combine_shares_spec _ F tp) as X. destruct (mapM _ _ tp) as [[cs tp1]| | |]; auto.
  unfold bind at 1. destruct (shuffle_total cs tp1) as (sh & tp2 & E). rewrite E. apply shuffle_perm in E.
  destruct (Permutation_Forall2 (Permutation_sym E) (l2 := map (fun ab => fst ab + snd ab) (combine rs0 rs1)) (P := fun c v => ct_of n0 v c)) as (vs & PV & FV).
  { clear - X. induction X; cbn [map]; constructor; auto. }
  assert (OS : omap (open_share V0) sh = Ok (map (fun v => v mod 2 ^ 64) vs)).
  { apply open_spec; [clear - FV; induction FV; constructor; auto|]. apply Forall_forall. intros v Hv.
    apply (Permutation_in v (Permutation_sym PV)) in Hv. apply in_map_iff in Hv as (ab & <- & Hab). rewrite Forall_forall in F. specialize (F ab Hab). lia. }
  unfold bind, lift. rewrite OS. unfold ret.
  apply filter_perm. rewrite <- (map_map (fun ab => fst ab + snd ab) (fun v => v mod 2 ^ 64)). apply Permutation_map. apply Permutation_sym; auto.
Qed.
(** whatever was computed before, only values between 1 and 2^64 - 1 remain *)
Lemma second_phase_range rs0 rs1 tp us tp' : second_phase P0 V0 rs0 rs1 tp = Ok (us, tp') -> Forall (fun u => 0 < u < 2 ^ 64) us.
Proof.
  unfold second_phase. destruct (negb _); [discriminate|]. intros E. apply bind_Ok in E as (cs & tp1 & _ & E). apply bind_Ok in E as (sh & tp2 & _ & E).
  apply bind_Ok in E as (vs & tp3 & E1 & E). apply lift_Ok in E1 as (E1 & _). apply ret_Ok in E as (-> & _).
  apply omap_Ok_Forall2 in E1. apply Forall_forall. intros u Hu. apply filter_In in Hu as (Hu & G). apply Z.ltb_lt in G. split; auto.
  clear - E1 Hu. induction E1 as [|c v cs vs E F IH]; [destruct Hu|]. destruct Hu as [->|Hu]; auto.
  unfold open_share in E. apply obind_Ok in E as (c' & _ & E). apply obind_Ok in E as (dd & _ & E). unfold to_int_value in E.
  destruct (Z.ltb_spec (if 2 ^ 64 <=? dd then dd - 2 ^ 64 else dd) (2 ^ 64)); [|discriminate]. inversion E; subst. auto.
Qed.

Lemma shares_spec n (rs : list (Z * Z)) (f : Z * Z -> Z) : Forall (fun r => 0 <= f r < n) rs -> omap (fun r => to_share n (f r)) rs = Ok (map (fun r => centered n (f r) mod 2 ^ 64) rs).
Proof. induction 1 as [|r rs B F IH]; [reflexivity|]. cbn [omap map]. rewrite to_share_spec by auto. cbn [obind]. rewrite IH. auto. Qed.
Definition opened (n : Z) (rs : list round) : list Z := map (fun r => (centered n (fst r) + centered n (snd r)) mod 2 ^ 64) rs.
Lemma opened_values n rs vs : 0 < n -> Forall (fun r => 0 <= fst r < n /\ 0 <= snd r < n) rs ->
  Forall2 (fun r v => eqm n (fst r + snd r) v) rs vs -> Forall2 (fun r v => undisturbed n (fst r) v) rs vs -> opened n rs = map (fun v => v mod 2 ^ 64) vs.
Proof.
  intros Hn B E U. revert B U. induction E as [|r v rs vs E F IH]; intros B U; [reflexivity|]. inversion_clear B. inversion_clear U.
  unfold opened in *. cbn [map]. rewrite (centered_sum n _ _ v) by tauto. rewrite IH; auto.
Qed.
Lemma combine_map {A B C} (f : A -> B) (g : A -> C) l : combine (map f l) (map g l) = map (fun x => (f x, g x)) l.
Proof. induction l; cbn; congruence. Qed.

Lemma day_step k c s info tp : (k < length d0)%nat -> pinv k c s ->
  match psi_day2 (Gr := Gr) hash ci P0 P1 V0 V1 (c, s, info) tp with
  | Ok ((c', s', di), _) => pinv (S k) c' s' /\
      reach (hash_entry hash) (di_mid0 di) (length (upto (2 * k + 1) b0)) /\ reach (hash_entry hash) (di_mid1 di) (length (upto (2 * k + 1) b1)) /\
      Forall (fun r => 0 <= fst r < n1 /\ 0 <= snd r < n1) (di_rounds0 di) /\ Forall (fun r => 0 <= fst r < n0 /\ 0 <= snd r < n0) (di_rounds1 di) /\
      (told_apart_groups ci (pg_x (pc_party c')) (pg_y (ps_party s')) ->
         Forall2 (fun r v => eqm n1 (fst r + snd r) v) (di_rounds0 di) (own (pg_my (ps_party s)) (nth (2 * k) b0 []) ++ own (di_mid1 di) (nth (2 * k + 1) b0 []))) /\
      (told_apart_groups ci (pg_x (ps_party s')) (pg_y (pc_party c')) ->
         Forall2 (fun r v => eqm n0 (fst r + snd r) v) (di_rounds1 di) (own (di_mid0 di) (nth (2 * k) b1 []) ++ own (pg_my (pc_party c')) (nth (2 * k + 1) b1 []))) /\
      exists us, Permutation us (filter (fun u => 0 <? u) (opened n1 (di_rounds0 di) ++ opened n0 (di_rounds1 di))) /\
        apply_updates us (pc_result c, pc_set c) = Ok (pc_result c', pc_set c')
  | _ => True end.
Proof.
  intros LK IN. unfold psi_day2. unfold bind at 1.
  pose proof (psi_run_step k c s tp LK IN) as X. destruct (psi_run hash P0 P1 V0 V1 (c, ps_reset s) tp) as [[[[c1 s1] [mid0 mid1]] tp1]| | |]; auto.
  destruct X as (I' & RS & SS & RM0 & RM1 & I0 & PS0 & I1 & PS1 & X1 & X2 & X3 & X4 & X5 & X6 & F0 & Q0 & F1 & Q1).
  unfold bind at 1. unfold psi_circuits. rewrite X1, X2, X3, X4, X5, X6.
  unfold bind at 1. pose proof (gc_groups_spec hash ci n1 P1 V1 KN1 false I0 PS0 F0 tp1) as G0.
  destruct (gc_groups ci P1 V1 false _ _ _ tp1) as [[r0 tp2]| | |]; auto. destruct G0 as (L0 & B0 & G0).
  unfold bind at 1. pose proof (gc_groups_spec hash ci n0 P0 V0 KN0 true I1 PS1 F1 tp2) as G1.
  destruct (gc_groups ci P0 V0 true _ _ _ tp2) as [[r1 tp3]| | |]; auto. destruct G1 as (L1 & B1 & G1).
  assert (EN0 : pp_n P0 = n0) by apply KN0. assert (EN1 : pp_n P1 = n1) by apply KN1. rewrite EN0, EN1.
  assert (S0 := shares_spec n1 r0 fst (Forall_impl _ (fun r H => proj1 H) B0)). assert (S1 := shares_spec n1 r0 snd (Forall_impl _ (fun r H => proj2 H) B0)).
  assert (S2 := shares_spec n0 r1 fst (Forall_impl _ (fun r H => proj1 H) B1)). assert (S3 := shares_spec n0 r1 snd (Forall_impl _ (fun r H => proj2 H) B1)).
  unfold round in *. rewrite S0, S1, S2, S3.
 unfold bind at 1. unfold lift at 1. unfold bind at 1. unfold lift at 1.  unfold bind at 1. unfold lift at 1.  unfold bind at 1. unfold lift at 1.
  unfold ret at 1. unfold bind at 1.
  set (A0 := map _ r0 ++ map _ r1). set (A1 := map _ r0 ++ map _ r1).
  assert (RA : forall (n : Z) (f : round -> Z) rs, Forall (fun a => 0 <= a < 2 ^ 64) (map (fun r => centered n (f r) mod 2 ^ 64) rs)).
  { intros n f rs. apply Forall_forall. intros a Ha. apply in_map_iff in Ha as (r & <- & _). apply Z.mod_pos_bound. lia. }
  pose proof (second_phase_spec A0 A1 tp3) as SP. unfold A0 at 1, A1 at 1 in SP. rewrite !app_length, !map_length in SP.
  specialize (SP eq_refl (proj2 (Forall_app _ _ _) (conj (RA _ _ _) (RA _ _ _))) (proj2 (Forall_app _ _ _) (conj (RA _ _ _) (RA _ _ _)))).
  destruct (second_phase P0 V0 A0 A1 tp3) as [[us tp4]| | |]; auto.
  assert (EV : map (fun ab => (fst ab + snd ab) mod 2 ^ 64) (combine A0 A1) = opened n1 r0 ++ opened n0 r1).
  { unfold A0, A1. rewrite combine_app by (rewrite !map_length; auto). rewrite !combine_map, map_app, !map_map. unfold opened. cbn [fst snd].
    f_equal; apply map_ext; intros r; rewrite <- Zplus_mod; f_equal; ring. }
  rewrite EV in SP. unfold bind, lift, ret.
  destruct (apply_updates us (pc_result c1, pc_set c1)) as [[r' S']| | |] eqn:AU; auto.
  cbn [di_mid0 di_mid1 di_rounds0 di_rounds1 pc_party pc_result pc_set fst snd].
  split. { destruct I' as [? ? ? ? ? ?]. constructor; cbn [pc_party pc_day pc_total pc_data]; auto. }
  split; [auto|]. split; [auto|]. split; [auto|]. split; [auto|]. rewrite X1, X3, X4, X6.
  split; [rewrite <- Q0; auto|]. split; [rewrite <- Q1; auto|].
  exists us. split; [exact SP|]. rewrite <- RS, <- SS. exact AU.
Qed.

(** ** the days together *)
Definition good (j : nat) (st : pclient * pserver * day_info) : Prop :=
  let '(c, s, di) := st in
  holds (di_mid0 di) (upto (2 * j + 1) b0) /\ holds (di_mid1 di) (upto (2 * j + 1) b1) /\
  holds (pg_my (pc_party c)) (upto (2 * j + 2) b0) /\ holds (pg_my (ps_party s)) (upto (2 * j + 2) b1) /\
  told_apart_groups ci (pg_x (pc_party c)) (pg_y (ps_party s)) /\ told_apart_groups ci (pg_x (ps_party s)) (pg_y (pc_party c)) /\
  Forall2 (fun r v => undisturbed n1 (fst r) v) (di_rounds0 di) (values0 j b0 b1) /\
  Forall2 (fun r v => undisturbed n0 (fst r) v) (di_rounds1 di) (values1 j b0 b1).
Lemma own_products t h k es : reach (hash_entry hash) t k -> int_range k -> holds t h -> own t es = products es h.
Proof.
  intros R IR H. unfold own, products. apply map_ext. intros e. rewrite (path_net hash hash_len t k _ R IR), H. auto.
Qed.
Lemma good_step k c s info tp c' s' di tp' : (k < length d0)%nat -> pinv k c s -> holds (pg_my (ps_party s)) (upto (2 * k) b1) ->
  psi_day2 (Gr := Gr) hash ci P0 P1 V0 V1 (c, s, info) tp = Ok ((c', s', di), tp') -> good k (c', s', di) ->
  exists us, Permutation us (filter (fun u => 0 <? u) (map (fun v => v mod 2 ^ 64) (values0 k b0 b1 ++ values1 k b0 b1))) /\
    apply_updates us (pc_result c, pc_set c) = Ok (pc_result c', pc_set c').
Proof.
  intros LK IN HS E (M0 & M1 & H0 & H1 & T0 & T1 & U0 & U1).
  pose proof (day_step k c s info tp LK IN) as X. rewrite E in X. destruct X as (I' & RM0 & RM1 & B0 & B1 & Q0 & Q1 & us & PU & AU).
  exists us. split; auto. specialize (Q0 T0). specialize (Q1 T1).
  pose proof KN0 as (K0 & _). pose proof KN1 as (K1 & _). pose proof (pi_x _ _ _ IN) as XI. pose proof (pi_x _ _ _ I') as XI'.
  pose proof (xi_reach0 _ _ _ XI') as R0'. replace (2 * S k)%nat with (2 * k + 2)%nat in R0' by lia.
  rewrite (own_products _ _ _ _ (xi_reach1 _ _ _ XI) (upto_range _ _ (proj2 PR1)) HS), (own_products _ _ _ _ RM1 (upto_range _ _ (proj2 PR1)) M1) in Q0.
  rewrite (own_products _ _ _ _ RM0 (upto_range _ _ (proj2 PR0)) M0), (own_products _ _ _ _ R0' (upto_range _ _ (proj2 PR0)) H0) in Q1.
  fold (values0 k b0 b1) in Q0. fold (values1 k b0 b1) in Q1.
  rewrite map_app, <- (opened_values n1 _ _ ltac:(lia) B0 Q0 U0), <- (opened_values n0 _ _ ltac:(lia) B1 Q1 U1). auto.
Qed.
Lemma ptrace_spec (Inv : nat -> Z * list Z -> Prop) :
  (forall k us st st', (k < length d0)%nat -> Inv k st ->
     Permutation us (filter (fun u => 0 <? u) (map (fun v => v mod 2 ^ 64) (values0 k b0 b1 ++ values1 k b0 b1))) ->
     apply_updates us st = Ok st' -> Inv (S k) st') ->
  forall k j c s di tp trace tp', (j + k <= length d0)%nat -> pinv j c s ->
  run_trace (psi_day2 (Gr := Gr) hash ci P0 P1 V0 V1) k (c, s, di) tp = Ok (trace, tp') ->
  length trace = k /\ (forall i c' s' di', nth_error trace i = Some (c', s', di') -> pinv (S (j + i)) c' s') /\
  (holds (pg_my (ps_party s)) (upto (2 * j) b1) -> Inv j (pc_result c, pc_set c) ->
   forall i c' s' di', nth_error trace i = Some (c', s', di') ->
     (forall i' st, (i' <= i)%nat -> nth_error trace i' = Some st -> good (j + i') st) -> Inv (S (j + i)) (pc_result c', pc_set c')).
Proof.
  intros STEP. induction k as [|k IH]; intros j c s di tp trace tp' LE I E; cbn [run_trace] in E.
  - apply ret_Ok in E as (-> & _). split; [reflexivity|]. split; [intros i; destruct i; discriminate|]. intros _ _ i; destruct i; discriminate.
  - apply bind_Ok in E as ([[c1 s1] di1] & tp1 & E1 & E). apply bind_Ok in E as (tr & tp2 & E2 & E). apply ret_Ok in E as (-> & _).
    pose proof (day_step j c s di tp ltac:(lia) I) as X. rewrite E1 in X. destruct X as (I' & _).
    destruct (IH (S j) c1 s1 di1 tp1 tr tp2 ltac:(lia) I' E2) as (L & DI & OUT).
    split; [cbn; lia|]. split.
    { intros [|i] c' s' di' E; cbn [nth_error] in E.
      - inversion E; subst. rewrite Nat.add_0_r. auto.
      - replace (j + S i)%nat with (S j + i)%nat by lia. eapply DI; eauto. }
    intros HS HI i c' s' di' E GD.
    assert (GD0 : good j (c1, s1, di1)) by (specialize (GD 0%nat _ ltac:(lia) eq_refl); rewrite Nat.add_0_r in GD; auto).
    destruct (good_step j c s di tp c1 s1 di1 tp1 ltac:(lia) I HS E1 GD0) as (us & PU & AU).
    assert (HI1 : Inv (S j) (pc_result c1, pc_set c1)) by (eapply STEP; eauto; lia).
    destruct i as [|i]; cbn [nth_error] in E.
    + inversion E; subst. rewrite Nat.add_0_r. auto.
    + replace (S (j + S i)) with (S (S j + i)) by lia. eapply OUT; eauto.
      * destruct GD0 as (_ & _ & _ & H & _). replace (2 * S j)%nat with (2 * j + 2)%nat by lia. auto.
      * intros i' st Hi Est. replace (S j + i')%nat with (j + S i')%nat by lia. apply GD; [lia|]. auto.
Qed.
Lemma pinv_start ss ns : o = O -> pinv 0 (fst (fst (psi_start ss ns d0 d1))) (snd (fst (psi_start ss ns d0 d1))).
Proof. intros EO. constructor; rewrite ?EO; cbn; auto. constructor; cbn; auto; try apply reach_new; apply mirrors_new. Qed.
End Psi.
