(** Proofs for StackModel: the groups of a day of deletion-psi. *)
Require Import List Arith Lia ZArith Bool.
Import ListNotations.
From Verif Require Import Prelude TreeModel TreeSpec TreeDelModel Coins Group ElGamalModel BytesModel CipherModel PaillierModel WireModel SyncModel SyncSpec AddModel AddSpec DelModel DelSpec ShapeSpec ShapeProofs PropsShape PsiModel PsiSpec GcModel GcProofs StackModel StackProofs.

Section Psi.
Context {Gr : group}.
Variable hash : Z -> list bool.
Hypothesis hash_len : forall x, length (hash x) = 256.
Notation lens := (map (@length Z)).
Definition paths (es : list entry) (t : tree (Z * Z)) : list nat := map (fun e => length (get_path (hash (fst e)) t)) es.

Lemma pitems_lens (f : Z * Z * Z -> Z) (l : list (list (Z * Z * Z))) : lens (map (map f) l) = map (@length _) l.
Proof. rewrite map_map. apply map_ext. intros. apply map_length. Qed.
Lemma wires_lens (items : list (list (Z * Z * Z))) ws : omap (fun l => omap (only_paillier (Gr := Gr)) (map g_c l)) items = Ok ws -> map (@length _) ws = map (@length _) items.
Proof.
  intros H3. apply omap_Ok_Forall2 in H3. induction H3 as [|a b l l' Y _ IH]; cbn [map]; auto. f_equal; auto.
  apply omap_length in Y. rewrite map_length in Y. exact Y.
Qed.
Lemma nested_lens {A B C} (f : A -> outcome B) (g : list B -> outcome (list C)) (G : forall l l', g l = Ok l' -> length l' = length l) l cs ys :
  omap (omap f) l = Ok cs -> omap g cs = Ok ys -> map (@length _) ys = map (@length _) l.
Proof.
  intros H1 H2. apply omap_Ok_Forall2 in H1, H2. revert ys H2. induction H1 as [|a b l l' Y _ IH]; intros ys H2; inversion H2 as [|? y ? ys' Q1 Q2]; subst; cbn [map]; auto.
  f_equal; [|apply IH; auto]. apply omap_length in Y. apply G in Q1. lia.
Qed.
Lemma pgen1_sizes P V es p tp p' (m : msg12 Gr) tp' : psi_gen1 hash P V es p tp = Ok ((p', m), tp') ->
  pg_other p' = pg_other p /\ pg_y p' = pg_y p /\ lens (pg_x p') = lens (pg_x p) ++ paths es (pg_other p) /\
  map (@length _) (m_vct m) = paths es (pg_other p) /\ exists c, del_update (Gr := Gr) hash V es (pg_my p) tp = (pg_my p', Ok (m_updates m, c)).
Proof.
  unfold psi_gen1. intros H. destruct (del_update hash V es (pg_my p) tp) as [my' ou].
  apply bind_Ok in H as (u & c1 & H1 & H). apply bind_Ok in H as (items & c2 & H2 & H). apply bind_Ok in H as (ws & c3 & H3 & H). apply ret_Ok in H as (H & _).
  inversion H; subst p' m. cbn [pg_other pg_y pg_x pg_my m_vct m_updates].
  apply lift_Ok in H3 as (H3 & _). apply wires_lens in H3. apply (pinitiate_length hash) in H2. unfold paths.
  rewrite map_app, pitems_lens, H3, H2. subst ou. repeat split; auto. exists c1. reflexivity.
Qed.
Lemma preceive_sizes V (m : msg12 Gr) p p' : psi_receive V m p = (p', Ok tt) ->
  pg_my p' = pg_my p /\ pg_x p' = pg_x p /\ recv_update deser_deletion (m_updates m) (pg_other p) = Ok (pg_other p') /\
  lens (pg_y p') = lens (pg_y p) ++ map (@length _) (m_vct m).
Proof.
  unfold psi_receive. intros H. destruct (recv_update _ _ _) as [o'| | |]; try discriminate.
  destruct (omap (omap deser_cand_only_paillier) (m_vct m)) as [cs| | |] eqn:C; try discriminate. cbn [obind] in H.
  destruct (omap (combine_responder V) cs) as [ys| | |] eqn:Y; try discriminate. injection H as <-. cbn [pg_my pg_x pg_other pg_y].
  rewrite map_app. repeat split; auto. f_equal. eapply nested_lens; [|exact C|exact Y]. intros l l' Q. unfold combine_responder in Q. apply omap_length in Q. auto.
Qed.
Lemma pgen2_sizes P V (m : msg12 Gr) es p tp p' r tp' : psi_gen2 hash P V m es p tp = (p', Ok (r, tp')) ->
  recv_update deser_deletion (m_updates m) (pg_other p) = Ok (pg_other p') /\
  lens (pg_y p') = lens (pg_y p) ++ map (@length _) (m_vct m) /\ lens (pg_x p') = lens (pg_x p) ++ paths es (pg_other p') /\ map (@length _) (m_vct r) = paths es (pg_other p') /\
  exists c, del_update (Gr := Gr) hash V es (pg_my p) tp = (pg_my p', Ok (m_updates r, c)).
Proof.
  unfold psi_gen2. intros H. destruct (psi_receive V m p) as [p1 [[]| | |]] eqn:R; try discriminate.
  apply preceive_sizes in R as (R1 & R2 & R3 & R4). rewrite R1 in H.
  destruct (del_update hash V es (pg_my p) tp) as [my' ou].
  destruct ((u <- (fun _ => ou);; items <- pinitiate hash P es (pg_other p1);; ws <- lift (omap (fun l => omap only_paillier (map g_c l)) items);; ret (u, items, ws)) tp)
    as [[[[u items] ws] tp1]| | |] eqn:G; try discriminate.
  inversion H; subst p' r. clear H. cbn [pg_other pg_y pg_x pg_my m_vct m_updates].
  apply bind_Ok in G as (u1 & c1 & G1 & G). apply bind_Ok in G as (i1 & c2 & G2 & G). apply bind_Ok in G as (w1 & c3 & G3 & G). apply ret_Ok in G as (G & _). inversion G; subst.
  apply lift_Ok in G3 as (G3 & _). apply wires_lens in G3. apply (pinitiate_length hash) in G2. unfold paths.
  rewrite R2, map_app, pitems_lens, G3, G2. repeat split; auto. exists c1. reflexivity.
Qed.

Variables (P0 P1 : pub) (V0 V1 : priv) (st nd : nat).
Definition xinv (h0 h1 : list (list bytes)) (c s : pparty) : Prop :=
  del_exchanged (Gr := Gr) hash V0 st nd h0 (pg_my c) (pg_other s) /\ del_exchanged (Gr := Gr) hash V1 st nd h1 (pg_my s) (pg_other c).
Lemma exchange_sizes es c s tp c' s' tp' dels adds h0 h1 :
  xinv h0 h1 (pc_party c) (ps_party s) -> nth_error (ps_data s) (ps_day s) = Some (dels, adds) ->
  exchange (Gr := Gr) hash P0 P1 V0 V1 es (c, s) tp = Ok ((c', s'), tp') ->
  let es1 := if ps_first s then adds else dels in
  exists u0 u1, length u0 = length es /\ length u1 = length es1 /\ xinv (h0 ++ [u0]) (h1 ++ [u1]) (pc_party c') (ps_party s') /\
    lens (pg_x (pc_party c')) = lens (pg_x (pc_party c)) ++ paths es (pg_other (pc_party c)) /\
    lens (pg_y (ps_party s')) = lens (pg_y (ps_party s)) ++ paths es (pg_other (pc_party c)) /\
    lens (pg_x (ps_party s')) = lens (pg_x (ps_party s)) ++ paths es1 (pg_other (ps_party s')) /\
    lens (pg_y (pc_party c')) = lens (pg_y (pc_party c)) ++ paths es1 (pg_other (ps_party s')) /\
    pc_data c' = pc_data c /\ pc_day c' = pc_day c /\ ps_data s' = ps_data s /\
    (ps_first s = false -> ps_first s' = true /\ ps_day s' = ps_day s) /\ (ps_first s = true -> ps_day s' = S (ps_day s)).
Proof.
  intros (X0 & X1) ED H es1. unfold exchange in H.
  apply bind_Ok in H as ([p1 m1] & c1 & G1 & H). apply pgen1_sizes in G1 as (A1 & A2 & A3 & A4 & cu & A5).
  apply bind_Ok in H as ([s1 r] & c2 & G2 & H). unfold send in G2. unfold psi_handle in G2. destruct (ps_finished s); [discriminate|]. rewrite ED in G2. fold es1 in G2.
  destruct (psi_gen2 hash P0 V1 m1 es1 (ps_party s) _) as [p2 [[r1 t2]| | |]] eqn:G; try discriminate. injection G2 as <- <- _.
  apply pgen2_sizes in G as (B1 & B2 & B3 & B4 & cu' & B5).
  apply bind_Ok in H as (c3 & t3 & G3 & H). apply ret_Ok in H as (H & _). injection H as -> ->. apply lift_Ok in G3 as (G3 & _).
  unfold pc_handle in G3. destruct (_ <=? _); [discriminate|]. cbn [pc_party pc_with] in G3.
  destruct (psi_receive V0 r1 p1) as [p3 [[]| | |]] eqn:R; try discriminate. apply preceive_sizes in R as (R1 & R2 & R3 & R4).
  injection G3 as <-. cbn [pc_with pc_party pc_data pc_day].
  assert (Q : ps_party (ps_finish (mkPS p2 (ps_data s) (ps_day s) (ps_first s) false)) = p2) by (unfold ps_finish; cbn; destruct (ps_first s); reflexivity).
  rewrite Q. exists (u_hashes (m_updates m1)), (u_hashes (m_updates r1)).
  split; [exact (send_update_hashes _ _ _ _ _ _ _ _ _ _ A5)|]. split; [exact (send_update_hashes _ _ _ _ _ _ _ _ _ _ B5)|].
  split. { split; unfold del_exchanged.
    - rewrite R1. eapply one_update; [exact X0|exact A5|exact B1].
    - eapply one_update; [exact X1|exact B5|]. rewrite <- A1. exact R3. }
  rewrite R2, R4, A2, B2, A4, B4. repeat split; auto; unfold ps_finish; cbn; destruct (ps_first s); cbn; auto; try discriminate; intros; split; auto.
Qed.

Variables (d0 d1 : list (list entry * list entry)).
Definition halves_len (d : list (list entry * list entry)) : list nat := flat_map (fun b => [length (fst b); length (snd b)]) d.
Record pxinv (j : nat) (h0 h1 : list (list bytes)) (c : pclient) (s : pserver) : Prop := {
  px_x : xinv h0 h1 (pc_party c) (ps_party s);
  px_n0 : map (@length _) h0 = halves_len (firstn j d0); px_n1 : map (@length _) h1 = halves_len (firstn j d1);
  px_d0 : pc_data c = d0; px_d1 : ps_data s = d1; px_k0 : pc_day c = j; px_k1 : ps_day s = j }.
Lemma firstn_snoc {A} (l : list A) j x : nth_error l j = Some x -> firstn (S j) l = firstn j l ++ [x].
Proof. revert j. induction l as [|y l IH]; intros [|j] E; cbn in *; try discriminate; [injection E as ->; auto|]. f_equal. auto. Qed.
Lemma sum_concat {A} (l : list (list A)) : length (concat l) = list_sum (map (@length _) l).
Proof. induction l as [|x l IH]; [auto|]. cbn [concat]. rewrite app_length, IH. reflexivity. Qed.
(** what the two histories make of a batch: deletions first, additions after one more update *)
Definition lookup_list (h : list (list bytes)) (es : list entry) : list nat := map (fun e => lookup_size st nd (bits h) (hash (fst e))) es.
Lemma paths_lookups V h my other es : del_exchanged (Gr := Gr) hash V st nd h my other -> int_range (length (concat h)) -> paths es other = lookup_list h es.
Proof. intros X IR. unfold paths, lookup_list. rewrite (del_view hash hash_len V st nd h my other es X IR). rewrite map_map. reflexivity. Qed.

Lemma psi_day_sizes j h0 h1 c s tp c' s' mids tp' : pxinv j h0 h1 c s ->
  int_range (list_sum (halves_len (firstn (S j) d0))) -> int_range (list_sum (halves_len (firstn (S j) d1))) ->
  psi_run (Gr := Gr) hash P0 P1 V0 V1 (c, ps_reset s) tp = Ok ((c', s', mids), tp') ->
  exists u0 v0 u1 v1, pxinv (S j) (h0 ++ [u0; v0]) (h1 ++ [u1; v1]) c' s' /\
    let b0 := nth j d0 ([], []) in let b1 := nth j d1 ([], []) in
    let x := lookup_list h1 (fst b0) ++ lookup_list (h1 ++ [u1]) (snd b0) in
    let y := lookup_list (h0 ++ [u0]) (fst b1) ++ lookup_list (h0 ++ [u0; v0]) (snd b1) in
    lens (pg_x (pc_party c')) = x /\ lens (pg_y (ps_party s')) = x /\ lens (pg_x (ps_party s')) = y /\ lens (pg_y (pc_party c')) = y.
Proof.
  intros [X N0 N1 D0 D1 K0 K1] R0 R1 H. unfold psi_run in H. rewrite D0, K0 in H. destruct (nth_error d0 j) as [[dels0 adds0]|] eqn:E0; [|discriminate].
  apply bind_Ok in H as ([c2 s2] & t2 & X1 & H). apply bind_Ok in H as ([c3 s3] & t3 & X2 & H). apply ret_Ok in H as (H & _). injection H as -> -> _.
  destruct (nth_error d1 j) as [[dels1 adds1]|] eqn:E1.
  2:{ exfalso. unfold exchange in X1. apply bind_Ok in X1 as ([p1 m1] & c1 & _ & X1). apply bind_Ok in X1 as ([s1 r] & c0 & G2 & _).
      unfold send, psi_handle in G2. cbn [ps_finished ps_reset ps_data ps_day] in G2. rewrite D1, K1, E1 in G2. discriminate. }
  destruct (exchange_sizes dels0 (pc_with (preset (pc_party c)) c) (ps_reset s) tp c2 s2 t2 dels1 adds1 h0 h1 ltac:(exact X) ltac:(cbn; rewrite D1, K1; exact E1) X1) as (u0 & u1 & L0 & L1 & I1 & S1 & S2 & S3 & S4 & T1 & T2 & T3 & T4 & _).
  cbn [ps_first ps_reset pc_party pc_with preset pg_x pg_y ps_party ps_day ps_data pc_data pc_day map app pg_other] in *.
  destruct (T4 eq_refl) as (T5 & T6).
  destruct (exchange_sizes adds0 c2 s2 t2 c3 s3 t3 dels1 adds1 _ _ I1 ltac:(rewrite T3, T6, D1, K1; exact E1) X2) as (v0 & v1 & M0 & M1 & I2 & Q1 & Q2 & Q3 & Q4 & W1 & W2 & W3 & _ & W4).
  rewrite T5 in *. specialize (W4 eq_refl). exists u0, v0, u1, v1. rewrite <- !app_assoc in I2. cbn [app] in I2.
  assert (B0 : nth j d0 ([], []) = (dels0, adds0)) by (apply nth_error_nth; auto). assert (B1 : nth j d1 ([], []) = (dels1, adds1)) by (apply nth_error_nth; auto).
  assert (Z0 : map (@length _) (h0 ++ [u0; v0]) = halves_len (firstn (S j) d0)).
  { rewrite (firstn_snoc _ _ _ E0). unfold halves_len. rewrite flat_map_app, map_app, N0. cbn. rewrite L0, M0. reflexivity. }
  assert (Z1 : map (@length _) (h1 ++ [u1; v1]) = halves_len (firstn (S j) d1)).
  { rewrite (firstn_snoc _ _ _ E1). unfold halves_len. rewrite flat_map_app, map_app, N1. cbn. rewrite L1, M1. reflexivity. }
  split.
  - constructor; cbn [pc_party pc_data pc_day]; auto; congruence.
  - cbn [pc_party]. rewrite B0, B1. cbn [fst snd].
    rewrite <- Z0, <- sum_concat in R0. rewrite <- Z1, <- sum_concat in R1. rewrite concat_app, app_length in R0, R1. cbn [concat] in R0, R1. rewrite app_nil_r, app_length in R0, R1.
    assert (J0 : int_range (length (concat (h0 ++ [u0])))) by (rewrite concat_app, app_length; cbn [concat]; rewrite app_nil_r; unfold int_range in *; lia).
    assert (J1 : int_range (length (concat (h1 ++ [u1])))) by (rewrite concat_app, app_length; cbn [concat]; rewrite app_nil_r; unfold int_range in *; lia).
    assert (J2 : int_range (length (concat (h0 ++ [u0; v0])))) by (rewrite concat_app, app_length; cbn [concat]; rewrite app_nil_r, app_length; unfold int_range in *; lia).
    assert (J3 : int_range (length (concat h1))) by (unfold int_range in *; lia).
    destruct X as (X0' & X1'). destruct I1 as (I10 & I11). destruct I2 as (I20 & I21).
    rewrite Q1, Q2, Q3, Q4, S1, S2, S3, S4.
    rewrite (paths_lookups _ _ _ _ dels0 X1' J3), (paths_lookups _ _ _ _ adds0 I11 J1), (paths_lookups _ _ _ _ dels1 I10 J0), (paths_lookups _ _ _ _ adds1 I20 J2). auto.
Qed.
End Psi.

Section PsiStack.
Context {Gr : group}.
Variable z : sizes.
Variables room0 room1 : nat.
Variable ci : Z -> outcome (list bool).
Variable hash : Z -> list bool.
Variables (P0 P1 : pub) (V0 V1 : priv).
Notation own := (psi_day_own (Gr := Gr) hash ci P0 P1 V0 V1).
Notation stack := (psi_day_stack z room0 room1 ci (Gr := Gr) hash P0 P1 V0 V1).
Definition psi_fits (c s : pparty) : Prop :=
  psi_need z (pp_n P1) (pg_x c) <= room0 /\ psi_need z (pv_n V0) (pg_y c) <= room0 /\
  psi_need z (pp_n P0) (pg_x s) <= room1 /\ psi_need z (pv_n V1) (pg_y s) <= room1.
Lemma psi_circuits_cases c s co :
  (psi_fits c s /\ psi_circuits_stack z room0 room1 ci P0 P1 V0 V1 c s co = psi_circuits_run ci P0 P1 V0 V1 c s co) \/
  (~ psi_fits c s /\ (psi_circuits_stack z room0 room1 ci P0 P1 V0 V1 c s co = psi_circuits_run ci P0 P1 V0 V1 c s co \/
     psi_circuits_stack z room0 room1 ci P0 P1 V0 V1 c s co = UB) /\
   (forall a, psi_circuits_run ci P0 P1 V0 V1 c s co = Ok a -> psi_circuits_stack z room0 room1 ci P0 P1 V0 V1 c s co = UB)).
Proof.
  unfold psi_circuits_stack, psi_circuits_run, psi_fits.
  match goal with |- context [dbind (needs ?n ?r) (fun _ => ?f) co] => destruct (needs_cases n r f co) as [(L1 & ->)|(L1 & ->)] end; [|right; split; [lia|auto]].
  match goal with |- context [dbind (needs ?n ?r) (fun _ => ?f) co] => destruct (needs_cases n r f co) as [(L2 & ->)|(L2 & ->)] end; [|right; split; [lia|auto]].
  destruct (gc_totals ci P1 V1 false (pg_x c) (pg_z c) (pg_y s) co) as [[[b0 p1] c0]| | |] eqn:G.
  2-4: rewrite !(fun B f => dbind_no (B := B) _ f _ _ G) by discriminate; cbn [fail_as]; destruct (le_dec (psi_need z (pv_n V0) (pg_y c)) room0); [destruct (le_dec (psi_need z (pp_n P0) (pg_x s)) room1); [left; auto|]|]; right; (split; [lia|split; [auto|intros; discriminate]]).
  rewrite !(fun B f => dbind_yes (B := B) _ f _ _ _ G).
  match goal with |- context [dbind (needs ?n ?r) (fun _ => ?f) c0] => destruct (needs_cases n r f c0) as [(L3 & ->)|(L3 & ->)] end; [|right; split; [lia|auto]].
  match goal with |- context [dbind (needs ?n ?r) (fun _ => ?f) c0] => destruct (needs_cases n r f c0) as [(L4 & ->)|(L4 & ->)] end; [|right; split; [lia|auto]].
  left. auto.
Qed.
Definition pday_fits (st : pclient * pserver * day_info) : Prop := psi_fits (pc_party (fst (fst st))) (ps_party (snd (fst st))).
Lemma psi_day_cases st co : stack st co = own st co \/ stack st co = UB.
Proof.
  destruct st as [[c s] di]. unfold psi_day_stack, psi_day_own. unfold dbind at 1 5 9. destruct (psi_run_own _ _ _ _ _ _ co) as [[[[c1 s1] [m0 m1]] co1]| | |]; auto.
  unfold dbind at 1 4 7. destruct (psi_circuits_cases (pc_party c1) (ps_party s1) co1) as [(_ & ->)|(_ & [->| ->] & _)]; auto.
Qed.
Lemma psi_day_fits st co st' co' : own st co = Ok (st', co') -> (pday_fits st' /\ stack st co = Ok (st', co')) \/ (~ pday_fits st' /\ stack st co = UB).
Proof.
  intros E. destruct st as [[c s] di]. pose proof E as EE. unfold psi_day_own in E. apply dbind_Ok in E as ([[c1 s1] [m0 m1]] & co1 & E1 & E). apply dbind_Ok in E as ([[rs0 rs1] [r0 r1]] & co2 & E2 & E).
  assert (F : pday_fits st' <-> psi_fits (pc_party c1) (ps_party s1)).
  { apply dbind_Ok in E as (us & co3 & _ & E). apply dbind_Ok in E as (rs & co4 & _ & E). apply dret_Ok in E as (-> & _). reflexivity. }
  unfold psi_day_stack. rewrite (dbind_yes _ _ _ _ _ E1). cbv beta iota.
  destruct (psi_circuits_cases (pc_party c1) (ps_party s1) co1) as [(G & EQ)|(G & _ & EQ)]; [left|right]; (split; [tauto|]).
  - rewrite E2 in EQ. rewrite (dbind_yes _ _ _ _ _ EQ). exact E.
  - unfold dbind at 1. rewrite (EQ _ E2). reflexivity.
Qed.

Hypothesis hash_len : forall x, length (hash x) = 256.
Variables (sh nd : nat) (d0 d1 : list (list entry * list entry)).
Notation pxinv := (pxinv (Gr := Gr) hash V0 V1 sh nd d0 d1).
Notation lens := (map (@length Z)).
Lemma psi_own_day j h0 h1 c s di co c' s' di' co' : pxinv j h0 h1 c s ->
  int_range (list_sum (halves_len (firstn (S j) d0))) -> int_range (list_sum (halves_len (firstn (S j) d1))) ->
  own (c, s, di) co = Ok ((c', s', di'), co') ->
  exists u0 v0 u1 v1, pxinv (S j) (h0 ++ [u0; v0]) (h1 ++ [u1; v1]) c' s' /\
    let b0 := nth j d0 ([], []) in let b1 := nth j d1 ([], []) in
    let x := lookup_list hash sh nd h1 (fst b0) ++ lookup_list hash sh nd (h1 ++ [u1]) (snd b0) in
    let y := lookup_list hash sh nd (h0 ++ [u0]) (fst b1) ++ lookup_list hash sh nd (h0 ++ [u0; v0]) (snd b1) in
    lens (pg_x (pc_party c')) = x /\ lens (pg_y (ps_party s')) = x /\ lens (pg_x (ps_party s')) = y /\ lens (pg_y (pc_party c')) = y.
Proof.
  intros I R0 R1 E. unfold psi_day_own in E. apply dbind_Ok in E as ([[c1 s1] [m0 m1]] & co1 & E1 & E). apply dbind_Ok in E as ([[rs0 rs1] [r0 r1]] & co2 & E2 & E).
  apply dbind_Ok in E as (us & co3 & _ & E). apply dbind_Ok in E as (rs & co4 & _ & E). apply dret_Ok in E as (E & ->). injection E as -> -> ->.
  destruct (sim_coins _ _ _ _ _ (sim_psi_run (Gr := Gr) hash P0 P1 V0 V1 (c, ps_reset s)) E1) as (t & t' & E').
  destruct (psi_day_sizes hash hash_len P0 P1 V0 V1 sh nd d0 d1 _ _ _ _ _ _ _ _ _ _ I R0 R1 E') as (u0 & v0 & u1 & v1 & I' & X).
  exists u0, v0, u1, v1. split; [|exact X]. destruct I' as [? ? ? ? ? ? ?]. constructor; auto.
Qed.
Lemma halves_firstn (d : list (list entry * list entry)) n : list_sum (halves_len (firstn n d)) <= list_sum (halves_len d).
Proof. rewrite <- (firstn_skipn n d) at 2. unfold halves_len. rewrite flat_map_app, list_sum_app. lia. Qed.
Lemma psi_own_trace : forall k j h0 h1 c s di co trace co', pxinv j h0 h1 c s -> length h0 = 2 * j -> length h1 = 2 * j ->
  int_range (list_sum (halves_len d0)) -> int_range (list_sum (halves_len d1)) ->
  run_own own k (c, s, di) co = Ok (trace, co') ->
  exists g0 g1, length g0 = 2 * k /\ length g1 = 2 * k /\
  map (@length _) (h0 ++ g0) = halves_len (firstn (j + k) d0) /\ map (@length _) (h1 ++ g1) = halves_len (firstn (j + k) d1) /\
  forall i c' s' di', nth_error trace i = Some (c', s', di') ->
    let b0 := nth (j + i) d0 ([], []) in let b1 := nth (j + i) d1 ([], []) in
    let x := lookup_list hash sh nd (firstn (2 * (j + i)) (h1 ++ g1)) (fst b0) ++ lookup_list hash sh nd (firstn (2 * (j + i) + 1) (h1 ++ g1)) (snd b0) in
    let y := lookup_list hash sh nd (firstn (2 * (j + i) + 1) (h0 ++ g0)) (fst b1) ++ lookup_list hash sh nd (firstn (2 * (j + i) + 2) (h0 ++ g0)) (snd b1) in
    lens (pg_x (pc_party c')) = x /\ lens (pg_y (ps_party s')) = x /\ lens (pg_x (ps_party s')) = y /\ lens (pg_y (pc_party c')) = y.
Proof.
  induction k as [|k IH]; intros j h0 h1 c s di co trace co' I L0 L1 R0 R1 E; cbn [run_own] in E.
  - apply dret_Ok in E as (-> & ->). exists [], []. rewrite !app_nil_r, Nat.add_0_r. destruct I. repeat split; auto. all: destruct i; discriminate.
  - apply dbind_Ok in E as ([[c1 s1] di1] & co1 & E1 & E). apply dbind_Ok in E as (l & co2 & E2 & E). apply dret_Ok in E as (-> & ->).
    assert (Q0 := halves_firstn d0 (S j)). assert (Q1 := halves_firstn d1 (S j)).
    destruct (psi_own_day _ _ _ _ _ _ _ _ _ _ _ I ltac:(unfold int_range in *; lia) ltac:(unfold int_range in *; lia) E1) as (u0 & v0 & u1 & v1 & I' & F0).
    destruct (IH (S j) (h0 ++ [u0; v0]) (h1 ++ [u1; v1]) c1 s1 di1 co1 l co2 I' ltac:(rewrite app_length; cbn; lia) ltac:(rewrite app_length; cbn; lia) R0 R1 E2) as (g0 & g1 & G0 & G1 & M0 & M1 & F).
    exists (u0 :: v0 :: g0), (u1 :: v1 :: g1). rewrite <- !app_assoc in *. cbn [app] in *. replace (j + S k) with (S j + k) by lia.
    split; [cbn [length]; lia|]. split; [cbn [length]; lia|]. split; [exact M0|]. split; [exact M1|].
    intros [|i] c' s' r' EN.
    + cbn [nth_error] in EN. injection EN as <- <- <-. rewrite Nat.add_0_r.
      assert (FA : forall (h : list (list bytes)) u v g, length h = 2 * j -> firstn (2 * j) (h ++ u :: v :: g) = h /\ firstn (2 * j + 1) (h ++ u :: v :: g) = h ++ [u] /\ firstn (2 * j + 2) (h ++ u :: v :: g) = h ++ [u; v]).
      { intros h u v g L. rewrite <- L. rewrite !firstn_app_2. rewrite <- (Nat.add_0_r (length h)) at 1. rewrite firstn_app_2. cbn [firstn]. rewrite app_nil_r. auto. }
      destruct (FA h1 u1 v1 g1 L1) as (-> & -> & _). destruct (FA h0 u0 v0 g0 L0) as (_ & -> & ->). exact F0.
    + cbn [nth_error] in EN. replace (j + S i) with (S j + i) by lia. eapply F; eauto.
Qed.
End PsiStack.
