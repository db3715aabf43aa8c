(** Proofs for StackModel: how many positions a day has. *)
Require Import List Arith Lia ZArith Bool.
Import ListNotations.
From Verif Require Import Prelude TreeModel TreeSpec TreeDelModel Coins Group ElGamalModel BytesModel CipherModel PaillierModel WireModel SyncModel SyncSpec AddModel AddSpec DelModel DelSpec ShapeSpec ShapeProofs PropsShape PsiModel PsiSpec GcModel GcProofs StackModel SyncProofs .

Lemma send_update_hashes {Gr : group} {A C} ins mk enc ser es (t t' : tree A) (c c' : tape) (u : update Gr) :
  send_update (C := C) ins mk enc ser es t c = (t', Ok (u, c')) -> length (u_hashes u) = length es.
Proof.
  unfold send_update. intros H. destruct (random_hashes (length es) c) as [[hs c1]| | |] eqn:EH; try discriminate.
  destruct (ins es _ t) as [t1 out]. inversion H as [[E1 E2]]. apply bind_Ok in E2 as (ns & c2 & _ & E2). apply ret_Ok in E2 as (E2 & _).
  rewrite E2. cbn [u_hashes]. apply random_hashes_spec in EH. apply EH.
Qed.

Section Del.
Context {Gr : group}.
Variable hash : Z -> list bool.
Hypothesis hash_len : forall x, length (hash x) = 256.
Notation key := (fun e : entry => hash (fst e)).
Definition positions (es : list entry) (t : tree (Z * Z)) : nat := list_sum (map (fun e => length (get_path (hash (fst e)) t)) es).

Lemma gen1_sizes P V es p tp p' (m : msg12 Gr) tp' : del_gen1 hash P V es p tp = Ok ((p', m), tp') ->
  pt_other p' = pt_other p /\ pt_y p' = pt_y p /\ length (pt_x p') = length (pt_x p) + positions es (pt_other p) /\
  length (m_cands m) = positions es (pt_other p) /\ exists c, del_update (Gr := Gr) hash V es (pt_my p) tp = (pt_my p', Ok (m_updates m, c)).
Proof.
  unfold del_gen1. intros H. destruct (del_update hash V es (pt_my p) tp) as [my' ou].
  apply bind_Ok in H as (u & c1 & H1 & H). apply bind_Ok in H as (items & c2 & H2 & H). apply bind_Ok in H as (ws & c3 & H3 & H). apply ret_Ok in H as (H & _).
  inversion H; subst p' m. cbn [pt_other pt_y pt_x pt_my m_cands m_updates mkMsg].
  apply lift_Ok in H3 as (H3 & _). apply omap_length in H3. rewrite map_length in H3. apply (initiate_length hash) in H2.
  rewrite app_length, map_length, H3, H2. subst ou. repeat split; auto. exists c1. reflexivity.
Qed.
Lemma receive_sizes V (m : msg12 Gr) p p' : del_receive V m p = (p', Ok tt) ->
  pt_my p' = pt_my p /\ pt_x p' = pt_x p /\ recv_update deser_deletion (m_updates m) (pt_other p) = Ok (pt_other p') /\
  length (pt_y p') = length (pt_y p) + length (m_cands m).
Proof.
  unfold del_receive. intros H. destruct (recv_update _ _ _) as [o'| | |]; try discriminate.
  destruct (omap deser_cand_only_paillier (m_cands m)) as [cs| | |] eqn:C; try discriminate. cbn [obind] in H.
  destruct (combine_responder V cs) as [ys| | |] eqn:Y; try discriminate. injection H as <-. cbn [pt_my pt_x pt_other pt_y].
  unfold combine_responder in Y. apply omap_length in C, Y. rewrite app_length. repeat split; auto; lia.
Qed.
Lemma gen2_sizes P V (m : msg12 Gr) es p tp p' r tp' : del_gen2 hash P V m es p tp = (p', Ok (r, tp')) ->
  recv_update deser_deletion (m_updates m) (pt_other p) = Ok (pt_other p') /\
  length (pt_y p') = length (m_cands m) /\ length (pt_x p') = positions es (pt_other p') /\ length (m_cands r) = positions es (pt_other p') /\
  exists c, del_update (Gr := Gr) hash V es (pt_my p) tp = (pt_my p', Ok (m_updates r, c)).
Proof.
  unfold del_gen2. intros H. destruct (del_receive V m (reset_gc p)) as [p1 [[]| | |]] eqn:R; try discriminate.
  apply receive_sizes in R as (R1 & R2 & R3 & R4). cbn [reset_gc pt_my pt_x pt_other pt_y length Nat.add] in *. rewrite R1 in H.
  destruct (del_update hash V es (pt_my p) tp) as [my' ou].
  destruct ((u <- (fun _ => ou);; items <- initiate hash P es (pt_other p1);; ws <- lift (omap only_paillier (map g_c items));; ret (u, items, ws)) tp)
    as [[[[u items] ws] tp1]| | |] eqn:G; try discriminate.
  inversion H; subst p' r. clear H. cbn [pt_other pt_y pt_x pt_my m_cands m_updates mkMsg].
  apply bind_Ok in G as (u1 & c1 & G1 & G). apply bind_Ok in G as (i1 & c2 & G2 & G). apply bind_Ok in G as (w1 & c3 & G3 & G). apply ret_Ok in G as (G & _). inversion G; subst.
  apply lift_Ok in G3 as (G3 & _). apply omap_length in G3. rewrite map_length in G3. apply (initiate_length hash) in G2.
  rewrite R2. cbn [app]. rewrite map_length, G3, G2. repeat split; auto. exists c1. reflexivity.
Qed.

Variables (P0 P1 : pub) (V0 V1 : priv) (st nd : nat) (d0 d1 : list (list entry)).
(** after [j] days *)
Record einv (j : nat) (h0 h1 : list (list bytes)) (c : dclient) (s : dserver) : Prop := {
  e_x0 : del_exchanged (Gr := Gr) hash V0 st nd h0 (pt_my (dc_party c)) (pt_other (ds_party s));
  e_x1 : del_exchanged (Gr := Gr) hash V1 st nd h1 (pt_my (ds_party s)) (pt_other (dc_party c));
  e_n0 : map (@length _) h0 = map (@length _) (firstn j d0); e_n1 : map (@length _) h1 = map (@length _) (firstn j d1);
  e_d0 : dc_data c = d0; e_d1 : ds_data s = d1; e_k0 : dc_day c = j; e_k1 : ds_day s = j }.
Lemma einv_start : einv 0 [] [] (fst (fst (del_start st nd d0 d1))) (snd (fst (del_start st nd d0 d1))).
Proof. constructor; cbn; auto; constructor. Qed.
Lemma firstn_S_nth {A} (l : list (list A)) j es : nth_error l j = Some es -> firstn (S j) l = firstn j l ++ [es].
Proof. revert j. induction l as [|x l IH]; intros [|j] E; cbn in *; try discriminate; [injection E as ->; auto|]. f_equal. auto. Qed.

Lemma nth_of {A} (l : list (list A)) j es : nth_error l j = Some es -> nth j l [] = es.
Proof. intros E. apply nth_error_nth with (d := []) in E. auto. Qed.
Lemma day_sizes j h0 h1 c s tp c' s' tp' : einv j h0 h1 c s ->
  dc_run (Gr := Gr) hash P0 P1 V0 V1 (c, ds_reset s) tp = Ok ((c', s'), tp') ->
  exists u0 u1, einv (S j) (h0 ++ [u0]) (h1 ++ [u1]) c' s' /\
    length (pt_x (dc_party c')) = positions (nth j d0 []) (pt_other (dc_party c)) /\ length (pt_y (ds_party s')) = positions (nth j d0 []) (pt_other (dc_party c)) /\
    length (pt_x (ds_party s')) = positions (nth j d1 []) (pt_other (ds_party s')) /\ length (pt_y (dc_party c')) = positions (nth j d1 []) (pt_other (ds_party s')).
Proof.
  intros [X0 X1 N0 N1 D0 D1 K0 K1] H. unfold dc_run in H. rewrite D0, K0 in H. destruct (nth_error d0 j) as [es0|] eqn:E0; [|discriminate].
  apply bind_Ok in H as ([p1 m1] & c1 & G1 & H). apply gen1_sizes in G1 as (A1 & A2 & A3 & A4 & cu & A5). cbn [reset_gc pt_other pt_y pt_x pt_my length Nat.add] in *.
  apply bind_Ok in H as ([s1 r] & c2 & G2 & H). unfold send in G2.
  unfold del_handle in G2. cbn [ds_finished ds_reset ds_data ds_day ds_party] in G2. rewrite D1, K1 in G2. destruct (nth_error d1 j) as [es1|] eqn:E1; [|discriminate].
  destruct (del_gen2 hash P0 V1 m1 es1 (ds_party s) _) as [p2 [[r1 t2]| | |]] eqn:G; try discriminate. injection G2 as <- <- _.
  apply gen2_sizes in G as (B1 & B2 & B3 & B4 & cu' & B5).
  apply bind_Ok in H as (c3 & t3 & G3 & H). apply ret_Ok in H as (H & _). injection H as -> ->. apply lift_Ok in G3 as (G3 & _).
  unfold dc_handle in G3. cbn [dc_total dc_day dc_party dc_data dc_result] in G3. destruct (_ <=? _); [discriminate|].
  destruct (del_receive V0 r1 p1) as [p3 [[]| | |]] eqn:R; try discriminate. apply receive_sizes in R as (R1 & R2 & R3 & R4).
  injection G3 as <-. cbn [dc_party ds_party dc_data ds_data dc_day ds_day].
  exists (u_hashes (m_updates m1)), (u_hashes (m_updates r1)).
  rewrite (nth_of _ _ _ E0), (nth_of _ _ _ E1), R2, R4, A2. cbn [length Nat.add]. split.
  - constructor; cbn [dc_party ds_party dc_data ds_data dc_day ds_day]; auto.
    + rewrite R1. unfold del_exchanged. eapply one_update; [exact X0|exact A5|exact B1].
    + unfold del_exchanged. eapply one_update; [exact X1|exact B5|]. rewrite <- A1. exact R3.
    + rewrite (firstn_S_nth _ _ _ E0), !map_app, N0. cbn [map]. rewrite (send_update_hashes _ _ _ _ _ _ _ _ _ _ A5). auto.
    + rewrite (firstn_S_nth _ _ _ E1), !map_app, N1. cbn [map]. rewrite (send_update_hashes _ _ _ _ _ _ _ _ _ _ B5). auto.
  - repeat split; lia.
Qed.
Lemma concat_len {A B} (h : list (list A)) (d : list (list B)) : map (@length _) h = map (@length _) d -> length (concat h) = length (concat d).
Proof. revert d. induction h as [|x h IH]; intros [|y d] E; cbn in *; try discriminate; auto. injection E as E1 E2. rewrite !app_length, E1, (IH d E2). auto. Qed.
Lemma positions_lookups V h my other es : del_exchanged (Gr := Gr) hash V st nd h my other -> int_range (length (concat h)) ->
  positions es other = lookups st nd h (map key es).
Proof. intros X IR. unfold positions, lookups. f_equal. eapply (del_view hash hash_len); eauto. Qed.
End Del.

(** ** lookups: bounds *)
Lemma list_sum_le {A} (f g : A -> nat) l : (forall x, In x l -> f x <= g x) -> list_sum (map f l) <= list_sum (map g l).
Proof. induction l as [|x l IH]; intros H; [auto|]. change (f x + list_sum (map f l) <= g x + list_sum (map g l)). specialize (H x (or_introl eq_refl)) as Hx. specialize (IH ltac:(intros; apply H; right; auto)). lia. Qed.
Lemma list_sum_const {A} (b : nat) (l : list A) : list_sum (map (fun _ => b) l) = length l * b.
Proof. induction l as [|x l IH]; [auto|]. change (b + list_sum (map (fun _ => b) l) = b + length l * b). lia. Qed.
Lemma lookups_le st nd h ks : lookups st nd h ks <= length ks * (st + (Nat.log2 (length (concat h)) + 1) * nd).
Proof.
  unfold lookups. rewrite <- (list_sum_const _ ks). apply list_sum_le. intros k _.
  pose proof (C58_bound st nd (bits h) k) as B. unfold bits in *. rewrite concat_map_length in B. exact B.
Qed.
Lemma written_stash hs : forall c, concat hs <> [] -> In 0 (written c hs).
Proof.
  induction hs as [|x hs IH]; intros c H; cbn [concat written] in *; [congruence|]. apply in_or_app.
  destruct x as [|b x]; [right; apply IH; auto|]. left. cbn [flat_map]. apply in_or_app. left. left. reflexivity.
Qed.
Lemma lookups_ge st nd h ks : concat h <> [] -> length ks * st <= lookups st nd h ks.
Proof.
  intros NE. unfold lookups. rewrite <- (list_sum_const _ ks). apply list_sum_le. intros k _.
  unfold lookup_size, path_nodes. cbn [map].
  assert (E : existsb (Nat.eqb 0) (written 0 (bits h)) = true).
  { apply existsb_In. apply written_stash. unfold bits. rewrite <- concat_map. destruct (concat h); [congruence|discriminate]. }
  rewrite E. cbn [Nat.eqb]. match goal with |- _ <= list_sum (?a :: ?l) => change (a <= a + list_sum l) end. lia.
Qed.

(** ** a run on a stack *)
Lemma needs_cases need room {A} (f : D A) c : (need <= room /\ dbind (needs need room) (fun _ => f) c = f c) \/ (room < need /\ dbind (needs need room) (fun _ => f) c = UB).
Proof. unfold needs, dbind. destruct (Nat.ltb_spec room need); [right|left]; auto. Qed.
Lemma dbind_yes {A B} (m : D A) (f : A -> D B) c a c1 : m c = Ok (a, c1) -> dbind m f c = f a c1.
Proof. unfold dbind. intros ->. auto. Qed.
Definition fail_as {A B} (o : outcome A) : outcome B := match o with Err e => Err e | Abort => Abort | _ => UB end.
Lemma dbind_no {A B} (m : D A) (f : A -> D B) c o : m c = o -> (forall x, o <> Ok x) -> dbind m f c = fail_as o.
Proof. unfold dbind. intros ->. destruct o as [[a c1]| | |]; auto. intros H. destruct (H (a, c1)); auto. Qed.
Section RunStack.
Variable S : Type.
Variables day day' : S -> D S.
Hypothesis H : forall st c, day' st c = day st c \/ day' st c = UB.
Lemma run_cases : forall k st c, run_own day' k st c = run_own day k st c \/ run_own day' k st c = UB.
Proof.
  induction k as [|k IH]; intros st c; cbn [run_own]; auto. unfold dbind. destruct (H st c) as [E|E]; rewrite E; auto.
  destruct (day st c) as [[st1 c1]| | |]; auto. destruct (IH st1 c1) as [E1|E1]; rewrite E1; auto.
Qed.
(** [ok st'] : the day that ends in [st'] fits *)
Variable ok : S -> Prop.
Hypothesis FITS : forall st c st' c', day st c = Ok (st', c') -> (ok st' /\ day' st c = Ok (st', c')) \/ (~ ok st' /\ day' st c = UB).
Lemma run_fits : forall k st c trace c', run_own day k st c = Ok (trace, c') ->
  (Forall ok trace /\ run_own day' k st c = Ok (trace, c')) \/ (~ Forall ok trace /\ run_own day' k st c = UB).
Proof.
  induction k as [|k IH]; intros st c trace c' E; cbn [run_own] in *.
  - apply dret_Ok in E as (-> & ->). left. auto.
  - apply dbind_Ok in E as (st1 & c1 & E1 & E). apply dbind_Ok in E as (l & c2 & E2 & E). apply dret_Ok in E as (-> & ->).
    destruct (FITS _ _ _ _ E1) as [(F & E3)|(F & E3)]; unfold dbind; rewrite E3.
    + destruct (IH _ _ _ _ E2) as [(G & E4)|(G & E4)]; rewrite E4; [left; auto|right]. split; auto. intros Q. inversion Q. auto.
    + right. split; auto. intros Q. inversion Q. auto.
Qed.
End RunStack.

Section DelStack.
Context {Gr : group}.
Variable z : sizes.
Variables room0 room1 : nat.
Variable ci : Z -> outcome (list bool).
Variable hash : Z -> list bool.
Variables (P0 P1 : pub) (V0 V1 : priv).
Notation own := (del_day_own (Gr := Gr) hash ci P0 P1 V0 V1).
Notation stack := (del_day_stack z room0 room1 ci (Gr := Gr) hash P0 P1 V0 V1).
Definition del_fits (c s : party) : Prop :=
  del_need z (pp_n P1) (length (pt_x c)) <= room0 /\ del_need z (pv_n V0) (length (pt_y c)) <= room0 /\
  del_need z (pp_n P0) (length (pt_x s)) <= room1 /\ del_need z (pv_n V1) (length (pt_y s)) <= room1.
Lemma del_circuits_cases c s co :
  (del_fits c s /\ del_circuits_stack z room0 room1 ci P0 P1 V0 V1 c s co = del_circuits_run ci P0 P1 V0 V1 c s co) \/
  (~ del_fits c s /\ (del_circuits_stack z room0 room1 ci P0 P1 V0 V1 c s co = del_circuits_run ci P0 P1 V0 V1 c s co \/
     del_circuits_stack z room0 room1 ci P0 P1 V0 V1 c s co = UB) /\
   (forall a, del_circuits_run ci P0 P1 V0 V1 c s co = Ok a -> del_circuits_stack z room0 room1 ci P0 P1 V0 V1 c s co = UB)).
Proof.
  unfold del_circuits_stack, del_circuits_run, del_fits.
  match goal with |- context [dbind (needs ?n ?r) (fun _ => ?f) co] => destruct (needs_cases n r f co) as [(L1 & ->)|(L1 & ->)] end; [|right; split; [lia|auto]].
  match goal with |- context [dbind (needs ?n ?r) (fun _ => ?f) co] => destruct (needs_cases n r f co) as [(L2 & ->)|(L2 & ->)] end; [|right; split; [lia|auto]].
  destruct (gc_total ci P1 V1 false (pt_x c) (pt_z c) (pt_y s) co) as [[r0 c0]| | |] eqn:G.
  2-4: rewrite !(fun B f => dbind_no (B := B) _ f _ _ G) by discriminate; cbn [fail_as]; destruct (le_dec (del_need z (pv_n V0) (length (pt_y c))) room0); [destruct (le_dec (del_need z (pp_n P0) (length (pt_x s))) room1); [left; auto|]|]; right; (split; [lia|split; [auto|intros; discriminate]]).
  rewrite !(fun B f => dbind_yes (B := B) _ f _ _ _ G).
  match goal with |- context [dbind (needs ?n ?r) (fun _ => ?f) c0] => destruct (needs_cases n r f c0) as [(L3 & ->)|(L3 & ->)] end; [|right; split; [lia|auto]].
  match goal with |- context [dbind (needs ?n ?r) (fun _ => ?f) c0] => destruct (needs_cases n r f c0) as [(L4 & ->)|(L4 & ->)] end; [|right; split; [lia|auto]].
  left. auto.
Qed.
Definition day_fits (st : dclient * dserver * (round * round)) : Prop := del_fits (dc_party (fst (fst st))) (ds_party (snd (fst st))).
Lemma del_day_cases st co : stack st co = own st co \/ stack st co = UB.
Proof.
  unfold del_day_stack, del_day_own. unfold dbind at 1 3 5. destruct (dc_run_own _ _ _ _ _ _ co) as [[[c s] co1]| | |]; auto.
  unfold dbind. destruct (del_circuits_cases (dc_party c) (ds_party s) co1) as [(_ & ->)|(_ & [->| ->] & _)]; auto.
Qed.
Lemma del_day_fits st co st' co' : own st co = Ok (st', co') -> (day_fits st' /\ stack st co = Ok (st', co')) \/ (~ day_fits st' /\ stack st co = UB).
Proof.
  intros E. unfold del_day_own in E. apply dbind_Ok in E as ([c s] & co1 & E1 & E). apply dbind_Ok in E as ([[rs ors] rr] & co2 & E2 & E).
  apply dret_Ok in E as (-> & ->). unfold day_fits. cbn [fst snd dc_party]. unfold del_day_stack, dbind. rewrite E1.
  destruct (del_circuits_cases (dc_party c) (ds_party s) co1) as [(F & EQ)|(F & _ & EQ)]; [left|right]; (split; [exact F|]).
  - rewrite EQ, E2. reflexivity.
  - rewrite (EQ _ E2). reflexivity.
Qed.

(** the trace of a run *)
Hypothesis hash_len : forall x, length (hash x) = 256.
Variables (sh nd : nat) (d0 d1 : list (list entry)).
Notation einv := (einv (Gr := Gr) hash V0 V1 sh nd d0 d1).
Lemma own_day_inv j h0 h1 c s rr co c' s' rr' co' : einv j h0 h1 c s -> own (c, s, rr) co = Ok ((c', s', rr'), co') ->
  exists u0 u1, einv (S j) (h0 ++ [u0]) (h1 ++ [u1]) c' s' /\
    length (pt_x (dc_party c')) = positions hash (nth j d0 []) (pt_other (dc_party c)) /\ length (pt_y (ds_party s')) = positions hash (nth j d0 []) (pt_other (dc_party c)) /\
    length (pt_x (ds_party s')) = positions hash (nth j d1 []) (pt_other (ds_party s')) /\ length (pt_y (dc_party c')) = positions hash (nth j d1 []) (pt_other (ds_party s')).
Proof.
  intros I E. unfold del_day_own in E. apply dbind_Ok in E as ([c1 s1] & co1 & E1 & E). apply dbind_Ok in E as ([[rs ors] rr1] & co2 & E2 & E).
  apply dret_Ok in E as (E & ->). injection E as -> -> ->. cbn [fst snd] in E1.
  destruct (sim_coins _ _ _ _ _ (sim_dc_run (Gr := Gr) hash P0 P1 V0 V1 (c, ds_reset s)) E1) as (t & t' & E').
  destruct (day_sizes hash P0 P1 V0 V1 sh nd d0 d1 _ _ _ _ _ _ _ _ _ I E') as (u0 & u1 & I' & X).
  exists u0, u1. cbn [dc_party]. split; auto. destruct I' as [? ? ? ? ? ? ? ?]. constructor; auto.
Qed.
Lemma own_trace : forall k j h0 h1 c s rr co trace co', einv j h0 h1 c s -> j + k <= length d0 -> j + k <= length d1 ->
  length h0 = j -> length h1 = j ->
  int_range (length (concat d0)) -> int_range (length (concat d1)) ->
  run_own own k (c, s, rr) co = Ok (trace, co') ->
  exists g0 g1, length g0 = k /\ length g1 = k /\ map (@length _) (h0 ++ g0) = map (@length _) (firstn (j + k) d0) /\ map (@length _) (h1 ++ g1) = map (@length _) (firstn (j + k) d1) /\
  forall i c' s' r', nth_error trace i = Some (c', s', r') ->
    let a := lookups sh nd (firstn (j + i) (h1 ++ g1)) (map (fun e => hash (fst e)) (nth (j + i) d0 [])) in
    let b := lookups sh nd (firstn (S (j + i)) (h0 ++ g0)) (map (fun e => hash (fst e)) (nth (j + i) d1 [])) in
    length (pt_x (dc_party c')) = a /\ length (pt_y (ds_party s')) = a /\ length (pt_x (ds_party s')) = b /\ length (pt_y (dc_party c')) = b.
Proof.
  induction k as [|k IH]; intros j h0 h1 c s rr co trace co' I B0 B1 L0 L1 R0 R1 E; cbn [run_own] in E.
  - apply dret_Ok in E as (-> & ->). exists [], []. rewrite !app_nil_r, Nat.add_0_r. destruct I. repeat split; auto. all: destruct i; discriminate.
  - apply dbind_Ok in E as ([[c1 s1] rr1] & co1 & E1 & E). apply dbind_Ok in E as (l & co2 & E2 & E). apply dret_Ok in E as (-> & ->).
    destruct (own_day_inv _ _ _ _ _ _ _ _ _ _ _ I E1) as (u0 & u1 & I' & S1 & S2 & S3 & S4).
    destruct (IH (S j) (h0 ++ [u0]) (h1 ++ [u1]) c1 s1 rr1 co1 l co2 I' ltac:(lia) ltac:(lia) ltac:(rewrite app_length; cbn; lia) ltac:(rewrite app_length; cbn; lia) R0 R1 E2) as (g0 & g1 & G0 & G1 & M0 & M1 & F).
    exists (u0 :: g0), (u1 :: g1). rewrite <- !app_assoc in *. cbn [app] in *. replace (j + S k) with (S j + k) by lia.
    split; [cbn; lia|]. split; [cbn; lia|]. split; [exact M0|]. split; [exact M1|].
    intros [|i] c' s' r' EN.
    + cbn [nth_error] in EN. injection EN as <- <- <-. rewrite Nat.add_0_r.
      replace (firstn j (h1 ++ u1 :: g1)) with h1 by (rewrite firstn_app, L1, Nat.sub_diag, <- L1, firstn_all; cbn; rewrite app_nil_r; auto).
      replace (firstn (S j) (h0 ++ u0 :: g0)) with (h0 ++ [u0]).
      2:{ rewrite firstn_app, L0. replace (S j - j) with 1 by lia. rewrite firstn_all2 by lia. reflexivity. }
      assert (Q : forall A (d : list (list A)) n, length (concat (firstn n d)) <= length (concat d)).
      { intros A d n. rewrite <- (firstn_skipn n d) at 2. rewrite concat_app, app_length. lia. }
      assert (Q1 := Q _ d1 j). assert (Q0 := Q _ d0 (S j)). clear Q.
      pose proof I as [_ X1 _ N1 _ _ _ _]. pose proof I' as [X0 _ N0 _ _ _ _ _]. pose proof (concat_len _ _ N1) as C1. pose proof (concat_len _ _ N0) as C0.
      rewrite <- (positions_lookups (Gr := Gr) hash hash_len sh nd V1 h1 _ _ _ X1).
      2:{ unfold int_range in *. lia. }
      rewrite <- (positions_lookups (Gr := Gr) hash hash_len sh nd V0 (h0 ++ [u0]) _ _ _ X0).
      2:{ unfold int_range in *. lia. }
      auto.
    + cbn [nth_error] in EN. replace (j + S i) with (S j + i) by lia. eapply F; eauto.
Qed.
End DelStack.
Lemma run_own_length {S} (day : S -> D S) : forall k st c tr c', run_own day k st c = Ok (tr, c') -> length tr = k.
Proof.
  induction k as [|k IH]; intros st c tr c' E; cbn [run_own] in E; [apply dret_Ok in E as (-> & _); auto|].
  apply dbind_Ok in E as (st1 & c1 & _ & E). apply dbind_Ok in E as (l & c2 & E2 & E). apply dret_Ok in E as (-> & _). cbn [length]. f_equal. eapply IH; eauto.
Qed.
