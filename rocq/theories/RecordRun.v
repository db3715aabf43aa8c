(** * Sharded sorting without I/O failures. *)
Require Import List Arith Lia ZArith Bool Permutation Sorted.
Import ListNotations.
From Verif Require Import Prelude BytesModel CsvModel CsvProofs FileModel FileSpec RecordModel FileProofs RecordProofs.
Local Open Scope Z_scope.

Lemma map_set_nth {A B} (f : A -> B) x : forall l i, set_nth i (f x) (map f l) = map f (set_nth i x l).
Proof. induction l as [|a l IH]; intros [|i]; cbn; auto. rewrite IH; auto. Qed.
Lemma concat_set_nth {A} (d : A) t : forall l i, nth_error l i = Some (d :: t) -> Permutation (concat l) (d :: concat (set_nth i t l)).
Proof.
  induction l as [|a l IH]; intros [|i] N; cbn in *; try discriminate.
  - inversion N; subst. reflexivity.
  - rewrite (IH i N). symmetry. apply Permutation_middle.
Qed.
Lemma concat_set_nil {A} : forall (l : list (list A)) i, nth_error l i = Some [] -> set_nth i [] l = l.
Proof. induction l as [|a l IH]; intros [|i] N; cbn in *; try discriminate. inversion N; auto. rewrite IH; auto. Qed.
Lemma Forall_set_nth {A} (P : A -> Prop) x : forall l i, Forall P l -> P x -> Forall P (set_nth i x l).
Proof. induction l as [|a l IH]; intros [|i] F Q; cbn; auto; inversion F; subst; constructor; auto. Qed.

Section Keyed.
Context {K : Type} (ltb : K -> K -> bool) (key : bytes -> K).
Context (ord : strict_order ltb).
Context (e : env).
Hypothesis RE : reliable e.

Definition le (a b : bytes) : Prop := ltb (key b) (key a) = false.
Lemma klt_asym a b : ltb a b = true -> ltb b a = false.
Proof. intros X. destruct (ltb b a) eqn:Y; auto. pose proof (lt_trans _ ord _ _ _ X Y) as Z. rewrite (lt_irrefl _ ord) in Z. discriminate. Qed.
Lemma kle_trans a b c : ltb b a = false -> ltb c b = false -> ltb c a = false.
Proof.
  intros X Y. destruct (ltb c a) eqn:Z; auto. destruct (ltb a b) eqn:Q.
  - rewrite (lt_trans _ ord _ _ _ Z Q) in Y. discriminate.
  - pose proof (lt_total _ ord _ _ Q X). subst. congruence.
Qed.
Lemma le_trans' a b c : le a b -> le b c -> le a c. Proof. unfold le. apply kle_trans. Qed.

(** ** sorting *)
Lemma insert_perm x l : Permutation (insert ltb key x l) (x :: l).
Proof. induction l as [|y l IH]; cbn; auto. destruct (ltb (key y) (key x)); auto. rewrite IH. apply perm_swap. Qed.
Lemma key_sort_perm l : Permutation (key_sort ltb key l) l.
Proof. induction l as [|x l IH]; cbn; auto. rewrite insert_perm, IH. auto. Qed.
Lemma insert_sorted x l : sorted_by ltb key l -> sorted_by ltb key (insert ltb key x l).
Proof.
  unfold sorted_by. induction 1 as [|y l S IH F]; cbn. { repeat constructor. }
  destruct (ltb (key y) (key x)) eqn:C.
  - constructor; auto. rewrite (insert_perm x l). constructor; auto. apply klt_asym; auto.
  - constructor. { constructor; auto. } constructor; auto. eapply Forall_impl; [|exact F]. intros z Z. eapply kle_trans; eauto.
Qed.
Lemma key_sort_sorted l : sorted_by ltb key (key_sort ltb key l).
Proof. induction l; cbn. constructor. apply insert_sorted; auto. Qed.

(** ** the priority queue *)
Lemma take_min_spec : forall l x m r, take_min (K := K) ltb x l = (m, r) ->
  Permutation (x :: l) (m :: r) /\ Forall (fun y => ltb (ekey y) (ekey m) = false) (x :: l).
Proof.
  induction l as [|y l IH]; intros x m r; cbn [take_min].
  - intros X; inversion X; subst. split; auto. constructor; auto. apply (lt_irrefl _ ord).
  - destruct (ltb (ekey y) (ekey x)) eqn:C.
    + destruct (take_min ltb y l) as [m' r'] eqn:T. intros X; inversion X; subst. destruct (IH _ _ _ T) as [P F]. split.
      * transitivity (x :: m :: r'); [constructor; auto|apply perm_swap].
      * constructor; auto. inversion F; subst. eapply kle_trans; [eassumption|]. apply klt_asym; auto.
    + destruct (take_min ltb x l) as [m' r'] eqn:T. intros X; inversion X; subst. destruct (IH _ _ _ T) as [P F]. split.
      * transitivity (y :: x :: l); [apply perm_swap|]. transitivity (y :: m :: r'); [constructor; auto|apply perm_swap].
      * inversion F; subst. constructor; auto. constructor; auto. eapply kle_trans; [eassumption|]. exact C.
Qed.
Lemma pop_spec t (h : list (entry (K := K))) : h <> [] -> exists m r, pop ltb t h = Some (m, r) /\ Permutation h (m :: r) /\
  Forall (fun y => ltb (ekey y) (ekey m) = false) r.
Proof.
  intros NE. unfold pop. set (k := (t mod length h)%nat).
  assert (Permutation h (skipn k h ++ firstn k h)) as P. { rewrite Permutation_app_comm, firstn_skipn. auto. }
  destruct (skipn k h ++ firstn k h) as [|x l] eqn:Q. { symmetry in P. apply Permutation_nil in P. congruence. }
  destruct (take_min ltb x l) as [m r] eqn:T. destruct (take_min_spec _ _ _ _ T) as [PP F].
  exists m, r. split; auto. split. { rewrite P, PP. auto. } rewrite PP in F. inversion F; auto.
Qed.

(** ** the readers of a set of record files *)
Definition loaded (rem : list (list bytes)) : list handle := map (fun r => Reading (file_of r) false) rem.
Definition pending (hp : list (entry (K := K))) (rem : list (list bytes)) : list bytes := map edata hp ++ concat rem.
Definition covers (hp : list (entry (K := K))) (rem : list (list bytes)) (j : nat) : Prop :=
  forall r, nth_error rem j = Some r -> r <> [] -> exists x, In x hp /\ eindex x = j /\ Forall (le (edata x)) r.
Record inv (cov : nat -> Prop) (hp : list (entry (K := K))) (rem : list (list bytes)) : Prop := {
  i_short : Forall (Forall short) rem;
  i_sorted : Forall (sorted_by ltb key) rem;
  i_entries : Forall (fun x => (eindex x < length rem)%nat /\ ekey x = key (edata x) /\ short (edata x)) hp;
  i_cov : forall j, cov j -> covers hp rem j
}.
Lemma nonempty_file r : (match file_of r with [] => false | _ => true end) = (match r with [] => false | _ => true end).
Proof.
  destruct r as [|d r]; auto. unfold file_of. cbn [flat_map]. pose proof (frame_nonempty d). destruct (frame d); auto; congruence.
Qed.
Lemma set_nth_length' {A} (x : A) l i : length (set_nth i x l) = length l. Proof. apply set_nth_length. Qed.

Lemma refill_calm cov i r hp rem w : inv cov hp rem -> nth_error rem i = Some r ->
  exists t hp' rem', refill e key i (mkMulti (loaded rem) hp, w) = ((mkMulti (loaded rem') hp', mkWorld (files w) t), Ok tt) /\
    inv (fun j => cov j \/ j = i) hp' rem' /\ Permutation (pending hp' rem') (pending hp rem) /\ length rem' = length rem /\ incl hp hp' /\
    (forall j, j <> i -> nth_error rem' j = nth_error rem j).
Proof.
  intros [SH SO EN CO] N. assert (i < length rem)%nat as L by (apply nth_error_Some; congruence).
  unfold refill, on_reader at 1, sbind at 1. cbn [readers heap].
  assert (nth_error (loaded rem) i = Some (Reading (file_of r) false)) as NL by (unfold loaded; apply (map_nth_error (fun r => Reading (file_of r) false)); auto).
  rewrite NL. destruct (has_more_calm e RE (file_of r) w) as [t1 X1]. rewrite X1, nonempty_file.
  assert (set_nth i (Reading (file_of r) false) (loaded rem) = loaded rem) as SL.
  { unfold loaded. rewrite (map_set_nth (fun r => Reading (file_of r) false) r). f_equal. clear - N. revert i N. induction rem as [|a l IH]; intros [|i] N; cbn in *; try discriminate; [congruence|]. rewrite IH; auto. }
  rewrite SL. destruct r as [|d r].
  - exists t1, hp, rem. split; [reflexivity|]. split; [|auto using incl_refl].
    constructor; auto. intros j [C| ->]; auto. intros r' N' NE. congruence.
  - assert (Forall short (d :: r)) as SD by (rewrite Forall_forall in SH; apply SH; eapply nth_error_In; eauto).
    assert (sorted_by ltb key (d :: r)) as SS by (rewrite Forall_forall in SO; apply SO; eapply nth_error_In; eauto).
    inversion SD; subst. inversion SS as [|? ? SR FR]; subst.
    unfold sbind, on_reader. cbn [readers heap]. rewrite NL. unfold file_of. cbn [flat_map]. fold (file_of r).
    destruct (record_read_frame e RE d (file_of r) (mkWorld (files w) t1)) as [t2 X2]; [unfold short in *; lia|]. rewrite X2.
    exists t2, (hp ++ [(key d, d, i)]), (set_nth i r rem). split.
    { unfold loaded. cbn [readers heap]. rewrite <- (map_set_nth (fun r => Reading (file_of r) false)). reflexivity. }
    split; [|split; [|split; [apply set_nth_length|split; [apply incl_appl, incl_refl|intros j NE; apply set_nth_other; auto]]]].
    + constructor.
      * apply Forall_set_nth; auto.
      * apply Forall_set_nth; auto.
      * rewrite Forall_app. rewrite set_nth_length. split; auto.
      * intros j C r' N' NE. destruct (Nat.eq_dec i j) as [->|NJ].
        -- rewrite set_nth_same in N' by auto. inversion N'; subst. exists (key d, d, j). split; [apply in_app_iff; right; left; auto|]. split; auto.
        -- rewrite set_nth_other in N' by auto. destruct C as [C|C]; [|congruence]. destruct (CO j C r' N' NE) as (x & A & B & D). exists x. split; auto. apply in_app_iff; auto.
    + unfold pending. rewrite map_app. cbn [map edata fst snd]. rewrite (concat_set_nth d r rem i N), <- app_assoc. reflexivity.
Qed.
Lemma fill_calm : forall l cov hp rem w, inv cov hp rem -> Forall (fun i => (i < length rem)%nat) l ->
  exists t hp' rem', each (refill e key) l (mkMulti (loaded rem) hp, w) = ((mkMulti (loaded rem') hp', mkWorld (files w) t), Ok tt) /\
    inv (fun j => cov j \/ In j l) hp' rem' /\ Permutation (pending hp' rem') (pending hp rem) /\ length rem' = length rem.
Proof.
  induction l as [|i l IH]; intros cov hp rem w IV F; cbn [each].
  - destruct w as [fs t]. exists t, hp, rem. split; [reflexivity|]. split; auto. destruct IV; constructor; auto. intros j [C|[]]; auto.
  - inversion F as [|? ? L FL]; subst. destruct (nth_error rem i) as [r|] eqn:N. 2:{ apply nth_error_None in N. lia. }
    destruct (refill_calm cov i r hp rem w IV N) as (t1 & hp1 & rem1 & X1 & IV1 & P1 & L1 & _).
    rewrite (sbind_run _ _ _ _ _ X1). destruct (IH _ hp1 rem1 (mkWorld (files w) t1) IV1) as (t2 & hp2 & rem2 & X2 & IV2 & P2 & L2).
    { rewrite L1; auto. }
    cbn [files] in X2. exists t2, hp2, rem2. split; auto. split; [|split; [rewrite P2; auto|congruence]].
    destruct IV2; constructor; auto. intros j [C|[->|C]]; auto.
Qed.
Lemma multi_read_calm cov hp rem w : inv cov hp rem -> (hp <> [] -> forall j, cov j) -> pending hp rem <> [] ->
  exists t d i hp' rem', multi_read e ltb key (mkMulti (loaded rem) hp, w) = ((mkMulti (loaded rem') hp', mkWorld (files w) t), Ok (d, i)) /\
    inv (fun _ => True) hp' rem' /\ Permutation (pending hp rem) (d :: pending hp' rem') /\ Forall (le d) (pending hp' rem') /\ short d /\ length rem' = length rem.
Proof.
  intros IV CV NE.
  assert (exists t hp1 rem1, (fun '(s, w) => match heap s with [] => each (refill e key) (seq 0 (length (readers s))) (s, w) | _ => ((s, w), Ok tt) end)
     (mkMulti (loaded rem) hp, w) = ((mkMulti (loaded rem1) hp1, mkWorld (files w) t), Ok tt) /\
     inv (fun _ => True) hp1 rem1 /\ Permutation (pending hp1 rem1) (pending hp rem) /\ length rem1 = length rem) as (t1 & hp1 & rem1 & X1 & IV1 & P1 & L1).
  { cbn [heap readers]. destruct hp as [|x hp].
    - destruct (fill_calm (seq 0 (length rem)) cov [] rem w IV) as (t & hp1 & rem1 & X & IV1 & P & L).
      { rewrite Forall_forall. intros j J. apply in_seq in J. lia. }
      assert (length (loaded rem) = length rem) as LL by apply map_length. rewrite LL.
      exists t, hp1, rem1. split; [exact X|]. split; auto. destruct IV1 as [A B C D]. constructor; auto. intros j _.
      intros r N NR. apply (D j); auto. right. apply in_seq. rewrite <- L. split; [lia|]. apply nth_error_Some. congruence.
    - destruct w as [fs t]. exists t, (x :: hp), rem. split; [reflexivity|]. split; auto. destruct IV as [A B C D]. constructor; auto. intros j _. apply D. apply CV. discriminate. }
  unfold multi_read. unfold sbind at 1. rewrite X1. unfold sbind at 1. cbn [heap readers].
  assert (hp1 <> []) as NE1.
  { intros ->. apply NE. apply Permutation_nil. rewrite <- P1. unfold pending. cbn [map app].
    assert (forall r, In r rem1 -> r = []) as Q.
    { intros r I. apply In_nth_error in I as [j N]. destruct r as [|d r]; auto.
      destruct (i_cov _ _ _ IV1 j Logic.I _ N ltac:(discriminate)) as (x & [] & _). }
    clear - Q. induction rem1 as [|r l IH]; cbn [concat]; auto. rewrite (Q r) by (left; auto). apply IH; intros r' I'; apply Q; right; auto. }
  destruct (pop_spec (tie e (tick (mkWorld (files w) t1))) hp1 NE1) as (m & hp2 & XP & PP & FM). rewrite XP.
  destruct IV1 as [SH SO EN CO]. assert (In m hp1) as IM by (rewrite PP; left; auto).
  assert (Forall (fun x => (eindex x < length rem1)%nat /\ ekey x = key (edata x) /\ short (edata x)) (m :: hp2)) as EN2 by (rewrite <- PP; auto).
  inversion EN2 as [|? ? (LM & KM & SM') EN3]; subst.
  destruct (nth_error rem1 (eindex m)) as [r|] eqn:N. 2:{ apply nth_error_None in N. lia. }
  assert (inv (fun j => j <> eindex m) hp2 rem1) as IV2.
  { constructor; auto. intros j J r' N' NR. destruct (CO j Logic.I r' N' NR) as (x & A & B & C). exists x. split; auto.
    rewrite PP in A. destruct A as [->|A]; auto. congruence. }
  destruct (refill_calm _ (eindex m) r hp2 rem1 (mkWorld (files w) t1) IV2 N) as (t2 & hp3 & rem3 & X3 & IV3 & P3 & L3 & _).
  rewrite (sbind_run _ _ _ _ _ X3). exists t2, (edata m), (eindex m), hp3, rem3. split; [reflexivity|].
  split; [|split; [|split; [|split; [auto|congruence]]]].
  - destruct IV3 as [A B C D]. constructor; auto. intros j _. apply D. destruct (Nat.eq_dec j (eindex m)); auto.
  - rewrite <- P1, P3. unfold pending. rewrite PP. reflexivity.
  - rewrite P3. unfold pending. rewrite Forall_app, Forall_map. split.
    + rewrite Forall_forall in FM, EN3 |- *. intros x I. destruct (EN3 x I) as (_ & KX & _). unfold le. rewrite <- KX, <- KM. apply FM; auto.
    + rewrite Forall_forall. intros y Y. apply in_concat in Y as (r' & R & Y). apply In_nth_error in R as [j NJ].
      destruct (CO j Logic.I r' NJ) as (x & A & B & C). { intros ->; destruct Y. }
      rewrite Forall_forall in C. specialize (C y Y). rewrite PP in A. destruct A as [->|A]; auto.
      eapply le_trans'; [|exact C]. unfold le. rewrite Forall_forall in FM, EN3. destruct (EN3 x A) as (_ & KX & _). rewrite <- KX, <- KM. apply FM; auto.
Qed.
Lemma any_more_calm : forall rem w, exists t, any_more e (loaded rem) (Ok false) w =
  (mkWorld (files w) t, Ok (loaded rem, Ok (match concat rem with [] => false | _ => true end))).
Proof.
  induction rem as [|r rem IH]; intros w; cbn [loaded map any_more concat].
  - destruct w as [fs t]. exists t. reflexivity.
  - destruct (has_more_calm e RE (file_of r) w) as [t1 X1]. rewrite X1, nonempty_file. destruct r as [|d r]; cbn [app].
    + destruct (IH (mkWorld (files w) t1)) as [t2 X2]. unfold loaded in X2. rewrite X2. eexists; reflexivity.
    + eexists; reflexivity.
Qed.
Lemma multi_has_more_calm hp rem w : exists t, multi_has_more e (mkMulti (loaded rem) hp, w) =
  ((mkMulti (loaded rem) hp, mkWorld (files w) t), Ok (match pending hp rem with [] => false | _ => true end)).
Proof.
  unfold multi_has_more. cbn [heap readers]. destruct hp as [|x hp].
  - destruct (any_more_calm rem w) as [t X]. rewrite X. exists t. reflexivity.
  - destruct w as [fs t]. exists t. reflexivity.
Qed.
Lemma merge_loop_calm out : forall n fuel cov hp rem w c, length (pending hp rem) = n -> (n < fuel)%nat -> inv cov hp rem -> (hp <> [] -> forall j, cov j) ->
  files w out = Some c ->
  exists outl rem' w', merge_loop e ltb key fuel (mkMulti (loaded rem) hp, Writing out, w) = ((mkMulti (loaded rem') [], Writing out, w'), Ok tt) /\
    files w' out = Some (c ++ file_of outl) /\ same_except [out] w w' /\ Permutation outl (pending hp rem) /\ sorted_by ltb key outl.
Proof.
  induction n as [|n IH]; intros fuel cov hp rem w c L LF IV CV FO; (destruct fuel as [|fuel]; [lia|]); cbn [merge_loop];
    destruct (multi_has_more_calm hp rem w) as [t X]; unfold value, in_multi, sbind at 1; rewrite X.
  - assert (pending hp rem = []) as PN by (destruct (pending hp rem); auto; discriminate). rewrite PN.
    assert (hp = []) as -> by (unfold pending in PN; destruct hp; [auto|discriminate]).
    exists [], rem, (mkWorld (files w) t). split; [reflexivity|]. cbn. rewrite app_nil_r. split; auto. split; [red; auto|]. split; [rewrite ?PN; constructor|constructor].
  - assert (pending hp rem <> []) as NE by (destruct (pending hp rem); [discriminate|congruence]).
    replace (match pending hp rem with [] => false | _ => true end) with true by (destruct (pending hp rem); congruence).
    destruct (multi_read_calm cov hp rem (mkWorld (files w) t) IV CV NE) as (t1 & d & i & hp1 & rem1 & X1 & IV1 & P1 & F1 & SD & L1).
    unfold sbind at 1. cbn [files] in X1. rewrite X1. unfold sbind at 1, in_writer at 1. cbn [fst].
    destruct (record_write_calm e RE out d (mkWorld (files w) t1) SD) as [t2 X2]. rewrite X2. cbn [files].
    unfold content. cbn [files]. rewrite FO.
    set (w2 := mkWorld (upd (files w) out (Some (c ++ frame d))) t2).
    destruct (IH fuel (fun _ => True) hp1 rem1 w2 (c ++ frame d)) as (outl & rem' & w' & X3 & FF & SE & PP & SS); auto.
    { apply Permutation_length in P1. cbn in P1. lia. }
    { lia. }
    { cbn [files w2]. apply upd_eq. }
    exists (d :: outl), rem', w'. split; [exact X3|]. split; [rewrite FF, <- app_assoc; reflexivity|].
    split; [|split; [rewrite P1, PP; auto|]].
    + intros k NK. rewrite SE by auto. cbn [files w2]. apply upd_neq. intros ->. apply NK; left; auto.
    + constructor; auto. rewrite PP. exact F1.
Qed.
Lemma multi_open_calm : forall names recs opened (s : multi (K := K)) w, Forall2 (fun n r => files w n = Some (file_of r)) names recs ->
  exists t, multi_open_loop e names (rev (loaded opened)) (s, w) = ((mkMulti (loaded (opened ++ recs)) (heap s), mkWorld (files w) t), Ok tt).
Proof.
  induction names as [|n ns IH]; intros recs opened s w F; inversion F; subst; cbn [multi_open_loop].
  - destruct w as [fs t]. exists t. rewrite rev_involutive, app_nil_r. reflexivity.
  - destruct (open_r e RE n _ w ltac:(eassumption)) as [t1 X1]. rewrite X1.
    destruct (IH l' (opened ++ [y]) s (mkWorld (files w) t1)) as [t2 X2]; auto.
    rewrite <- app_assoc in X2. cbn [app files] in X2. exists t2. rewrite <- X2. f_equal. unfold loaded. rewrite map_app, rev_app_distr. reflexivity.
Qed.
Lemma close_all_calm : forall rem w, exists t hs, close_all e (loaded rem) w = (mkWorld (files w) t, Ok (hs, Ok tt)).
Proof.
  induction rem as [|r rem IH]; intros w; cbn [loaded map close_all].
  - destruct w as [fs t]. exists t, []. reflexivity.
  - destruct (close_r e RE (file_of r) false w) as [t1 X1]. rewrite X1. destruct (IH (mkWorld (files w) t1)) as (t2 & hs & X2).
    unfold loaded in X2. rewrite X2. do 2 eexists; reflexivity.
Qed.
Lemma file_size r : (length r <= length (file_of r))%nat.
Proof.
  induction r as [|d r IH]; [auto|]. unfold file_of. cbn [flat_map length]. fold (file_of r). rewrite app_length.
  pose proof (frame_nonempty d). destruct (frame d); [congruence|]. cbn [length]. lia.
Qed.
Lemma pending_size rem : (length (concat rem) <= list_sum (map (handle_size) (loaded rem)))%nat.
Proof.
  induction rem as [|r rem IH]; [auto|]. cbn [concat loaded map list_sum fold_right handle_size]. rewrite app_length.
  pose proof (file_size r). unfold list_sum, loaded in IH. unfold bytes in *. lia.
Qed.
Lemma merge_calm shards recs out w : Forall2 (fun n r => files w n = Some (file_of r)) shards recs -> ~ In out shards ->
  Forall (Forall short) recs -> Forall (sorted_by ltb key) recs ->
  exists outl w', merge e ltb key shards out (multi_new, Closed, w) = ((multi_new, Closed, w'), Ok tt) /\
    files w' out = Some (file_of outl) /\ same_except [out] w w' /\ Permutation outl (concat recs) /\ sorted_by ltb key outl.
Proof.
  intros F NO SH SO. unfold merge.
  assert (exists w0, (match shards with [] => in_writer (K := K) (posix_open e out FileModel.W) ;;; in_writer (posix_close e) | _ => sret tt end) (multi_new, Closed, w)
     = ((multi_new, Closed, w0), Ok tt) /\ same_except [out] w w0) as (w0 & X0 & S0).
  { destruct shards as [|n ns]; [|exists w; split; [reflexivity|red; auto]].
    destruct (open_w e RE out w) as [t1 X1]. destruct (close_w e RE out (mkWorld (upd (files w) out (Some [])) t1)) as [t2 X2].
    eexists. unfold sbind, in_writer. rewrite X1, X2. split; [reflexivity|]. intros k NK. cbn. apply upd_neq. intros ->. apply NK; left; auto. }
  rewrite (sbind_run _ _ _ _ _ X0).
  assert (Forall2 (fun n r => files w0 n = Some (file_of r)) shards recs) as F0.
  { clear - F NO S0. induction F as [|n r ns rs H F IH]; constructor; auto.
    - rewrite S0; auto. intros [->|[]]. apply NO; left; auto.
    - apply IH. intros I; apply NO; right; auto. }
  destruct (multi_open_calm shards recs [] multi_new w0 F0) as [t1 X1]. change (rev (loaded [])) with (@nil handle) in X1. cbn [app multi_new heap] in X1.
  unfold sbind at 1, in_multi at 1, multi_open. cbn [multi_new readers]. rewrite X1.
  destruct (open_w e RE out (mkWorld (files w0) t1)) as [t2 X2]. unfold sbind at 1, in_writer at 1. rewrite X2. cbn [files].
  destruct (merge_loop_calm out (length (pending [] recs)) (S (multi_size (mkMulti (K := K) (loaded recs) []))) (fun _ => False) [] recs
     (mkWorld (upd (files w0) out (Some [])) t2) []) as (outl & rem' & w' & X3 & FF & SE & PP & SS); auto.
  { unfold pending, multi_size. cbn [map app heap readers length]. pose proof (pending_size recs). lia. }
  { constructor; auto. intros j []. }
  { apply upd_eq. }
  unfold sbind at 1. cbv beta iota. rewrite X3. destruct (close_w e RE out w') as [t4 X4]. unfold sbind at 1, in_writer at 1. rewrite X4.
  destruct (close_all_calm rem' (mkWorld (files w') t4)) as (t5 & hs & X5). unfold in_multi, multi_close. cbn [readers]. rewrite X5.
  exists outl, (mkWorld (files w') t5). split; [reflexivity|]. cbn [files]. split; auto. split; auto.
  intros k NK. cbn [files]. rewrite SE by auto. cbn [files]. rewrite upd_neq; [apply S0; auto|]. intros ->. apply NK; left; auto.
Qed.
End Keyed.
