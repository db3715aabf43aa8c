(** The set-level part of C22: which values a day produces, and what the loop
    over the updates does with them. *)
Require Import List Arith Lia ZArith Permutation Bool.
Import ListNotations.
From Verif Require Import Prelude TreeModel TreeSpec TreeDelModel TreeDelSpec TreeDelProofs Coins NumTheory AddSpec AddRun DelModel DelSpec DelProofs PsiModel PsiSpec.
Local Open Scope Z_scope.

Lemma mem_In x l : mem x l = true <-> In x l.
Proof. unfold mem. rewrite existsb_exists. split; [intros (y & H & E); apply Z.eqb_eq in E; subst; auto|intros H; exists x; rewrite Z.eqb_refl; auto]. Qed.
Lemma mem_nIn x l : mem x l = false <-> ~ In x l.
Proof. rewrite <- mem_In. destruct (mem x l); split; try congruence; intros H; contradict H; auto. Qed.
Lemma mem_app x a b : mem x (a ++ b) = mem x a || mem x b.
Proof. apply existsb_app. Qed.
Lemma without_In x d s : In x (without d s) <-> In x s /\ ~ In x d.
Proof. unfold without. rewrite filter_In, negb_true_iff, mem_nIn. tauto. Qed.
Lemma mem_without x d s : mem x (without d s) = mem x s && negb (mem x d).
Proof. destruct (mem x (without d s)) eqn:E.
  - apply mem_In, without_In in E as (A & B). rewrite (proj2 (mem_In _ _) A), (proj2 (mem_nIn _ _) B). auto.
  - apply mem_nIn in E. rewrite without_In in E. destruct (mem x s) eqn:A; auto. destruct (mem x d) eqn:B; auto.
    apply mem_In in A. apply mem_nIn in B. tauto. Qed.
Lemma both_In x a b : In x (both a b) <-> In x a /\ In x b.
Proof. unfold both. rewrite filter_In, mem_In. tauto. Qed.

(** ** histories *)
Section History.
Variable h : history.
Hypothesis PH : proper_history h.
Lemma day_facts k : (k < length h)%nat ->
  let dels := fst (nth k h ([], [])) in let adds := snd (nth k h ([], [])) in
  NoDup dels /\ NoDup adds /\ incl dels (current k h) /\ (forall x, In x adds -> ~ In x (kept k h)) /\ Forall (fun x => 0 < x < 2 ^ 63) adds.
Proof. intros H. specialize (PH k H). destruct (nth k h ([], [])) as [dels adds]. exact PH. Qed.
Lemma current_S k : current (S k) h = kept k h ++ snd (nth k h ([], [])).
Proof. reflexivity. Qed.
Lemma current_NoDup k : (k <= length h)%nat -> NoDup (current k h).
Proof.
  induction k as [|k IH]; intros L; [constructor|]. rewrite current_S. destruct (day_facts k ltac:(lia)) as (N1 & N2 & I & D & _).
  apply NoDup_app_disj; auto; [apply NoDup_filter; apply IH; lia|]. intros x H1 H2. eapply D; eauto.
Qed.
Lemma kept_NoDup k : (k < length h)%nat -> NoDup (kept k h).
Proof. intros L. apply NoDup_filter, current_NoDup. lia. Qed.
Lemma current_range k : (k <= length h)%nat -> Forall (fun x => 0 < x < 2 ^ 63) (current k h).
Proof.
  induction k as [|k IH]; intros L; [constructor|]. rewrite current_S. destruct (day_facts k ltac:(lia)) as (N1 & N2 & I & D & F).
  apply Forall_app. split; auto. apply Forall_forall. intros x Hx. apply without_In in Hx as (Hx & _). specialize (IH ltac:(lia)). rewrite Forall_forall in IH; auto.
Qed.
Lemma dels_range k : (k < length h)%nat -> Forall (fun x => 0 < x < 2 ^ 63) (fst (nth k h ([], []))).
Proof.
  intros L. destruct (day_facts k L) as (_ & _ & I & _). pose proof (current_range k ltac:(lia)) as F. rewrite Forall_forall in *. auto.
Qed.

(** the net payloads *)
Variable payload : Z -> Z.
Lemma net_map x f l : NoDup l -> net x (map (fun y => (y, f y)) l) = if mem x l then f x else 0.
Proof.
  induction 1 as [|y l NI ND IH]; [reflexivity|]. cbn [map]. rewrite net_cons, IH. cbn [fst snd mem existsb].
  rewrite (Z.eqb_sym x y). destruct (Z.eqb_spec y x) as [->|]; cbn [orb]; [|change (existsb (Z.eqb x) l) with (mem x l); lia].
  apply mem_nIn in NI. rewrite NI. lia.
Qed.
Variable d : list (list entry).
Hypothesis DO : Forall2 (rows_of payload) d h.
Lemma halves_length l : length (halves l) = (2 * length l)%nat.
Proof. induction l as [|r l IH]; cbn [halves flat_map app length]; [reflexivity|]. unfold halves in IH. rewrite IH. lia. Qed.
Lemma nth_halves l : forall k, nth (2 * k) (halves l) [] = filter (fun e => snd e <? 0) (nth k l []) /\ nth (2 * k + 1) (halves l) [] = filter (fun e => 0 <=? snd e) (nth k l []).
Proof.
  induction l as [|r l IH]; intros k; [destruct k; cbn; split; auto; destruct (_ + _)%nat; auto|].
  destruct k as [|k]; [split; reflexivity|]. replace (2 * S k)%nat with (S (S (2 * k))) by lia. replace (S (S (2 * k)) + 1)%nat with (S (S (2 * k + 1))) by lia.
  cbn [halves flat_map app nth]. apply IH.
Qed.
Lemma rows_at k : (k < length h)%nat -> rows_of payload (nth k d []) (nth k h ([], [])).
Proof. intros L. apply (proj2 (proj2 (Forall2_nth _ _ _ [] ([], [])) DO)). rewrite (F2_length _ _ _ DO). auto. Qed.
Lemma net_history k : (k <= length h)%nat -> forall x,
  net x (upto (2 * k) (halves d)) = (if mem x (current k h) then payload x else 0) /\
  ((k < length h)%nat -> net x (upto (2 * k + 1) (halves d)) = if mem x (kept k h) then payload x else 0).
Proof.
  induction k as [|k IH]; intros L x.
  - split; [reflexivity|]. intros L'. change (2 * 0 + 1)%nat with (S (2 * 0)). rewrite upto_S, net_app. change (upto (2 * 0) (halves d)) with (@nil entry). change (net x []) with 0.
    destruct (rows_at 0 L') as (R & _). destruct (nth_halves d 0) as (N & _). rewrite N, R.
    destruct (day_facts 0 L') as (_ & _ & I & _). unfold kept. cbn [current without filter] in *. destruct (fst (nth 0 h ([], []))) as [|y r]; [reflexivity|].
    exfalso. apply (I y). left; auto.
  - destruct (IH ltac:(lia) x) as (IH1 & IH2). specialize (IH2 ltac:(lia)).
    assert (A : net x (upto (2 * S k) (halves d)) = if mem x (current (S k) h) then payload x else 0).
    { replace (2 * S k)%nat with (S (2 * k + 1)) by lia. rewrite upto_S, net_app, IH2. destruct (rows_at k ltac:(lia)) as (_ & R). destruct (nth_halves d k) as (_ & N).
      rewrite N, R. destruct (day_facts k ltac:(lia)) as (N1 & N2 & I & D & _). rewrite net_map by auto. rewrite current_S, mem_app.
      destruct (mem x (kept k h)) eqn:M1, (mem x (snd (nth k h ([], [])))) eqn:M2; cbn [orb]; try lia.
      exfalso. apply mem_In in M1. apply mem_In in M2. eapply D; eauto. }
    split; auto. intros L'. replace (2 * S k + 1)%nat with (S (2 * S k)) by lia. rewrite upto_S, net_app, A.
    destruct (rows_at (S k) L') as (R & _). destruct (nth_halves d (S k)) as (N & _). rewrite N, R.
    destruct (day_facts (S k) L') as (N1 & N2 & I & D & _). rewrite (net_map x (fun y => - payload y)) by auto.
    unfold kept. rewrite mem_without. destruct (mem x (current (S k) h)) eqn:M1, (mem x (fst (nth (S k) h ([], [])))) eqn:M2; cbn [andb negb]; try lia.
    apply mem_nIn in M1. apply mem_In in M2. apply I in M2. tauto.
Qed.
End History.

(** ** the values of a day *)
Definition nonzero (l : list Z) : list Z := filter (fun v => negb (v =? 0)) l.
Lemma nonzero_app a b : nonzero (a ++ b) = nonzero a ++ nonzero b.
Proof. apply filter_app. Qed.
Lemma products_map f l v : products (map (fun y => (y, f y)) l) v = map (fun y => f y * net y v) l.
Proof. unfold products. rewrite map_map. reflexivity. Qed.
Lemma nonzero_map (f : Z -> Z) (p : Z -> bool) (g : Z -> Z) l :
  (forall y, In y l -> f y = (if p y then g y else 0) /\ g y <> 0) -> nonzero (map f l) = map g (filter p l).
Proof.
  induction l as [|y l IH]; intros H; [reflexivity|]. cbn [map nonzero filter]. destruct (H y) as (E & N); [left; auto|]. rewrite E.
  assert (IH' := IH (fun z Hz => H z (or_intror Hz))). unfold nonzero in IH'. destruct (p y); cbn [map].
  - destruct (Z.eqb_spec (g y) 0); [lia|]. cbn [negb]. rewrite IH'. auto.
  - cbn. auto.
Qed.

Section Day.
Variables (h0 h1 : history) (d0 d1 : list (list entry)).
Hypothesis PH0 : proper_history h0.
Hypothesis PH1 : proper_history h1.
Hypothesis DO0 : Forall2 (rows_of (fun x => x)) d0 h0.
Hypothesis DO1 : Forall2 (rows_of (fun _ => 1)) d1 h1.
Hypothesis LEN : length h1 = length h0.
Notation a k := (current k h0). Notation b k := (current k h1).
Notation a' k := (kept k h0). Notation b' k := (kept k h1).

Lemma day_values k : (k < length h0)%nat -> exists R A,
  Permutation (nonzero (values0 k (halves d0) (halves d1) ++ values1 k (halves d0) (halves d1))) (map Z.opp R ++ A) /\
  NoDup R /\ NoDup A /\
  (forall x, In x R <-> In x (both (a k) (b k)) /\ ~ In x (both (a' k) (b' k))) /\
  (forall x, In x A <-> In x (both (a (S k)) (b (S k))) /\ ~ In x (both (a' k) (b' k))).
Proof.
  intros L. set (D0 := fst (nth k h0 ([], []))). set (A0 := snd (nth k h0 ([], []))). set (D1 := fst (nth k h1 ([], []))). set (A1 := snd (nth k h1 ([], []))).
  destruct (day_facts h0 PH0 k L) as (ND0 & NA0 & ID0 & DA0 & RA0). destruct (day_facts h1 PH1 k ltac:(lia)) as (ND1 & NA1 & ID1 & DA1 & RA1). fold D0 A0 in ND0, NA0, ID0, DA0, RA0. fold D1 A1 in ND1, NA1, ID1, DA1, RA1.
  assert (RD0 := dels_range h0 PH0 k L). assert (RD1 := dels_range h1 PH1 k ltac:(lia)). fold D0 D1 in RD0, RD1.
  rewrite Forall_forall in RA0, RA1, RD0, RD1.
  exists (filter (fun x => mem x (b k)) D0 ++ filter (fun x => mem x (a' k)) D1), (filter (fun x => mem x (b' k)) A0 ++ filter (fun x => mem x (a (S k))) A1).
  split; [|split; [|split; [|split]]].
  - assert (E : nonzero (values0 k (halves d0) (halves d1) ++ values1 k (halves d0) (halves d1))
       = (map Z.opp (filter (fun x => mem x (b k)) D0) ++ filter (fun x => mem x (b' k)) A0) ++ map Z.opp (filter (fun x => mem x (a' k)) D1) ++ filter (fun x => mem x (a (S k))) A1).
    { unfold values0, values1. destruct (nth_halves d0 k) as (N1 & N2). destruct (nth_halves d1 k) as (N3 & N4). rewrite N1, N2, N3, N4.
      destruct (rows_at h0 (fun x => x) d0 DO0 k L) as (R1 & R2). destruct (rows_at h1 (fun _ => 1) d1 DO1 k ltac:(lia)) as (R3 & R4).
      rewrite R1, R2, R3, R4. fold D0 A0 D1 A1. rewrite !nonzero_app.
      replace (2 * k + 2)%nat with (2 * S k)%nat by lia.
      rewrite (products_map (fun y => - y)), (products_map (fun y => y)), (products_map (fun y => -1)), (products_map (fun y => 1)).
      assert (H0 : forall x, net x (upto (2 * k + 1) (halves d0)) = if mem x (a' k) then x else 0) by (intros x; apply (net_history h0 PH0 (fun x => x) d0 DO0 k ltac:(lia) x); auto).
      assert (H0' : forall x, net x (upto (2 * S k) (halves d0)) = if mem x (a (S k)) then x else 0) by (intros x; apply (net_history h0 PH0 (fun x => x) d0 DO0 (S k) ltac:(lia) x)).
      assert (H1 : forall x, net x (upto (2 * k) (halves d1)) = if mem x (b k) then 1 else 0) by (intros x; apply (net_history h1 PH1 (fun _ => 1) d1 DO1 k ltac:(lia) x)).
      assert (H1' : forall x, net x (upto (2 * k + 1) (halves d1)) = if mem x (b' k) then 1 else 0) by (intros x; apply (net_history h1 PH1 (fun _ => 1) d1 DO1 k ltac:(lia) x); lia).
      rewrite (nonzero_map _ (fun x => mem x (b k)) Z.opp D0); [|intros y Hy; cbv beta; rewrite H1; specialize (RD0 y Hy); destruct (mem y (b k)); split; lia].
      rewrite (nonzero_map _ (fun x => mem x (b' k)) (fun x => x) A0); [|intros y Hy; cbv beta; rewrite H1'; specialize (RA0 y Hy); destruct (mem y (b' k)); split; lia].
      rewrite (nonzero_map _ (fun x => mem x (a' k)) Z.opp D1); [|intros y Hy; cbv beta; rewrite H0; specialize (RD1 y Hy); destruct (mem y (a' k)); split; lia].
      rewrite (nonzero_map _ (fun x => mem x (a (S k))) (fun x => x) A1); [|intros y Hy; cbv beta; rewrite H0'; specialize (RA1 y Hy); destruct (mem y (a (S k))); split; lia].
      rewrite !map_id. auto. }
    rewrite E, map_app, <- !app_assoc. apply Permutation_app_head. rewrite !app_assoc. apply Permutation_app_tail. apply Permutation_app_comm.
  - apply NoDup_app_disj; try (apply NoDup_filter; auto). intros x Hx Hy. apply filter_In in Hx as (Hx & _). apply filter_In in Hy as (_ & Hy).
    apply mem_In, without_In in Hy as (_ & Hy). auto.
  - apply NoDup_app_disj; try (apply NoDup_filter; auto). intros x Hx Hy. apply filter_In in Hx as (_ & Hx). apply filter_In in Hy as (Hy & _).
    apply mem_In in Hx. eapply DA1; eauto.
  - intros x. rewrite in_app_iff, !filter_In, !mem_In, !both_In. unfold kept. fold D0 D1. rewrite !without_In.
    destruct (in_dec Z.eq_dec x D0) as [i|i], (in_dec Z.eq_dec x D1) as [j|j]; try pose proof (ID0 _ i); try pose proof (ID1 _ j); tauto.
  - intros x. rewrite in_app_iff, !filter_In, !mem_In, !both_In, !current_S, !in_app_iff. fold A0 A1. specialize (DA0 x). specialize (DA1 x).
    destruct (in_dec Z.eq_dec x A0), (in_dec Z.eq_dec x A1), (in_dec Z.eq_dec x (a' k)), (in_dec Z.eq_dec x (b' k)); tauto.
Qed.
End Day.

(** ** the loop over the updates *)
Lemma set_mem_In x l : set_mem x l = true <-> In x l.
Proof. apply mem_In. Qed.
Lemma set_insert_In x y l : In y (set_insert x l) <-> y = x \/ In y l.
Proof.
  unfold set_insert. destruct (set_mem x l) eqn:E; [|cbn; split; intros [H|H]; auto].
  apply set_mem_In in E. split; [auto|intros [->|H]; auto].
Qed.
Lemma set_insert_NoDup x l : NoDup l -> NoDup (set_insert x l).
Proof. unfold set_insert. destruct (set_mem x l) eqn:E; auto. intros H. constructor; auto. intros I. apply set_mem_In in I. congruence. Qed.
Lemma set_erase_In x y l : In y (set_erase x l) <-> In y l /\ y <> x.
Proof. unfold set_erase. rewrite filter_In, negb_true_iff, Z.eqb_neq. tauto. Qed.
Lemma to_signed_mod v : - 2 ^ 63 <= v < 2 ^ 63 -> to_signed (v mod 2 ^ 64) = v.
Proof.
  intros H. unfold to_signed. destruct (Z.lt_ge_cases v 0).
  - replace (v mod 2 ^ 64) with (v + 2 ^ 64). { destruct (Z.ltb_spec (v + 2 ^ 64) (2 ^ 63)); lia. }
    replace v with (v + 2 ^ 64 + (-1) * 2 ^ 64) at 2 by lia. rewrite Z.mod_add by lia. rewrite Z.mod_small; lia.
  - rewrite Z.mod_small by lia. destruct (Z.ltb_spec v (2 ^ 63)); lia.
Qed.
Definition sign_count (l : list Z) : Z := total (map (fun v => if v <? 0 then -1 else 1) l).
Lemma apply_updates_count U : Forall (fun u => to_signed u <> - 2 ^ 63) U -> forall r S, exists S',
  apply_updates U (r mod 2 ^ 64, S) = Ok ((r + sign_count (map to_signed U)) mod 2 ^ 64, S').
Proof.
  induction 1 as [|u U Hu F IH]; intros r S.
  - exists S. cbn [apply_updates map]. unfold sign_count; cbn. rewrite Z.add_0_r. auto.
  - cbn [apply_updates map]. unfold apply_update. destruct (Z.eqb_spec (to_signed u) (- 2 ^ 63)); [contradiction|]. cbn [obind fst snd].
    set (S1 := if set_mem _ S then _ else _). unfold sign_count. cbn [map]. rewrite total_cons. fold (sign_count (map to_signed U)).
    destruct (to_signed u <? 0).
    + rewrite Zminus_mod_idemp_l. destruct (IH (r - 1) S1) as (S' & E). exists S'. rewrite E. do 3 f_equal. ring.
    + rewrite Zplus_mod_idemp_l. destruct (IH (r + 1) S1) as (S' & E). exists S'. rewrite E. do 3 f_equal. ring.
Qed.
Lemma apply_updates_set U : forall R A S r, Permutation (map to_signed U) (map Z.opp R ++ A) ->
  NoDup R -> NoDup A -> NoDup S -> (forall x, In x R -> ~ In x A) -> incl R S -> (forall x, In x A -> ~ In x S) ->
  Forall (fun x => 0 < x < 2 ^ 63) S -> Forall (fun x => 0 < x < 2 ^ 63) A ->
  exists r' S', apply_updates U (r, S) = Ok (r', S') /\ NoDup S' /\ forall x, In x S' <-> (In x S /\ ~ In x R) \/ In x A.
Proof.
  induction U as [|u U IH]; intros R A S r PM NR NA NS DIS IR IA FS FA.
  - cbn [map] in PM. apply Permutation_nil in PM. apply app_eq_nil in PM as (E1 & ->). apply map_eq_nil in E1. subst R.
    exists r, S. split; [reflexivity|]. split; auto. intros x. cbn. tauto.
  - cbn [map] in PM. assert (IN : In (to_signed u) (map Z.opp R ++ A)) by (eapply Permutation_in; [exact PM|left; auto]).
    pose proof FS as FS'. pose proof FA as FA'. rewrite Forall_forall in FS', FA'.
    cbn [apply_updates]. unfold apply_update. apply in_app_iff in IN as [IN|IN].
    + apply in_map_iff in IN as (x & E & HR). rewrite <- E in *. assert (Bx := FS' x (IR x HR)).
      destruct (Z.eqb_spec (- x) (- 2 ^ 63)); [lia|]. cbn [obind fst snd]. rewrite Z.opp_involutive.
      rewrite (proj2 (set_mem_In x S) (IR x HR)).
      apply in_split in HR as (R1 & R2 & ->). rewrite map_app in PM. cbn [map] in PM. rewrite <- app_assoc in PM. cbn [app] in PM.
      apply Permutation_cons_app_inv in PM. rewrite app_assoc, <- map_app in PM.
      assert (NI : ~ In x (R1 ++ R2)) by (apply NoDup_remove_2; auto). apply NoDup_remove_1 in NR.
      destruct (IH (R1 ++ R2) A (set_erase x S) (if - x <? 0 then (r - 1) mod 2 ^ 64 else (r + 1) mod 2 ^ 64)) as (r' & S' & E' & N' & I'); auto.
      * apply NoDup_filter; auto.
      * intros y Hy. apply DIS. rewrite in_app_iff in *. cbn [In]. tauto.
      * intros y Hy. apply set_erase_In. split; [apply IR; rewrite in_app_iff in *; cbn [In]; tauto|intros ->; contradiction].
      * intros y Hy HS. apply set_erase_In in HS as (HS & _). eapply IA; eauto.
      * apply Forall_forall. intros y Hy. apply set_erase_In in Hy as (Hy & _). auto.
      * exists r', S'. split; [exact E'|]. split; [auto|]. intros y. rewrite I', set_erase_In, !in_app_iff. cbn [In].
        destruct (Z.eq_dec y x) as [->|]; [|intuition congruence]. split; [intros [((_ & N) & _)|H]; [congruence|tauto]|tauto].
    + assert (Bx := FA' _ IN). set (x := to_signed u) in *.
      destruct (Z.eqb_spec x (- 2 ^ 63)); [lia|]. cbn [obind fst snd].
      assert (M : set_mem (- x) S = false). { destruct (set_mem (- x) S) eqn:M; auto. apply set_mem_In in M. apply FS' in M. lia. } rewrite M.
      pose proof (IA x IN) as NS'. pose proof IN as HA. apply in_split in IN as (A1 & A2 & ->). rewrite app_assoc in PM. apply Permutation_cons_app_inv in PM. rewrite <- app_assoc in PM.
      assert (NI : ~ In x (A1 ++ A2)) by (apply NoDup_remove_2; auto). apply NoDup_remove_1 in NA.
      destruct (IH R (A1 ++ A2) (set_insert x S) (if x <? 0 then (r - 1) mod 2 ^ 64 else (r + 1) mod 2 ^ 64)) as (r' & S' & E' & N' & I'); auto.
      * apply set_insert_NoDup; auto.
      * intros y Hy Hy'. apply (DIS y Hy). rewrite in_app_iff in *. cbn [In]. tauto.
      * intros y Hy. apply set_insert_In. auto.
      * intros y Hy HS. apply set_insert_In in HS as [->|HS]; [contradiction|]. apply (IA y); auto. rewrite in_app_iff in *. cbn [In]. tauto.
      * apply Forall_forall. intros y Hy. apply set_insert_In in Hy as [->|Hy]; auto.
      * apply Forall_forall. intros y Hy. apply FA'. rewrite in_app_iff in *. cbn [In]. tauto.
      * exists r', S'. split; [exact E'|]. split; [auto|]. intros y. rewrite I', set_insert_In, !in_app_iff. cbn [In].
        destruct (Z.eq_dec y x) as [->|]; [|intuition congruence]. pose proof (DIS x). tauto.
Qed.
Lemma signed_ext s a a' b : (forall x, In x a <-> In x a') -> signed_change s a b -> signed_change s a' b.
Proof. intros E (N & I). split; auto. intros v. rewrite I, !E. tauto. Qed.
(** one element gained, one element lost *)
Lemma update_gain base now s x r : 0 < x < 2 ^ 63 -> Forall (fun x => 0 < x < 2 ^ 63) base -> Forall (fun x => 0 < x < 2 ^ 63) now -> ~ In x now -> signed_change s now base ->
  forall u, to_signed u = x -> exists r' s', apply_update (r, s) u = Ok (r', s') /\ signed_change s' (x :: now) base.
Proof.
  intros Hx FB FN NI (ND & I) u EU. unfold apply_update. rewrite EU. destruct (Z.eqb_spec x (- 2 ^ 63)); [lia|]. cbn [fst snd].
  rewrite Forall_forall in FB, FN.
  assert (P : forall y, (In y base -> 0 < y) /\ (In y now -> 0 < y)) by (intros y; split; intros Hy; [apply FB in Hy|apply FN in Hy]; lia).
  destruct (set_mem (- x) s) eqn:M; eexists; eexists; (split; [reflexivity|]).
  - apply set_mem_In in M. apply I in M. rewrite Z.opp_involutive in M. assert (B : In x base) by (destruct M as [(M & _)|M]; [apply P in M; lia|tauto]). split; [apply NoDup_filter; auto|].
    intros v. rewrite set_erase_In, I. cbn [In]. destruct (P v) as (P1 & P2), (P (- v)) as (P3 & P4).
    assert (D : (~ In v base /\ ~ In v now) \/ (~ In (- v) base /\ ~ In (- v) now)).
    { destruct (Z.lt_ge_cases 0 v); [right|left]; split; intros C; [apply P3 in C|apply P4 in C|apply P1 in C|apply P2 in C]; lia. }
    assert (X1 : x <> - x) by lia. assert (X2 : - x <> x) by lia. pose proof (eq_refl x) as X3. pose proof (eq_refl (- x)) as X4.
    destruct (Z.eq_dec v x) as [->|N1]; [tauto|].
    destruct (Z.eq_dec v (- x)) as [->|N2]; [rewrite ?Z.opp_involutive in *; tauto|].
    assert (x <> - v) by lia. assert (- v <> x) by lia. assert (x <> v) by congruence. tauto.
  - assert (MM : ~ In (- x) s) by (intros C; apply set_mem_In in C; congruence). rewrite I, Z.opp_involutive in MM. assert (B : ~ In x base) by tauto. split; [apply set_insert_NoDup; auto|].
    intros v. rewrite set_insert_In, I. cbn [In]. destruct (P v) as (P1 & P2), (P (- v)) as (P3 & P4).
    assert (D : (~ In v base /\ ~ In v now) \/ (~ In (- v) base /\ ~ In (- v) now)).
    { destruct (Z.lt_ge_cases 0 v); [right|left]; split; intros C; [apply P3 in C|apply P4 in C|apply P1 in C|apply P2 in C]; lia. }
    assert (X1 : x <> - x) by lia. assert (X2 : - x <> x) by lia. pose proof (eq_refl x) as X3. pose proof (eq_refl (- x)) as X4.
    destruct (Z.eq_dec v x) as [->|N1]; [tauto|].
    destruct (Z.eq_dec v (- x)) as [->|N2]; [rewrite ?Z.opp_involutive in *; tauto|].
    assert (x <> - v) by lia. assert (- v <> x) by lia. assert (x <> v) by congruence. tauto.
Qed.
Lemma update_loss base now s x r : Forall (fun x => 0 < x < 2 ^ 63) base -> Forall (fun x => 0 < x < 2 ^ 63) now -> In x now -> signed_change s now base ->
  forall u, to_signed u = - x -> exists r' s', apply_update (r, s) u = Ok (r', s') /\ signed_change s' (set_erase x now) base.
Proof.
  intros FB FN HI (ND & I) u EU. unfold apply_update. rewrite EU. rewrite Forall_forall in FB, FN. assert (Hx := FN x HI). destruct (Z.eqb_spec (- x) (- 2 ^ 63)); [lia|]. cbn [fst snd]. rewrite Z.opp_involutive.
  assert (P : forall y, (In y base -> 0 < y) /\ (In y now -> 0 < y)) by (intros y; split; intros Hy; [apply FB in Hy|apply FN in Hy]; lia).
  destruct (set_mem x s) eqn:M; eexists; eexists; (split; [reflexivity|]).
  - apply set_mem_In in M. apply I in M. assert (B : ~ In x base) by (destruct M as [(_ & M)|(M & _)]; [auto|apply P in M; lia]). split; [apply NoDup_filter; auto|].
    intros v. rewrite !set_erase_In, I. destruct (P v) as (P1 & P2), (P (- v)) as (P3 & P4).
    assert (D : (~ In v base /\ ~ In v now) \/ (~ In (- v) base /\ ~ In (- v) now)).
    { destruct (Z.lt_ge_cases 0 v); [right|left]; split; intros C; [apply P3 in C|apply P4 in C|apply P1 in C|apply P2 in C]; lia. }
    assert (X1 : x <> - x) by lia. assert (X2 : - x <> x) by lia. pose proof (eq_refl x) as X3. pose proof (eq_refl (- x)) as X4.
    destruct (Z.eq_dec v x) as [->|N1]; [tauto|].
    destruct (Z.eq_dec v (- x)) as [->|N2]; [rewrite ?Z.opp_involutive in *; tauto|].
    assert (x <> - v) by lia. assert (- v <> x) by lia. assert (x <> v) by congruence. tauto.
  - assert (MM : ~ In x s) by (intros C; apply set_mem_In in C; congruence). rewrite I in MM. assert (B : In x base) by (destruct (in_dec Z.eq_dec x base); tauto). split; [apply set_insert_NoDup; auto|].
    intros v. rewrite set_insert_In, !set_erase_In, I. destruct (P v) as (P1 & P2), (P (- v)) as (P3 & P4).
    assert (D : (~ In v base /\ ~ In v now) \/ (~ In (- v) base /\ ~ In (- v) now)).
    { destruct (Z.lt_ge_cases 0 v); [right|left]; split; intros C; [apply P3 in C|apply P4 in C|apply P1 in C|apply P2 in C]; lia. }
    assert (X1 : x <> - x) by lia. assert (X2 : - x <> x) by lia. pose proof (eq_refl x) as X3. pose proof (eq_refl (- x)) as X4.
    destruct (Z.eq_dec v x) as [->|N1]; [tauto|].
    destruct (Z.eq_dec v (- x)) as [->|N2]; [rewrite ?Z.opp_involutive in *; tauto|].
    assert (x <> - v) by lia. assert (- v <> x) by lia. assert (x <> v) by congruence. tauto.
Qed.
Lemma apply_updates_signed base U : Forall (fun x => 0 < x < 2 ^ 63) base -> forall R A now S r, Permutation (map to_signed U) (map Z.opp R ++ A) ->
  NoDup R -> NoDup A -> (forall x, In x R -> ~ In x A) -> incl R now -> (forall x, In x A -> ~ In x now) ->
  Forall (fun x => 0 < x < 2 ^ 63) now -> Forall (fun x => 0 < x < 2 ^ 63) A -> signed_change S now base ->
  exists r' S', apply_updates U (r, S) = Ok (r', S') /\ forall now', (forall x, In x now' <-> (In x now /\ ~ In x R) \/ In x A) -> signed_change S' now' base.
Proof.
  intros FB. induction U as [|u U IH]; intros R A now S r PM NR NA DIS IR IA FN FA SC.
  - cbn [map] in PM. apply Permutation_nil in PM. apply app_eq_nil in PM as (E1 & ->). apply map_eq_nil in E1. subst R.
    exists r, S. split; [reflexivity|]. intros now' HN. eapply signed_ext; [|exact SC]. intros x. rewrite HN. cbn. tauto.
  - cbn [map] in PM. assert (IN : In (to_signed u) (map Z.opp R ++ A)) by (eapply Permutation_in; [exact PM|left; auto]).
    pose proof FN as FN'. pose proof FA as FA'. rewrite Forall_forall in FN', FA'. cbn [apply_updates]. apply in_app_iff in IN as [IN|IN].
    + apply in_map_iff in IN as (x & E & HR). destruct (update_loss base now S x r FB FN (IR x HR) SC u (eq_sym E)) as (r1 & S1 & E1 & SC1). rewrite E1. cbn [obind].
      rewrite <- E in PM. apply in_split in HR as (R1 & R2 & ->). rewrite map_app in PM. cbn [map] in PM. rewrite <- app_assoc in PM. cbn [app] in PM.
      apply Permutation_cons_app_inv in PM. rewrite app_assoc, <- map_app in PM.
      assert (NI : ~ In x (R1 ++ R2)) by (apply NoDup_remove_2; auto). apply NoDup_remove_1 in NR.
      destruct (IH (R1 ++ R2) A (set_erase x now) S1 r1) as (r' & S' & E' & Q); auto.
      * intros y Hy. apply DIS. rewrite in_app_iff in *. cbn [In]. tauto.
      * intros y Hy. apply set_erase_In. split; [apply IR; rewrite in_app_iff in *; cbn [In]; tauto|intros ->; contradiction].
      * intros y Hy HS. apply set_erase_In in HS as (HS & _). eapply IA; eauto.
      * apply Forall_forall. intros y Hy. apply set_erase_In in Hy as (Hy & _). auto.
      * exists r', S'. split; [exact E'|]. intros now' HN. apply Q. intros y. rewrite HN, set_erase_In, !in_app_iff. cbn [In].
        destruct (Z.eq_dec y x) as [->|]; [|intuition congruence]. split; [intros [(_ & C)|C]; [exfalso; apply C; tauto|tauto]|intros [((_ & C) & _)|C]; [congruence|tauto]].
    + assert (Bx := FA' _ IN). set (x := to_signed u) in *. destruct (update_gain base now S x r Bx FB FN (IA x IN) SC u eq_refl) as (r1 & S1 & E1 & SC1). rewrite E1. cbn [obind].
      pose proof (IA x IN) as NX. pose proof IN as HA. apply in_split in IN as (A1 & A2 & ->). rewrite app_assoc in PM. apply Permutation_cons_app_inv in PM. rewrite <- app_assoc in PM.
      assert (NI : ~ In x (A1 ++ A2)) by (apply NoDup_remove_2; auto). apply NoDup_remove_1 in NA.
      destruct (IH R (A1 ++ A2) (x :: now) S1 r1) as (r' & S' & E' & Q); auto.
      * intros y Hy Hy'. apply (DIS y Hy). rewrite in_app_iff in *. cbn [In]. tauto.
      * intros y Hy. right. auto.
      * intros y Hy [<-|HS]; [contradiction|]. apply (IA y); auto. rewrite in_app_iff in *. cbn [In]. tauto.
      * apply Forall_forall. intros y Hy. apply FA'. rewrite in_app_iff in *. cbn [In]. tauto.
      * exists r', S'. split; [exact E'|]. intros now' HN. apply Q. intros y. rewrite HN, !in_app_iff. cbn [In].
        destruct (Z.eq_dec y x) as [->|]; [|intuition congruence]. pose proof (DIS x). tauto.
Qed.
Lemma apply_updates_no_zero U : Forall (fun u => 0 < u < 2 ^ 64) U -> forall r S r' S', ~ In 0 S ->
  apply_updates U (r, S) = Ok (r', S') -> ~ In 0 S'.
Proof.
  induction 1 as [|u U Hu F IH]; intros r S r' S' N E; cbn [apply_updates] in E; [inversion E; subst; auto|].
  apply obind_Ok in E as ([r1 S1] & E1 & E). unfold apply_update in E1. destruct (to_signed u =? - 2 ^ 63); [discriminate|]. cbn [fst snd] in E1. inversion E1; subst. clear E1.
  eapply IH; [|exact E]. destruct (set_mem (- to_signed u) S).
  - rewrite set_erase_In. tauto.
  - rewrite set_insert_In. intros [H|H]; auto. unfold to_signed in H. destruct (u <? 2 ^ 63); lia.
Qed.
