(** Generated data through files and trees to the runs (DeployModel). *)
Require Import List Arith Lia ZArith Permutation Bool Znumtheory.
Import ListNotations.
From Verif Require Import Prelude TreeModel TreeSpec TreeHistory Coins Group ElGamalModel ElGamalProofs BytesModel CipherModel PaillierModel PaillierProofs PropsPaillier WireModel WireProofs PropsWire SyncModel SyncSpec SyncProofs PropsSync FlagModel CsvModel CsvSpec CsvProofs PropsCsv DataModel DataSpec DataProofs PropsData AddModel AddSpec AddProofs AddRun AddStart SetupModel SetupProofs PropsSetup DeployModel.
Local Open Scope Z_scope.

Notation num := numeric_string2uint.
(** ** strings of 16 digits and numbers *)
Lemma fold_digits_inj s t : length s = length t -> Forall (fun c => 48 <= c <= 57) s -> Forall (fun c => 48 <= c <= 57) t ->
  forall a b, fold_left (fun x c => x * 10 + c - 48) s a = fold_left (fun x c => x * 10 + c - 48) t b -> a = b /\ s = t.
Proof.
  revert t. induction s as [|c s IH]; intros [|d t] L Fs Ft a b E; cbn in L; try lia; auto.
  inversion Fs; inversion Ft; subst. cbn [fold_left] in E. destruct (IH t ltac:(lia) H2 H6 _ _ E) as (Q & ->). assert (c = d) by lia. subst. split; auto. lia.
Qed.
Lemma num_inj s t : set_element s -> set_element t -> num s = num t -> s = t.
Proof. intros (L1 & F1 & _) (L2 & F2 & _) E. eapply fold_digits_inj; eauto. congruence. Qed.
Lemma num_element s : set_element s -> element (num s).
Proof.
  intros (L & F & N). destruct s as [|c s]; [discriminate|]. cbn [nth] in N. subst c. unfold numeric_string2uint, element. cbn [fold_left].
  inversion F; subst. cbn in L. assert (L' : length s = 15%nat) by lia.
  pose proof (digits_bound s) as B. assert (F' : Forall (fun c => 48 <= c < 58) s) by (eapply Forall_impl; [|exact H2]; cbn; intros; lia).
  specialize (B F' (0 * 10 + 48 - 48)). rewrite L' in B. change (Z.of_nat 15) with 15 in B. lia.
Qed.
Lemma set_element_digits s : set_element s -> digits s.
Proof. intros (L & F & _). split; auto. intros ->. discriminate. Qed.
Lemma set_element_clean s : set_element s -> clean s.
Proof. intros (_ & F & _). rewrite Forall_forall in F. split; intros H; apply F in H; lia. Qed.
Lemma mem_num x b : set_element x -> Forall set_element b -> mem (num x) (map num b) = is_in b x.
Proof.
  intros Sx F. unfold is_in. destruct (in_dec string_eq_dec x b) as [H|H].
  - apply existsb_exists. exists (num x). split; [apply in_map; auto|apply Z.eqb_refl].
  - destruct (mem (num x) (map num b)) eqn:E; auto. exfalso. apply H. apply existsb_exists in E as (y & Hy & Q). apply Z.eqb_eq in Q. subst y.
    apply in_map_iff in Hy as (z & Ez & Hz). rewrite Forall_forall in F. rewrite (num_inj x z Sx (F z Hz) (eq_sym Ez)). auto.
Qed.
Definition numrow (r : bytes * Z) : Z * Z := (num (fst r), snd r).
Lemma common_rows (rs : list (bytes * Z)) e1 : Forall (fun r => set_element (fst r)) rs -> Forall set_element e1 ->
  common fst (map numrow rs) (map num e1) = map numrow (filter (fun r => is_in e1 (fst r)) rs).
Proof.
  intros F F1. induction F as [|r rs H F IH]; auto. unfold common in *. cbn [map filter]. rewrite IH. cbn [numrow fst]. rewrite (mem_num _ _ H F1). destruct (is_in e1 (fst r)); auto.
Qed.
Lemma filter_fst {B} (p : bytes -> bool) (rs : list (bytes * B)) : map fst (filter (fun r => p (fst r)) rs) = filter p (map fst rs).
Proof. induction rs as [|r rs IH]; auto. cbn [filter map]. destruct (p (fst r)); cbn [map]; rewrite IH; auto. Qed.
Lemma common_rows_length rs e1 : Forall (fun r => set_element (fst r)) rs -> Forall set_element e1 ->
  length (common fst (map numrow rs) (map num e1)) = length (common_strings (map fst rs) e1).
Proof. intros F F1. rewrite common_rows by auto. unfold common_strings. rewrite <- filter_fst, !map_length. auto. Qed.
Lemma common_rows_total rs e1 : Forall (fun r => set_element (fst r)) rs -> Forall set_element e1 ->
  total (map snd (common fst (map numrow rs) (map num e1))) = sum_over e1 rs.
Proof. intros F F1. rewrite common_rows by auto. rewrite map_map. reflexivity. Qed.

(** ** the count and the sum of the initial trees *)
Lemma is_in_cons x y l : is_in (y :: l) x = same_string x y || is_in l x.
Proof.
  unfold is_in, same_string. destruct (list_eq_dec Z.eq_dec x y) as [->|N]; cbn [orb].
  - destruct (in_dec string_eq_dec y (y :: l)) as [|C]; auto. exfalso. apply C. left; auto.
  - destruct (in_dec string_eq_dec x (y :: l)) as [[->|H]|C], (in_dec string_eq_dec x l) as [H'|C']; auto; try congruence. exfalso. apply C. right; auto.
Qed.
Lemma count_row_spec e v e1 : NoDup e1 -> forall ca sm, 0 <= ca < 2 ^ 31 - 1 -> - 2 ^ 62 <= sm + v < 2 ^ 62 ->
  count_row e v e1 (ca, sm) = Ok (if is_in e1 e then (ca + 1, to_int (sm + v)) else (ca, sm)).
Proof.
  induction 1 as [|x e1 NI ND IH]; intros ca sm B S; [reflexivity|]. cbn [count_row fst snd]. rewrite is_in_cons. unfold same_string at 1 2.
  destruct (list_eq_dec Z.eq_dec e x) as [->|NE]; cbn [orb].
  - destruct (Z.eqb_spec ca (2 ^ 31 - 1)) as [|_]; [lia|]. assert ((sm + v <? 2 ^ 63) && (- 2 ^ 63 <=? sm + v) = true) as -> by (apply andb_true_iff; lia).
    assert (Q : forall a, count_row x v e1 a = Ok a).
    { clear - NI. induction e1 as [|y r IH]; intros a; cbn [count_row]; auto. unfold same_string. destruct (list_eq_dec Z.eq_dec x y) as [->|]; [exfalso; apply NI; left; auto|]. apply IH. intros H. apply NI. right; auto. }
    apply Q.
  - apply IH; auto.
Qed.
Lemma to_int_small x : - 2 ^ 31 <= x < 2 ^ 31 -> to_int x = x.
Proof. intros H. unfold to_int. rewrite Z.mod_small; lia. Qed.
Lemma to_int_range x : - 2 ^ 31 <= to_int x < 2 ^ 31.
Proof. unfold to_int. pose proof (Z.mod_pos_bound (x + 2 ^ 31) (2 ^ 32) ltac:(reflexivity)). lia. Qed.
(** the sum is right modulo 2^32 *)
Lemma count_rows_spec e1 : NoDup e1 -> forall es vs ca sm, length vs = length es -> Forall (fun v => 0 <= v < 2 ^ 32) vs ->
  0 <= ca -> ca + Z.of_nat (length es) < 2 ^ 31 -> - 2 ^ 31 <= sm < 2 ^ 31 ->
  exists sm', count_rows es vs e1 (ca, sm) = Ok (ca + Z.of_nat (length (common_strings es e1)), sm') /\ sm' = to_int (sm + sum_over e1 (combine es vs)).
Proof.
  intros ND. induction es as [|e es IH]; intros [|v vs] ca sm L F B1 B2 B3; cbn in L; try lia.
  - exists sm. cbn. unfold sum_over; cbn. rewrite !Z.add_0_r. split; auto. rewrite to_int_small; auto.
  - inversion F; subst. cbn [count_rows]. cbn [length] in B2. rewrite Nat2Z.inj_succ in B2. rewrite count_row_spec; [|auto|lia|lia]. cbn [obind].
    unfold common_strings, sum_over. cbn [filter combine map fst snd fold_right]. destruct (is_in e1 e).
    + destruct (IH vs (ca + 1) (to_int (sm + v)) ltac:(lia) H2 ltac:(lia) ltac:(lia) (to_int_range _)) as (sm' & E & Q). exists sm'. rewrite E. split.
      * f_equal. f_equal. cbn [length]. unfold common_strings. lia.
      * rewrite Q. cbn [map fold_right snd]. unfold sum_over, to_int. f_equal. set (T := fold_right Z.add 0 _).
        replace ((sm + v + 2 ^ 31) mod 2 ^ 32 - 2 ^ 31 + T + 2 ^ 31) with ((sm + v + 2 ^ 31) mod 2 ^ 32 + T) by lia. rewrite Zplus_mod_idemp_l. f_equal. lia.
    + destruct (IH vs ca sm ltac:(lia) H2 ltac:(lia) ltac:(lia) B3) as (sm' & E & Q). exists sm'. rewrite E. split; auto.
Qed.

(** ** what the setup program leaves *)
Lemma omap_write_read ds : Forall (fun d => Forall clean (d_elements d) /\ Forall int64 (d_values d) /\ (d_values d = [] \/ length (d_values d) = length (d_elements d))) ds ->
  exists fs, omap dataset_write ds = Ok fs /\ omap dataset_read fs = Ok ds.
Proof.
  induction 1 as [|d ds (A & B & C) F (fs & E1 & E2)]; [exists []; auto|].
  destruct (C41_roundtrip d A B C) as (f & W & R). exists (f :: fs). cbn [omap]. rewrite W, R. cbn [obind]. rewrite E1, E2. auto.
Qed.
Lemma omap_map {A B C} (f : A -> outcome B) (g : B -> C) l r : omap f l = Ok r -> omap (fun a => let! b := f a in Ok (g b)) l = Ok (map g r).
Proof.
  revert r. induction l as [|a l IH]; intros r E; cbn [omap] in *; [inversion E; auto|]. apply obind_Ok in E as (b & E1 & E). apply obind_Ok in E as (r' & E2 & E). inversion E; subst.
  rewrite E1. cbn [obind]. rewrite (IH _ E2). auto.
Qed.
Lemma pairs_elements d l : dataset_pairs d = Ok l -> dataset_elements d = Ok (map fst l).
Proof.
  unfold dataset_pairs, dataset_elements. generalize (d_values d). revert l. induction (d_elements d) as [|e es IH]; intros l vs E; cbn [pairs omap] in *; [inversion E; auto|].
  apply obind_Ok in E as (x & E1 & E). rewrite E1. destruct vs as [|v vs]; [discriminate|]. destruct (v =? - 2 ^ 63); [discriminate|].
  apply obind_Ok in E as (r & E2 & E). inversion E; subst. cbn [obind]. rewrite (IH _ _ E2). auto.
Qed.
Lemma omap_pairs_elements ds l : omap dataset_pairs ds = Ok l -> omap dataset_elements ds = Ok (map (map fst) l).
Proof.
  revert l. induction ds as [|d ds IH]; intros l E; cbn [omap] in *; [inversion E; auto|]. apply obind_Ok in E as (b & E1 & E). apply obind_Ok in E as (r & E2 & E). inversion E; subst.
  rewrite (pairs_elements _ _ E1). cbn [obind]. rewrite (IH _ E2). auto.
Qed.
Lemma combine_num es : forall vs, combine (map num es) vs = map numrow (combine es vs).
Proof. induction es as [|e es IH]; intros [|v vs]; cbn [map combine]; auto. rewrite IH. auto. Qed.

Lemma combine_snd {A B} (a : list A) : forall b : list B, length b = length a -> map snd (combine a b) = b.
Proof. induction a as [|x a IH]; intros [|y b] L; cbn in L; try lia; auto. cbn [combine map snd]. rewrite IH by lia. auto. Qed.
Lemma total_nonneg (l : list (Z * Z)) : Forall (fun a => 0 <= snd a) l -> 0 <= total (map snd l).
Proof. induction 1 as [|a l Ha F IH]; unfold total in *; cbn [map fold_right]; lia. Qed.
Lemma common_sub (P : Z * Z -> Prop) l l1 : Forall P l -> Forall P (common fst l l1).
Proof. intros F. rewrite Forall_forall in *. intros x Hx. apply filter_In in Hx as (Hx & _). auto. Qed.
Section Facts.
Context {Gr : group}.
Variable hash : Z -> list bool.
Variables stash node : nat.
Variable pai0 : pub.
Variables sk0 sk1 : Z.
Variable n : Z.
Hypothesis HH : forall x, length (hash x) = 256%nat.
Hypothesis IS : Z.of_nat stash < 2 ^ 31.
Hypothesis IN : Z.of_nat node < 2 ^ 31.
Notation pk := (key_of (Gr := Gr) (sk0 + sk1)).

Definition facts (days daily start max : Z) (func : functionality) (d : deployed Gr) (start0 : list (Z * Z)) (b0 : list (list (Z * Z))) (start1 : list Z) (b1 : list (list Z)) : Prop :=
  load_elements (dp_csv0 d) = Ok (map (map fst) b0) /\ (forall f, load_pairs f (dp_csv0 d) = Ok (map (map f) b0)) /\ load_elements (dp_csv1 d) = Ok b1
  /\ Z.of_nat (length b0) = days /\ length (dp_csv0 d) = length b0 /\ length (dp_csv1 d) = length b0 /\ length b1 = length b0
  /\ proper fst (start0 :: b0) /\ proper (fun x => x) (start1 :: b1) /\ Forall (fun a => 0 <= snd a < max) (start0 ++ concat b0)
  /\ match dp_trees d with None => start0 = [] /\ start1 = [] | Some f => written stash node hash sk0 sk1 n func start0 start1 f end
  /\ dp_size d = Z.of_nat (length (common fst (start0 ++ concat b0) (start1 ++ concat b1))) - Z.of_nat (length (common fst start0 start1))
  /\ (total (map snd (common fst start0 start1)) < 2 ^ 31 ->
      dp_sum d = total (map snd (common fst (start0 ++ concat b0) (start1 ++ concat b1))) - total (map snd (common fst start0 start1)))
  /\ Z.of_nat (length start0) = start /\ Z.of_nat (length (start0 ++ concat b0)) = start + days * daily.


(** the setup program made [d]; the coins of its parts need not be consecutive *)
Definition made (days daily start flag max : Z) (func : functionality) (d : deployed Gr) : Prop :=
  let shared := shared_size (u32 (start + u32 (days * daily))) flag in
  exists tp t0 l0 t1 l1 sum tp1, generate_add_only days daily start (u32 shared) (u32 max) tp = Ok ((t0, l0, t1, l1, sum), tp1)
  /\ omap dataset_write l0 = Ok (dp_csv0 d) /\ omap dataset_write l1 = Ok (dp_csv1 d) /\ dp_data d = (t0, l0, t1, l1)
  /\ if 0 <? start then
       exists s0 s1 tr ca isum u u', dataset_pairs t0 = Ok s0 /\ dataset_elements t1 = Ok s1 /\ setup_trees stash node hash pk func pai0 s0 s1 u = Ok (tr, u')
         /\ count_rows (d_elements t0) (d_values t0) (d_elements t1) (0, 0) = Ok (ca, isum) /\ dp_trees d = Some tr /\ dp_size d = shared - ca /\ dp_sum d = sum - isum
     else dp_trees d = None /\ dp_size d = shared /\ dp_sum d = sum.
Lemma generate_made days daily start flag max func tp d tp' : generate_data hash pk stash node pai0 days daily start flag max func tp = Ok (d, tp') -> made days daily start flag max func d.
Proof.
  intros G. unfold generate_data in G. unfold made. cbn zeta in *.
  apply bind_Ok in G as ([[[[t0 l0] t1] l1] sum] & tp1 & E & G).
  apply bind_Ok in G as (csv0 & tp2 & W0 & G). apply bind_Ok in G as (csv1 & tp3 & W1 & G).
  apply lift_Ok in W0 as (W0 & ->). apply lift_Ok in W1 as (W1 & ->).
  exists tp, t0, l0, t1, l1, sum, tp1. split; [exact E|]. destruct (0 <? start).
  - apply bind_Ok in G as (s0 & u2 & G0 & G). apply bind_Ok in G as (s1 & u3 & G1 & G). apply bind_Ok in G as (tr & u4 & G2 & G). apply bind_Ok in G as ([ca isum] & u5 & G3 & G).
    apply lift_Ok in G0 as (G0 & ->). apply lift_Ok in G1 as (G1 & ->). apply lift_Ok in G3 as (G3 & ->). injection G as <- <-. cbn [dp_csv0 dp_csv1 dp_data dp_trees dp_size dp_sum].
    split; [auto|]. split; [auto|]. split; [auto|]. exists s0, s1, tr, ca, isum, tp1, u4. auto 10.
  - injection G as <- <-. cbn [dp_csv0 dp_csv1 dp_data dp_trees dp_size dp_sum]. auto 10.
Qed.

Lemma deployed_facts days daily start flag max func d :
  uint32 days -> uint32 daily -> uint32 start -> - 2 ^ 31 <= flag < 2 ^ 31 -> 0 < max < 2 ^ 31 ->
  start + days * daily < 2 ^ 30 ->
  (func = SS -> 1 < n /\ thr_object n pai0) ->
  made days daily start flag max func d ->
  (let '(t0, l0, t1, l1) := dp_data d in no_coincidence (start + days * daily) (shared_size (start + days * daily) flag) (all_elements t0 l0) (all_elements t1 l1)) ->
  exists start0 b0 start1 b1, facts days daily start max func d start0 b0 start1 b1.
Proof.
  intros U1 U2 U3 FL MX TB PR G. unfold made in G. unfold uint32 in U1, U2, U3.
  rewrite (u32_id (days * daily)) in G by nia. rewrite (u32_id (start + days * daily)) in G by nia. rewrite (u32_id max) in G by lia.
  set (T := start + days * daily) in *. assert (HT : 0 <= T) by (subst T; nia). assert (SB : 0 <= shared_size T flag < 2 ^ 31).
  { unfold shared_size. destruct (Z.ltb_spec flag 0); [|lia]. pose proof (Z.div_pos T 8). assert (T / 8 <= T) by (apply Z.div_le_upper_bound; lia). lia. }
  rewrite (u32_id (shared_size T flag)) in G by lia. set (sh := shared_size T flag) in *.
  destruct d as [csv0 csv1 trees dsize dsum data]. cbn [dp_csv0 dp_csv1 dp_data dp_trees dp_size dp_sum] in G. cbn [dp_data].
  destruct G as (tp & t0 & l0 & t1 & l1 & sum & tp1 & E & W0 & W1 & -> & G). intros NC.
  assert (V1 : uint32 days) by auto. assert (V2 : uint32 daily) by auto. assert (V3 : uint32 start) by auto. assert (V4 : uint32 sh) by (unfold uint32; lia). assert (V5 : uint32 max) by (unfold uint32; lia).
  destruct (C42_loaded _ _ _ _ _ _ _ _ _ _ _ _ V1 V2 V3 V4 V5 E NC TB) as (a0 & a1 & P0 & P1 & LA & PP0 & PP1 & VA & CS & CT).
  destruct (C42_overlap _ _ _ _ _ _ _ _ _ _ _ _ V1 V2 V3 V4 V5 E NC) as (ND0 & ND1 & _).
  destruct (C42_as_requested _ _ _ _ _ _ _ _ _ _ _ _ V1 V2 V3 V4 V5 E) as (_ & _ & _ & (Wt0 & Vt0) & LD0 & Wl0 & (Wt1 & Vt1) & LD1 & Wl1 & S0 & S1 & VR & _ & _).
  cbn [omap] in P0, P1. apply obind_Ok in P0 as (start0 & Q0 & P0). apply obind_Ok in P0 as (b0 & R0 & P0). inversion P0; subst a0. clear P0.
  apply obind_Ok in P1 as (start1 & Q1 & P1). apply obind_Ok in P1 as (b1 & R1 & P1). inversion P1; subst a1. clear P1. cbn [concat length] in *.
  assert (SE0 : Forall set_element (d_elements t0) /\ Forall (fun d => Forall set_element (d_elements d)) l0).
  { unfold all_elements in S0. apply Forall_app in S0 as (A & B). split; auto. rewrite Forall_concat in B. rewrite Forall_map in B. auto. }
  assert (SE1 : Forall set_element (d_elements t1) /\ Forall (fun d => Forall set_element (d_elements d)) l1).
  { unfold all_elements in S1. apply Forall_app in S1 as (A & B). split; auto. rewrite Forall_concat in B. rewrite Forall_map in B. auto. }
  assert (VT : forall d, with_values (Z.of_nat (length (d_elements d))) d -> Forall (fun r => 0 <= snd r < max) (rows d) -> Forall (fun v => 0 <= v < max) (d_values d)).
  { intros [es vs] (_ & L) F. unfold rows in F. cbn [d_elements d_values] in *. apply (Forall_map snd (fun v => 0 <= v < max)) in F. rewrite combine_snd in F by lia. auto. }
  unfold all_rows in VR. apply Forall_app in VR as (VR0 & VRl). rewrite Forall_concat, Forall_map in VRl.
  destruct (omap_write_read l0) as (fs0 & X0 & Y0).
  { rewrite Forall_forall in *. intros x Hx. destruct (Wl0 x Hx) as (A & B). destruct SE0 as (_ & SE0). rewrite Forall_forall in SE0. split; [eapply Forall_impl; [|apply SE0; auto]; apply set_element_clean|]. split; [|right; lia].
    eapply Forall_impl; [|apply (VT x); [split; lia|apply VRl; auto]]. cbn. unfold int64. lia. }
  destruct (omap_write_read l1) as (fs1 & X1 & Y1).
  { rewrite Forall_forall in *. intros x Hx. destruct (Wl1 x Hx) as (A & B). destruct SE1 as (_ & SE1). rewrite Forall_forall in SE1. split; [eapply Forall_impl; [|apply SE1; auto]; apply set_element_clean|]. rewrite B. split; auto. }
  rewrite X0 in W0. rewrite X1 in W1. inversion W0; subst csv0. inversion W1; subst csv1. clear W0 W1.
  exists start0, b0, start1, b1.
  assert (LB0 : length b0 = length l0) by (eapply omap_length; eauto). assert (LF0 : length l0 = length fs0) by (eapply omap_length; eauto). assert (LF1 : length l1 = length fs1) by (eapply omap_length; eauto).
  assert (PL : forall d l, dataset_pairs d = Ok l -> length l = length (d_elements d)).
  { intros d' l H. apply pairs_elements in H. unfold dataset_elements in H. apply omap_length in H. rewrite map_length in H. auto. }
  assert (LS0 : Z.of_nat (length start0) = start) by (rewrite (PL _ _ Q0); auto).
  assert (LT0 : Z.of_nat (length (start0 ++ concat b0)) = T).
  { rewrite app_length, Nat2Z.inj_add, LS0. unfold T. f_equal. rewrite <- LD0. clear - Wl0 R0 PL. revert b0 R0. induction Wl0 as [|x l (Hx & _) F IH]; intros b0 R0; cbn [omap] in R0; [inversion R0; auto|].
    apply obind_Ok in R0 as (y & E1 & E). apply obind_Ok in E as (r & E2 & E). inversion E; subst. cbn [concat]. rewrite app_length, Nat2Z.inj_add, (IH _ E2), (PL _ _ E1). cbn [length]. lia. }
  assert (C1 : forall d : deployed Gr, dp_csv0 d = fs0 -> dp_csv1 d = fs1 ->
    load_elements (dp_csv0 d) = Ok (map (map fst) b0) /\ (forall f, load_pairs f (dp_csv0 d) = Ok (map (map f) b0)) /\ load_elements (dp_csv1 d) = Ok b1
    /\ Z.of_nat (length b0) = days /\ length (dp_csv0 d) = length b0 /\ length (dp_csv1 d) = length b0 /\ length b1 = length b0).
  { intros d' -> ->. unfold load_elements, load_pairs. rewrite Y0, Y1. cbn [obind]. rewrite (omap_pairs_elements _ _ R0). repeat (split; [auto; try lia|]); [|lia].
    intros f. apply (omap_map dataset_pairs (map f)). auto. }
  destruct (Z.ltb_spec 0 start) as [SP|SP].
  - destruct G as (s0 & s1 & tr & ca & isum & u & u' & G0 & G1 & G2 & G3 & -> & -> & ->). rewrite Q0 in G0. rewrite Q1 in G1. injection G0 as <-. injection G1 as <-.
    match goal with |- facts _ _ _ _ _ ?D _ _ _ _ => destruct (C1 D eq_refl eq_refl) as (A1 & A2 & A3 & A4 & A5 & A6 & A7) end.
    assert (N1 : NoDup (d_elements t1)) by (unfold all_elements in ND1; eapply NoDup_app_l; eauto).
    assert (VT0 : Forall (fun v => 0 <= v < max) (d_values t0)) by (apply VT; [split; lia|auto]).
    destruct (count_rows_spec (d_elements t1) N1 (d_elements t0) (d_values t0) 0 0 ltac:(lia)) as (sm' & CR & CQ); [eapply Forall_impl; [|exact VT0]; cbn; lia|lia| |lia|].
    { rewrite Wt0. nia. }
    rewrite CR in G3. inversion G3; subst ca isum. clear G3.
    assert (E0 : start0 = map numrow (rows t0)).
    { destruct (C41_numbers t0) as (_ & Y & _).
      - eapply Forall_impl; [|apply SE0]. apply set_element_digits.
      - eapply Forall_impl; [|apply SE0]. intros s Hs. apply num_element in Hs. unfold element in Hs. lia.
      - rewrite Y in Q0; [|lia|]. { inversion Q0. rewrite combine_num. auto. } eapply Forall_impl; [|exact VT0]. cbn. lia. }
    assert (E1 : start1 = map num (d_elements t1)).
    { destruct (C41_numbers t1) as (Y & _).
      - eapply Forall_impl; [|apply SE1]. apply set_element_digits.
      - eapply Forall_impl; [|apply SE1]. intros s Hs. apply num_element in Hs. unfold element in Hs. lia.
      - rewrite Y in Q1. inversion Q1. auto. }
    assert (SR : Forall (fun r => set_element (fst r)) (rows t0)).
    { apply (Forall_map fst set_element). unfold rows. rewrite combine_fst by lia. apply SE0. }
    assert (LC : length (common fst start0 start1) = length (common_strings (d_elements t0) (d_elements t1))).
    { rewrite E0, E1, common_rows_length by (auto; apply SE1). unfold rows. rewrite combine_fst by lia. auto. }
    assert (TC : total (map snd (common fst start0 start1)) = sum_over (d_elements t1) (rows t0)) by (rewrite E0, E1, common_rows_total by (auto; apply SE1); auto).
    pose proof (start_ok_fst start0 start1 b0 b1 PP0 PP1) as SO. apply Forall_app in VA as (VA0 & VAb). destruct SO as (R00 & R11 & GG0 & GG1); [eapply Forall_impl; [|exact VA0]; cbn; lia|].
    unfold facts. repeat (split; [first [assumption | apply Forall_app; auto]|]). split.
    { cbn [dp_trees]. pose proof (@setup_written Gr stash node IS IN hash HH sk0 sk1 n pai0 func start0 start1 PR R00 R11 GG0 GG1 u) as SW. rewrite G2 in SW. exact SW. }
    cbn [dp_size dp_sum]. rewrite LC, CS. split; [lia|]. split; [|auto]. intros LT. rewrite CQ, CT, TC. rewrite Z.add_0_l. fold (rows t0). rewrite to_int_small; auto. rewrite <- TC. split; auto.
    assert (0 <= total (map snd (common fst start0 start1))); [|lia]. apply total_nonneg. apply common_sub. eapply Forall_impl; [|exact VA0]; cbn; lia.
  - destruct G as (-> & -> & ->).
    match goal with |- facts _ _ _ _ _ ?D _ _ _ _ => destruct (C1 D eq_refl eq_refl) as (A1 & A2 & A3 & A4 & A5 & A6 & A7) end.
    assert (Z0 : start0 = [] /\ start1 = []).
    { unfold dataset_pairs in Q0. unfold dataset_elements in Q1. assert (d_elements t0 = []) as X by (destruct (d_elements t0); auto; cbn [length] in Wt0; lia). rewrite X in Q0.
      assert (d_elements t1 = []) as X' by (destruct (d_elements t1); auto; cbn [length] in Wt1; lia). rewrite X' in Q1. cbn in *. split; congruence. }
    destruct Z0 as (-> & ->). unfold facts. cbn [app] in *. repeat (split; [assumption|]). split; [cbn [dp_trees]; auto|]. cbn [dp_size dp_sum]. unfold common at 2 4. cbn [filter map length]. rewrite CS. fold (common (@fst Z Z) (concat b0) (concat b1)). rewrite ?CT.
    split; [lia|]. split; [intros _; cbn; lia|]. cbn [app] in LT0. auto.
Qed.
End Facts.

(** ** the setup program ends normally *)
Lemma count_row_safe e v e1 : 0 <= v < 2 ^ 32 -> forall ca sm, 0 <= ca -> ca + Z.of_nat (length e1) < 2 ^ 31 -> - 2 ^ 31 <= sm < 2 ^ 31 ->
  exists ca' sm', count_row e v e1 (ca, sm) = Ok (ca', sm') /\ ca <= ca' <= ca + Z.of_nat (length e1) /\ - 2 ^ 31 <= sm' < 2 ^ 31.
Proof.
  intros V. induction e1 as [|x e1 IH]; intros ca sm B1 B2 B3; [exists ca, sm; cbn; split; auto; lia|]. cbn [length] in *. rewrite Nat2Z.inj_succ in *. cbn [count_row fst snd]. destruct (same_string e x).
  - destruct (Z.eqb_spec ca (2 ^ 31 - 1)) as [|_]; [lia|]. assert ((sm + v <? 2 ^ 63) && (- 2 ^ 63 <=? sm + v) = true) as -> by (apply andb_true_iff; lia).
    destruct (IH (ca + 1) (to_int (sm + v)) ltac:(lia) ltac:(lia) (to_int_range _)) as (ca' & sm' & E & L & L'). exists ca', sm'. split; auto. split; auto. lia.
  - destruct (IH ca sm ltac:(lia) ltac:(lia) B3) as (ca' & sm' & E & L & L'). exists ca', sm'. split; auto. split; auto. lia.
Qed.
Lemma count_rows_safe e1 es : forall vs ca sm, length vs = length es -> Forall (fun v => 0 <= v < 2 ^ 32) vs ->
  0 <= ca -> ca + Z.of_nat (length es) * Z.of_nat (length e1) < 2 ^ 31 -> - 2 ^ 31 <= sm < 2 ^ 31 ->
  exists r, count_rows es vs e1 (ca, sm) = Ok r.
Proof.
  induction es as [|e es IH]; intros [|v vs] ca sm L F B1 B2 B3; cbn in L; try lia; [eexists; reflexivity|].
  inversion F; subst. cbn [count_rows]. cbn [length] in B2. rewrite Nat2Z.inj_succ in B2.
  destruct (count_row_safe e v e1 H1 ca sm B1 ltac:(nia) B3) as (ca' & sm' & -> & L1 & L2). cbn [obind]. apply IH; auto; try lia; nia.
Qed.
Section Total.
Context {Gr : group}.
Variable hash : Z -> list bool.
Variables stash node : nat.
Variable pai0 : pub.
Variables sk0 sk1 : Z.
Variable n : Z.
Hypothesis HH : forall x, length (hash x) = 256%nat.
Hypothesis IS : Z.of_nat stash < 2 ^ 31.
Hypothesis IN : Z.of_nat node < 2 ^ 31.
Notation pk := (key_of (Gr := Gr) (sk0 + sk1)).
Lemma deploy_total days daily start flag max func tp :
  uint32 days -> uint32 daily -> uint32 start -> - 2 ^ 31 <= flag < 2 ^ 31 -> 0 < max < 2 ^ 31 ->
  start + days * daily < 2 ^ 30 -> flag <= start + days * daily -> start * start < 2 ^ 31 ->
  (func = SS -> 1 < n /\ thr_object n pai0) ->
  ends_well (fun _ => True) (generate_data hash pk stash node pai0 days daily start flag max func tp).
Proof.
  intros U1 U2 U3 FL MX TB FT SQ PR. unfold generate_data. unfold uint32 in U1, U2, U3.
  rewrite (u32_id (days * daily)) by nia. rewrite (u32_id (start + days * daily)) by nia. rewrite (u32_id max) by lia.
  set (T := start + days * daily) in *. assert (HT : 0 <= T) by (subst T; nia). assert (SB : 0 <= shared_size T flag <= T).
  { unfold shared_size. destruct (Z.ltb_spec flag 0); [|lia]. pose proof (Z.div_pos T 8). assert (T / 8 <= T) by (apply Z.div_le_upper_bound; lia). lia. }
  rewrite (u32_id (shared_size T flag)) by lia. set (sh := shared_size T flag) in *.
  assert (V1 : uint32 days) by auto. assert (V2 : uint32 daily) by auto. assert (V3 : uint32 start) by auto. assert (V4 : uint32 sh) by (unfold uint32; lia). assert (V5 : uint32 max) by (unfold uint32; lia).
  destruct (C42_always days daily start sh max tp V1 V2 V3 V4 V5) as ([[[[[t0 l0] t1] l1] sum] tp1] & E); [fold T; lia|fold T; lia|lia|fold T; nia|].
  unfold bind at 1. rewrite E.
  destruct (C42_as_requested _ _ _ _ _ _ _ _ _ _ _ _ V1 V2 V3 V4 V5 E) as (_ & _ & _ & (Wt0 & Vt0) & LD0 & Wl0 & (Wt1 & Vt1) & LD1 & Wl1 & S0 & S1 & VR & _ & _).
  assert (SE0 : Forall set_element (d_elements t0) /\ Forall (fun d => Forall set_element (d_elements d)) l0).
  { unfold all_elements in S0. apply Forall_app in S0 as (A & B). split; auto. rewrite Forall_concat in B. rewrite Forall_map in B. auto. }
  assert (SE1 : Forall set_element (d_elements t1) /\ Forall (fun d => Forall set_element (d_elements d)) l1).
  { unfold all_elements in S1. apply Forall_app in S1 as (A & B). split; auto. rewrite Forall_concat in B. rewrite Forall_map in B. auto. }
  assert (VT : forall d, with_values (Z.of_nat (length (d_elements d))) d -> Forall (fun r => 0 <= snd r < max) (rows d) -> Forall (fun v => 0 <= v < max) (d_values d)).
  { intros [es vs] (_ & L) F. unfold rows in F. cbn [d_elements d_values] in *. apply (Forall_map snd (fun v => 0 <= v < max)) in F. rewrite combine_snd in F by lia. auto. }
  unfold all_rows in VR. apply Forall_app in VR as (VR0 & VRl). rewrite Forall_concat, Forall_map in VRl.
  destruct (omap_write_read l0) as (fs0 & X0 & Y0).
  { rewrite Forall_forall in *. intros x Hx. destruct (Wl0 x Hx) as (A & B). destruct SE0 as (_ & SE0). rewrite Forall_forall in SE0. split; [eapply Forall_impl; [|apply SE0; auto]; apply set_element_clean|]. split; [|right; lia].
    eapply Forall_impl; [|apply (VT x); [split; lia|apply VRl; auto]]. cbn. unfold int64. lia. }
  destruct (omap_write_read l1) as (fs1 & X1 & Y1).
  { rewrite Forall_forall in *. intros x Hx. destruct (Wl1 x Hx) as (A & B). destruct SE1 as (_ & SE1). rewrite Forall_forall in SE1. split; [eapply Forall_impl; [|apply SE1; auto]; apply set_element_clean|]. rewrite B. split; auto. }
  unfold bind at 1, lift. rewrite X0. cbn [obind]. unfold bind at 1. rewrite X1.
  destruct (Z.ltb_spec 0 start) as [SP|SP]; [|exact I].
  assert (VT0 : Forall (fun v => 0 <= v < max) (d_values t0)) by (apply VT; [split; lia|auto]).
  assert (EL : forall l, Forall set_element l -> Forall digits l /\ Forall (fun s => num s < 2 ^ 64) l /\ Forall element (map num l)).
  { intros l F. split; [|split].
    - eapply Forall_impl; [|exact F]. apply set_element_digits.
    - eapply Forall_impl; [|exact F]. intros s Hs. apply num_element in Hs. unfold element in Hs. lia.
    - apply Forall_map. eapply Forall_impl; [|exact F]. apply num_element. }
  destruct (EL _ (proj1 SE0)) as (D0 & B0 & K0). destruct (EL _ (proj1 SE1)) as (D1 & B1 & K1).
  destruct (C41_numbers t0 D0 B0) as (_ & Y & _). destruct (C41_numbers t1 D1 B1) as (Y' & _).
  unfold bind at 1. rewrite Y; [|lia|eapply Forall_impl; [|exact VT0]; cbn; lia]. unfold bind at 1. rewrite Y'.
  unfold bind at 1. set (s0 := combine (map num (d_elements t0)) (d_values t0)). set (s1 := map num (d_elements t1)).
  assert (R0 : int_range (length s0)). { unfold int_range, s0. rewrite combine_length, map_length. nia. }
  assert (R1 : int_range (length s1)). { unfold int_range, s1. rewrite map_length. unfold bytes in *. subst T. nia. }
  assert (G0 : Forall (fun a => 0 <= fst a /\ 0 <= snd a) s0).
  { rewrite Forall_forall in *. intros [x v] Hx. cbn [fst snd]. pose proof (in_combine_l _ _ _ _ Hx) as H1. pose proof (in_combine_r _ _ _ _ Hx) as H2. split; [apply K0; auto|apply VT0; auto]. }
  assert (G1 : Forall (fun x => 0 <= x) s1) by (eapply Forall_impl; [|exact K1]; intros x Hx; apply Hx).
  pose proof (@setup_written Gr stash node IS IN hash HH sk0 sk1 n pai0 func s0 s1 PR R0 R1 G0 G1 tp1) as SW.
  destruct (setup_trees stash node hash pk func pai0 s0 s1 tp1) as [[tr tp2]| | |]; auto.
  unfold bind. destruct (count_rows_safe (d_elements t1) (d_elements t0) (d_values t0) 0 0) as ([ca isum] & ->); [lia|eapply Forall_impl; [|exact VT0]; cbn; lia|lia|nia|lia|]. exact I.
Qed.
End Total.
