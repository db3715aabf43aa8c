(** The original construction with initial trees (OrigSetupModel). *)
Require Import String.
Require Import List Arith Lia ZArith Permutation Bool Znumtheory.
Import ListNotations.
From Verif Require Import Prelude TreeModel TreeSpec TreeHistory Coins Group ElGamalModel ElGamalProofs BytesModel CipherModel PaillierModel WireModel WireProofs SyncModel SyncSpec SyncProofs PropsSync CsvModel CsvSpec CsvProofs PropsCsv DataModel DataSpec DataProofs PropsData AddModel AddSpec AddProofs AddRun AddStart SetupModel SetupProofs PropsSetup DeployModel DeployProofs OrigModel OrigRun OrigSetupModel.
Local Open Scope Z_scope.

(** ** generated data *)
Lemma pairs_equal_common e1 : NoDup e1 -> forall e0, pairs_equal e0 e1 = Z.of_nat (length (common_strings e0 e1)).
Proof.
  intros ND e0. induction e0 as [|x e0 IH]; [reflexivity|]. cbn [pairs_equal]. unfold common_strings in *. cbn [filter]. rewrite IH. clear IH.
  assert (Q : length (filter (same_string x) e1) = if is_in e1 x then 1%nat else 0%nat).
  { clear e0. induction ND as [|y e1 NI ND IH]; [reflexivity|]. rewrite is_in_cons. cbn [filter]. destruct (same_string x y) eqn:E; cbn [orb length]; auto.
    rewrite IH. assert (x = y) as -> by (unfold same_string in E; destruct (list_eq_dec Z.eq_dec x y); auto; discriminate).
    unfold is_in. destruct (in_dec string_eq_dec y e1); [contradiction|auto]. }
  rewrite Q. destruct (is_in e1 x); cbn [length]; lia.
Qed.
Lemma filter_shorter {A} (p : A -> bool) l : (length (filter p l) <= length l)%nat.
Proof. induction l as [|x l IH]; cbn; auto. destruct (p x); cbn; lia. Qed.
Lemma pairs_equal_bound e0 e1 : 0 <= pairs_equal e0 e1 <= Z.of_nat (length e0) * Z.of_nat (length e1).
Proof.
  induction e0 as [|x e0 IH]; cbn [pairs_equal length]; [lia|]. pose proof (filter_shorter (same_string x) e1). rewrite Nat2Z.inj_succ. nia.
Qed.

Definition data_facts (days daily start sh max : Z) (t0 t1 : dataset) (l0 l1 : list dataset) (fs0 fs1 : list bytes) (start0 : list (Z * Z)) (b0 : list (list (Z * Z))) (start1 : list Z) (b1 : list (list Z)) : Prop :=
  dataset_elements t0 = Ok (map fst start0) /\ dataset_elements t1 = Ok start1
  /\ load_elements fs0 = Ok (map (map fst) b0) /\ load_elements fs1 = Ok b1
  /\ Z.of_nat (length b0) = days /\ length b1 = length b0
  /\ proper fst (start0 :: b0) /\ proper (fun x => x) (start1 :: b1) /\ Forall (fun a => 0 <= snd a) start0
  /\ map fst (start0 ++ concat b0) = map num (all_elements t0 l0) /\ start1 ++ concat b1 = map num (all_elements t1 l1)
  /\ length (common fst start0 start1) = length (common_strings (d_elements t0) (d_elements t1))
  /\ Z.of_nat (length (common fst (start0 ++ concat b0) (start1 ++ concat b1))) = sh
  /\ NoDup (d_elements t1) /\ Z.of_nat (length start0) = start /\ Z.of_nat (length (start0 ++ concat b0)) = start + days * daily
  /\ Forall set_element (all_elements t0 l0) /\ Forall set_element (all_elements t1 l1).
Lemma elements_num d : Forall set_element (d_elements d) -> dataset_elements d = Ok (map num (d_elements d)).
Proof.
  intros F. destruct (C41_numbers d) as (Y & _); auto.
  - eapply Forall_impl; [|exact F]. apply set_element_digits.
  - eapply Forall_impl; [|exact F]. intros s Hs. apply num_element in Hs. unfold element in Hs. lia.
Qed.
Lemma omap_elements_num ds : Forall (fun d => Forall set_element (d_elements d)) ds -> omap dataset_elements ds = Ok (map (fun d => map num (d_elements d)) ds).
Proof. induction 1 as [|d ds A F IH]; auto. cbn [omap map]. rewrite (elements_num _ A). cbn [obind]. rewrite IH. auto. Qed.
Lemma generated_facts days daily start sh max tp t0 l0 t1 l1 sum tp1 csv0 csv1 :
  0 <= days < 2 ^ 32 -> 0 <= daily < 2 ^ 32 -> 0 <= start < 2 ^ 32 -> 0 <= sh < 2 ^ 31 -> 0 < max < 2 ^ 31 -> start + days * daily < 2 ^ 30 ->
  generate_add_only days daily start sh max tp = Ok ((t0, l0, t1, l1, sum), tp1) ->
  no_coincidence (start + days * daily) sh (all_elements t0 l0) (all_elements t1 l1) ->
  omap dataset_write l0 = Ok csv0 -> omap dataset_write l1 = Ok csv1 ->
  exists start0 b0 start1 b1, data_facts days daily start sh max t0 t1 l0 l1 csv0 csv1 start0 b0 start1 b1.
Proof.
  intros U1 U2 U3 SB MX TB E NC W0 W1. set (T := start + days * daily) in *.
  assert (V1 : uint32 days) by auto. assert (V2 : uint32 daily) by auto. assert (V3 : uint32 start) by auto. assert (V4 : uint32 sh) by (unfold uint32; lia). assert (V5 : uint32 max) by (unfold uint32; lia).
  destruct (C42_loaded _ _ _ _ _ _ _ _ _ _ _ _ V1 V2 V3 V4 V5 E NC TB) as (a0 & a1 & P0 & P1 & LA & PP0 & PP1 & VA & CS & CT).
  destruct (C42_overlap _ _ _ _ _ _ _ _ _ _ _ _ V1 V2 V3 V4 V5 E NC) as (ND0 & ND1 & _).
  destruct (C42_as_requested _ _ _ _ _ _ _ _ _ _ _ _ V1 V2 V3 V4 V5 E) as (_ & _ & _ & (Wt0 & Vt0) & LD0 & Wl0 & (Wt1 & Vt1) & LD1 & Wl1 & S0 & S1 & VR & _ & _).
  cbn [omap] in P0, P1. apply obind_Ok in P0 as (start0 & Q0 & P0). apply obind_Ok in P0 as (b0 & R0 & P0). inversion P0; subst a0. clear P0.
  apply obind_Ok in P1 as (start1 & Q1 & P1). apply obind_Ok in P1 as (b1 & R1 & P1). inversion P1; subst a1. clear P1. cbn [concat length] in *.
  assert (SE0 : Forall set_element (d_elements t0) /\ Forall (fun d => Forall set_element (d_elements d)) l0).
  { unfold all_elements in S0. apply Forall_app in S0 as (A & B). split; auto. rewrite Forall_concat in B. rewrite Forall_map in B. auto. }
  assert (SE1 : Forall set_element (d_elements t1) /\ Forall (fun d => Forall set_element (d_elements d)) l1).
  { unfold all_elements in S1. apply Forall_app in S1 as (A & B). split; auto. rewrite Forall_concat in B. rewrite Forall_map in B. auto. }
  assert (VT : forall d, with_values (Z.of_nat (length (d_elements d))) d -> Forall (fun r => 0 <= snd r < max) (rows d) -> Forall (fun v => 0 <= v < max) (d_values d)).
  { intros [es vs] (_ & L) F. unfold rows in F. cbn [d_elements d_values] in *. apply (Forall_map snd (fun v => 0 <= v < max)) in F. rewrite combine_snd in F by lia. auto. }
  unfold all_rows in VR. apply Forall_app in VR as (VR0 & VRl). rewrite Forall_concat, Forall_map in VRl.
  destruct (omap_write_read l0) as (fs0 & X0 & Y0).
  { rewrite Forall_forall in *. intros x Hx. destruct (Wl0 x Hx) as (A & B). destruct SE0 as (_ & SE0). rewrite Forall_forall in SE0. split; [eapply Forall_impl; [|apply SE0; auto]; apply set_element_clean|]. split; [|right; lia].
    eapply Forall_impl; [|apply (VT x); [split; lia|apply VRl; auto]]. cbn. unfold int64. lia. }
  destruct (omap_write_read l1) as (fs1 & X1 & Y1).
  { rewrite Forall_forall in *. intros x Hx. destruct (Wl1 x Hx) as (A & B). destruct SE1 as (_ & SE1). rewrite Forall_forall in SE1. split; [eapply Forall_impl; [|apply SE1; auto]; apply set_element_clean|]. rewrite B. split; auto. }
  rewrite X0 in W0. rewrite X1 in W1. inversion W0; subst csv0. inversion W1; subst csv1. clear W0 W1.
  exists start0, b0, start1, b1.
  assert (LB0 : length b0 = length l0) by (eapply omap_length; eauto). assert (LF0 : length l0 = length fs0) by (eapply omap_length; eauto). assert (LF1 : length l1 = length fs1) by (eapply omap_length; eauto).
  assert (PL : forall d l, dataset_pairs d = Ok l -> length l = length (d_elements d)).
  { intros d' l H. apply pairs_elements in H. unfold dataset_elements in H. apply omap_length in H. rewrite map_length in H. auto. }
  assert (LS0 : Z.of_nat (length start0) = start) by (rewrite (PL _ _ Q0); auto).
  assert (LT0 : Z.of_nat (length (start0 ++ concat b0)) = T).
  { rewrite app_length, Nat2Z.inj_add, LS0. unfold T. f_equal. rewrite <- LD0. clear - Wl0 R0 PL. revert b0 R0. induction Wl0 as [|x l (Hx & _) F IH]; intros b0 R0; cbn [omap] in R0; [inversion R0; auto|].
    apply obind_Ok in R0 as (y & E1 & E). apply obind_Ok in E as (r & E2 & E). inversion E; subst. cbn [concat]. rewrite app_length, Nat2Z.inj_add, (IH _ E2), (PL _ _ E1). cbn [length]. lia. }
  assert (VT0 : Forall (fun v => 0 <= v < max) (d_values t0)) by (apply VT; [split; lia|auto]).
  assert (N1 : NoDup (d_elements t1)) by (unfold all_elements in ND1; eapply NoDup_app_l; eauto).
  assert (E0 : start0 = map numrow (rows t0)).
  { destruct (C41_numbers t0) as (_ & Y & _).
    - eapply Forall_impl; [|apply SE0]. apply set_element_digits.
    - eapply Forall_impl; [|apply SE0]. intros s Hs. apply num_element in Hs. unfold element in Hs. lia.
    - rewrite Y in Q0; [|lia|]. { inversion Q0. rewrite combine_num. auto. } eapply Forall_impl; [|exact VT0]. cbn. lia. }
  assert (E1 : start1 = map num (d_elements t1)). { rewrite (elements_num _ (proj1 SE1)) in Q1. congruence. }
  assert (SR : Forall (fun r => set_element (fst r)) (rows t0)).
  { apply (Forall_map fst set_element). unfold rows. rewrite combine_fst by lia. apply SE0. }
  assert (LC : length (common fst start0 start1) = length (common_strings (d_elements t0) (d_elements t1))).
  { rewrite E0, E1, common_rows_length by (auto; apply SE1). unfold rows. rewrite combine_fst by lia. auto. }
  apply Forall_app in VA as (VA0 & VAb).
  pose proof (omap_pairs_elements _ _ R0) as R0'. pose proof (pairs_elements _ _ Q0) as Q0'.
  assert (A0 : map fst (start0 ++ concat b0) = map num (all_elements t0 l0)).
  { unfold all_elements. rewrite (elements_num _ (proj1 SE0)) in Q0'. rewrite (omap_elements_num _ (proj2 SE0)) in R0'.
    injection Q0' as Q2. injection R0' as R2. rewrite (map_app fst), (map_app num). f_equal; [exact (eq_sym Q2)|].
    rewrite (concat_map fst), <- R2, (concat_map num), map_map. auto. }
  assert (A1 : start1 ++ concat b1 = map num (all_elements t1 l1)).
  { unfold all_elements. rewrite map_app, E1. f_equal. rewrite (omap_elements_num _ (proj2 SE1)) in R1. inversion R1. rewrite concat_map, map_map. auto. }
  unfold data_facts. split; [auto|]. split; [auto|]. unfold load_elements. rewrite Y0, Y1. cbn [obind]. split; [auto|]. split; [auto|]. split; [lia|]. split; [lia|].
  split; [auto|]. split; [auto|]. split; [eapply Forall_impl; [|exact VA0]; cbn; lia|]. split; [auto|]. split; [auto|]. split; [auto|]. split; [auto|]. split; [auto|].
  split; [auto|]. split; [auto|]. split; auto.
Qed.

(** ** the files *)
Section Files.
Context {Gr : group}.
Variable hash : Z -> list bool.
Variable H : Z -> Gr.
Variable dec_string : Z -> string.
Variables sk0 sk1 : Z.
Variables stash node : nat.
Hypothesis HH : forall x, length (hash x) = 256%nat.
Hypothesis IS : Z.of_nat stash < 2 ^ 31.
Hypothesis IN : Z.of_nat node < 2 ^ 31.
Notation Rep1 := (fun (x : Z) (c : ct Gr) => decrypt sk1 c = gpow gen x).
Notation pk1 := (@key_of Gr sk1).

(** the parties loaded [s0] into the map and [s1] into the trees *)
Definition loaded (s0 s1 : list Z) (total : nat) (d0 d1 : list (list Z)) (c : og_client) (s : og_server Gr) : Prop :=
  c = mkOgC (oc_tree c) d1 0 total /\ og_day s = 0%nat /\ og_total s = total /\ og_data s = d0 /\ og_inter s = []
  /\ side hash (oc_tree c) s1 /\ mirrors Rep1 pad_elem (oc_tree c) (og_tree s) /\ og_map s = keyed H dec_string sk0 sk1 (rev s0)
  /\ t_stash_size (oc_tree c) = stash /\ t_node_size (oc_tree c) = node.
Definition files_hold (s0 s1 : list Z) (files : option (og_files Gr)) : Prop :=
  forall total d0 d1, exists c s, og_server_with stash node files total d0 = Ok s /\ og_client_with stash node files total d1 = Ok c /\ loaded s0 s1 total d0 d1 c s.

Lemma write_hx_good s0 : match write_hx H dec_string sk0 sk1 s0 with
  | Ok kv => forall m, import_oprf kv m = Ok (keyed H dec_string sk0 sk1 (rev s0) ++ m) | Err _ => True | _ => False end.
Proof.
  unfold write_hx. induction s0 as [|x s0 IH]; cbn [omap]; [intros m; reflexivity|].
  unfold point_to_bytes. destruct (geqb (gpow (gpow (H x) sk0) sk1) gid) eqn:G; cbn [obind]; auto.
  unfold point_to_bytes in IH. destruct (omap _ s0) as [kv| | |]; cbn [obind]; auto.
  intros m. cbn [import_oprf create_point]. rewrite G. cbn [obind]. unfold point_key. rewrite G. rewrite IH.
  cbn [rev]. unfold keyed. rewrite map_app, <- app_assoc. cbn [map app]. rewrite gpow_mul. auto.
Qed.
Lemma setup_files_spec s0 s1 tp : int_range (length s1) -> Forall (fun x => 0 <= x) s1 ->
  match og_setup_files hash H dec_string pk1 sk0 sk1 stash node s0 s1 tp with
  | Ok (f, _) => files_hold s0 s1 (Some f) | Err _ => True | _ => False end.
Proof.
  intros IR G. unfold og_setup_files. unfold bind at 1. pose proof (@trees_plain_ok Gr stash node IS IN hash HH sk1 s1 tp IR G) as X.
  destruct (trees_plain stash node hash pk1 s1 tp) as [[f tp1]| | |]; auto.
  unfold bind, lift, ret. pose proof (write_hx_good s0) as Y. destruct (write_hx H dec_string sk0 sk1 s0) as [kv| | |]; auto.
  destruct X as (pt & et & D1 & D2 & Z1 & Z2 & SD & MI). intros total d0 d1. unfold og_server_with, og_client_with. cbn [of_enc of_plain of_oprf]. rewrite D1, D2, Y. cbn [obind].
  do 2 eexists. split; [reflexivity|]. split; [reflexivity|]. unfold loaded. cbn [oc_tree og_day og_total og_data og_inter og_tree og_map].
  split; [auto|]. split; [auto|]. split; [auto|]. split; [auto|]. split; [auto|]. split; [auto|]. split; [auto|]. split; [apply app_nil_r|]. auto.
Qed.
Lemma no_files : files_hold [] [] None.
Proof.
  intros total d0 d1. do 2 eexists. split; [reflexivity|]. split; [reflexivity|]. unfold loaded. cbn. do 5 (split; [auto|]). split; [apply side_new|]. split; [apply mirrors_new|]. auto.
Qed.
Lemma prepared_run csize ssize files s0 s1 d0 d1 k tp :
  2 * 10 ^ 15 <= ord Gr -> 1 <= sk0 < ord Gr -> 1 <= sk1 < ord Gr ->
  proper (fun x => x) (s0 :: d0) -> proper (fun x => x) (s1 :: d1) ->
  (forall x y, In x (s0 ++ concat d0) -> In y (concat d1) -> H x = H y -> x = y) ->
  files_hold s0 s1 files ->
  ends_well (fun '((c, s), _) =>
      oc_day c = min k (length d0) /\ og_day s = min k (length d0) /\
      exists found, partly (common (fun x => x) (s0 ++ upto (og_day s) d0) (s1 ++ upto (og_day s) d1)) (common (fun x => x) s0 s1 ++ found) (no_overflow (oc_tree c))
                    /\ og_inter s = map dec_string found)
    (og_prepared hash H dec_string (key_of sk0) pk1 sk0 sk1 stash node csize ssize files d0 d1 k tp).
Proof.
  intros BG K0 K1 P0 P1 INJ FH. destruct (FH (length d0) d0 d1) as (c & s & E1 & E2 & L1 & L2 & L3 & L4 & L5 & L6 & L7 & L8 & _).
  unfold og_prepared, bind, lift. rewrite E1, E2. apply (og_from hash H dec_string sk0 sk1 csize ssize s0 s1 d0 d1 c s k tp); auto.
Qed.
End Files.

(** ** the whole setup program *)
Lemma start_fits (s0 s1 : list Z) d0 d1 : proper (fun x => x) (s0 :: d0) -> proper (fun x => x) (s1 :: d1) -> int_range (length s1) /\ Forall (fun x => 0 <= x) s1.
Proof.
  intros _ (_ & E & R). cbn [concat] in *. unfold int_range in *. rewrite app_length in R. apply Forall_app in E as (E & _). split; [lia|]. eapply Forall_impl; [|exact E]. intros x Hx. apply Hx.
Qed.
Lemma common_more (a b c e : list Z) : (length (common (fun x : Z => x) a b) <= length (common (fun x : Z => x) (a ++ c) (b ++ e)))%nat.
Proof.
  unfold common. rewrite filter_app, app_length. assert (length (filter (fun x => mem x b) a) <= length (filter (fun x => mem x (b ++ e)) a))%nat; [|lia].
  induction a as [|x a IH]; cbn [filter]; auto. assert (EM : mem x (b ++ e) = mem x b || mem x e) by (unfold mem; apply existsb_app). rewrite EM. destruct (mem x b); cbn [orb length]; [lia|]. destruct (mem x e); cbn [length]; lia.
Qed.
Lemma announced_small a b : 0 <= b <= a -> a < 2 ^ 31 -> announced a b = a - b.
Proof. intros A B. unfold announced, u64. assert (2 ^ 31 < 2 ^ 64) by reflexivity. rewrite (Z.mod_small a), (Z.mod_small b), Z.mod_small; lia. Qed.

Section Deployed.
Context {Gr : group}.
Variable hash : Z -> list bool.
Variable H : Z -> Gr.
Variable dec_string : Z -> string.
Variables sk0 sk1 : Z.
Variables stash node : nat.
Hypothesis HH : forall x, length (hash x) = 256%nat.
Hypothesis IS : Z.of_nat stash < 2 ^ 31.
Hypothesis IN : Z.of_nat node < 2 ^ 31.
Notation pk1 := (@key_of Gr sk1).
Notation cm := (common (fun x : Z => x)).

Lemma common_ids (l : list (Z * Z)) l1 : length (cm (map fst l) l1) = length (common fst l l1).
Proof. unfold common. induction l as [|a l IH]; auto. cbn [map filter]. destruct (mem (fst a) l1); cbn [length]; auto. Qed.

Definition og_facts (days : Z) (d : og_deployed Gr) (s0 s1 : list Z) (b0 b1 : list (list Z)) : Prop :=
  load_elements (od_csv0 d) = Ok b0 /\ load_elements (od_csv1 d) = Ok b1 /\ Z.of_nat (length b0) = days /\ length b1 = length b0
  /\ proper (fun x => x) (s0 :: b0) /\ proper (fun x => x) (s1 :: b1) /\ files_hold hash H dec_string sk0 sk1 stash node s0 s1 (od_files d)
  /\ (forall size, od_size d = Some size -> size = Z.of_nat (length (cm (s0 ++ concat b0) (s1 ++ concat b1))) - Z.of_nat (length (cm s0 s1)))
  /\ (let '(t0, l0, t1, l1) := od_data d in
      s0 ++ concat b0 = map num (all_elements t0 l0) /\ s1 ++ concat b1 = map num (all_elements t1 l1)
      /\ Forall set_element (all_elements t0 l0) /\ Forall set_element (all_elements t1 l1)).

Lemma og_deployed_facts days daily start flag max expected tp d tp' :
  uint32 days -> uint32 daily -> uint32 start -> - 2 ^ 31 <= flag < 2 ^ 31 -> 0 < max < 2 ^ 31 ->
  start + days * daily < 2 ^ 30 ->
  og_generate hash H dec_string pk1 sk0 sk1 stash node days daily start flag max expected tp = Ok (d, tp') ->
  (let '(t0, l0, t1, l1) := od_data d in no_coincidence (start + days * daily) (shared_size (start + days * daily) flag) (all_elements t0 l0) (all_elements t1 l1)) ->
  exists s0 b0 s1 b1, og_facts days d s0 s1 b0 b1.
Proof.
  intros U1 U2 U3 FL MX TB G. unfold og_generate in G. unfold uint32 in U1, U2, U3.
  rewrite (u32_id (days * daily)) in G by nia. rewrite (u32_id (start + days * daily)) in G by nia. rewrite (u32_id max) in G by lia.
  assert (HT : 0 <= start + days * daily) by nia. assert (SB : 0 <= shared_size (start + days * daily) flag < 2 ^ 31).
  { unfold shared_size. destruct (Z.ltb_spec flag 0); [|lia]. pose proof (Z.div_pos (start + days * daily) 8). assert ((start + days * daily) / 8 <= start + days * daily) by (apply Z.div_le_upper_bound; lia). lia. }
  rewrite (u32_id (shared_size _ flag)) in G by lia. set (sh := shared_size _ flag) in *.
  apply bind_Ok in G as ([[[[t0 l0] t1] l1] sum] & tp1 & E & G).
  apply bind_Ok in G as (csv0 & tp2 & W0 & G). apply bind_Ok in G as (csv1 & tp3 & W1 & G).
  apply lift_Ok in W0 as (W0 & ->). apply lift_Ok in W1 as (W1 & ->). intros NC.
  assert (ED : od_data d = (t0, l0, t1, l1)).
  { destruct (0 <? start).
    - apply bind_Ok in G as (s1 & tp2 & _ & G). apply bind_Ok in G as (s0 & tp3 & _ & G). apply bind_Ok in G as (tr & tp4 & _ & G). inversion G; subst; auto.
    - inversion G; subst; auto. }
  rewrite ED in NC.
  destruct (generated_facts days daily start sh max tp t0 l0 t1 l1 sum tp1 csv0 csv1 U1 U2 U3 SB MX TB E NC W0 W1) as (s0 & b0 & s1 & b1 & F1 & F2 & F3 & F4 & F5 & F6 & P0 & P1 & V0 & A0 & A1 & LC & CS & N1 & LS & LT & SE0 & SE1).
  exists (map fst s0), (map (map fst) b0), s1, b1. unfold og_facts. rewrite ED.
  assert (EQ : map fst s0 ++ concat (map (map fst) b0) = map fst (s0 ++ concat b0)) by (rewrite map_app, concat_map; auto).
  assert (P0' : proper (fun x => x) (map fst s0 :: map (map fst) b0)).
  { destruct P0 as (Q1 & Q2 & Q3). unfold proper. cbn [concat] in *. rewrite EQ, map_id, map_length. split; [exact Q1|]. split; [|exact Q3]. apply Forall_map. exact Q2. }
  destruct (start_fits _ _ _ _ P0' P1) as (IR & GE).
  assert (SZ : length (cm (map fst s0 ++ concat (map (map fst) b0)) (s1 ++ concat b1)) = length (common fst (s0 ++ concat b0) (s1 ++ concat b1))) by (rewrite EQ; apply common_ids).
  rewrite SZ, CS, common_ids, LC. rewrite EQ.
  assert (X : load_elements (od_csv0 d) = Ok (map (map fst) b0) /\ load_elements (od_csv1 d) = Ok b1 /\ files_hold hash H dec_string sk0 sk1 stash node (map fst s0) s1 (od_files d)
    /\ (forall size, od_size d = Some size -> size = sh - Z.of_nat (length (common_strings (d_elements t0) (d_elements t1))))).
  { destruct (Z.ltb_spec 0 start) as [SP|SP].
    - apply bind_Ok in G as (q1 & u2 & G0 & G). apply bind_Ok in G as (q0 & u3 & G1 & G). apply bind_Ok in G as (f & u4 & G2 & G).
      apply lift_Ok in G0 as (G0 & ->). apply lift_Ok in G1 as (G1 & ->). rewrite F2 in G0. rewrite F1 in G1. inversion G0; subst q1. inversion G1; subst q0. inversion G; subst d tp'. clear G.
      cbn [od_csv0 od_csv1 od_files od_size]. split; [auto|]. split; [auto|]. split.
      + pose proof (setup_files_spec hash H dec_string sk0 sk1 stash node HH IS IN (map fst s0) s1 tp1 IR GE) as X. rewrite G2 in X. exact X.
      + intros size ES. destruct expected; [|discriminate]. inversion ES. rewrite (pairs_equal_common _ N1).
        apply announced_small; [|lia]. split; [lia|]. rewrite <- LC, <- CS, <- !common_ids, map_app. pose proof (common_more (map fst s0) s1 (map fst (concat b0)) (concat b1)). lia.
    - inversion G; subst d tp'. clear G. cbn [od_csv0 od_csv1 od_files od_size].
      assert (Z0 : s0 = []). { destruct s0; auto. cbn [length] in LS. lia. } subst s0.
      assert (Z1 : d_elements t0 = []). { unfold dataset_elements in F1. apply omap_length in F1. destruct (d_elements t0); auto. discriminate. }
      assert (Z2 : s1 = []).
      { assert (V4 : uint32 sh) by (unfold uint32; lia). assert (V5 : uint32 max) by (unfold uint32; lia). destruct (C42_as_requested _ _ _ _ _ _ _ _ _ _ _ _ U1 U2 U3 V4 V5 E) as (_ & _ & _ & _ & _ & _ & (Wt1 & _) & _).
        unfold dataset_elements in F2. apply omap_length in F2. rewrite ?map_length in F2. unfold bytes in *. destruct s1; auto. cbn [length] in F2. lia. }
      subst s1. split; [auto|]. split; [auto|]. split; [apply no_files|]. intros size ES. inversion ES. rewrite Z1. cbn. lia. }
  destruct X as (X1 & X2 & X3 & X4). split; [auto|]. split; [auto|]. split; [rewrite map_length; auto|]. split; [rewrite map_length; auto|]. split; [auto|]. split; [auto|]. split; [auto|]. split; [auto|]. split; [auto|]. split; auto.
Qed.

Lemma og_setup_total days daily start flag max expected tp :
  uint32 days -> uint32 daily -> uint32 start -> - 2 ^ 31 <= flag < 2 ^ 31 -> 0 < max < 2 ^ 31 ->
  start + days * daily < 2 ^ 30 -> flag <= start + days * daily ->
  ends_well (fun _ => True) (og_generate hash H dec_string pk1 sk0 sk1 stash node days daily start flag max expected tp).
Proof.
  intros U1 U2 U3 FL MX TB FT. unfold og_generate. unfold uint32 in U1, U2, U3.
  rewrite (u32_id (days * daily)) by nia. rewrite (u32_id (start + days * daily)) by nia. rewrite (u32_id max) by lia.
  set (T := start + days * daily) in *. assert (HT : 0 <= T) by (subst T; nia). assert (SB : 0 <= shared_size T flag <= T).
  { unfold shared_size. destruct (Z.ltb_spec flag 0); [|lia]. pose proof (Z.div_pos T 8). assert (T / 8 <= T) by (apply Z.div_le_upper_bound; lia). lia. }
  rewrite (u32_id (shared_size T flag)) by lia. set (sh := shared_size T flag) in *.
  assert (V1 : uint32 days) by auto. assert (V2 : uint32 daily) by auto. assert (V3 : uint32 start) by auto. assert (V4 : uint32 sh) by (unfold uint32; lia). assert (V5 : uint32 max) by (unfold uint32; lia).
  destruct (C42_always days daily start sh max tp V1 V2 V3 V4 V5) as ([[[[[t0 l0] t1] l1] sum] tp1] & E); [fold T; lia|fold T; lia|lia|fold T; nia|].
  unfold bind at 1. rewrite E.
  destruct (C42_as_requested _ _ _ _ _ _ _ _ _ _ _ _ V1 V2 V3 V4 V5 E) as (_ & _ & _ & (Wt0 & Vt0) & LD0 & Wl0 & (Wt1 & Vt1) & LD1 & Wl1 & S0 & S1 & VR & _ & _).
  assert (SE0 : Forall set_element (d_elements t0) /\ Forall (fun d => Forall set_element (d_elements d)) l0).
  { unfold all_elements in S0. apply Forall_app in S0 as (A & B). split; auto. rewrite Forall_concat in B. rewrite Forall_map in B. auto. }
  assert (SE1 : Forall set_element (d_elements t1) /\ Forall (fun d => Forall set_element (d_elements d)) l1).
  { unfold all_elements in S1. apply Forall_app in S1 as (A & B). split; auto. rewrite Forall_concat in B. rewrite Forall_map in B. auto. }
  assert (VT : forall d, with_values (Z.of_nat (length (d_elements d))) d -> Forall (fun r => 0 <= snd r < max) (rows d) -> Forall (fun v => 0 <= v < max) (d_values d)).
  { intros [es vs] (_ & L) F. unfold rows in F. cbn [d_elements d_values] in *. apply (Forall_map snd (fun v => 0 <= v < max)) in F. rewrite combine_snd in F by lia. auto. }
  unfold all_rows in VR. apply Forall_app in VR as (VR0 & VRl). rewrite Forall_concat, Forall_map in VRl.
  destruct (omap_write_read l0) as (fs0 & X0 & Y0).
  { rewrite Forall_forall in *. intros x Hx. destruct (Wl0 x Hx) as (A & B). destruct SE0 as (_ & SE0). rewrite Forall_forall in SE0. split; [eapply Forall_impl; [|apply SE0; auto]; apply set_element_clean|]. split; [|right; lia].
    eapply Forall_impl; [|apply (VT x); [split; lia|apply VRl; auto]]. cbn. unfold int64. lia. }
  destruct (omap_write_read l1) as (fs1 & X1 & Y1).
  { rewrite Forall_forall in *. intros x Hx. destruct (Wl1 x Hx) as (A & B). destruct SE1 as (_ & SE1). rewrite Forall_forall in SE1. split; [eapply Forall_impl; [|apply SE1; auto]; apply set_element_clean|]. rewrite B. split; auto. }
  unfold bind at 1, lift. rewrite X0. cbn [obind]. unfold bind at 1. rewrite X1.
  destruct (Z.ltb_spec 0 start) as [SP|SP]; [|exact I].
  unfold bind at 1. rewrite (elements_num _ (proj1 SE1)). unfold bind at 1. rewrite (elements_num _ (proj1 SE0)). unfold bind.
  pose proof (setup_files_spec hash H dec_string sk0 sk1 stash node HH IS IN (map num (d_elements t0)) (map num (d_elements t1)) tp1) as X.
  assert (R : int_range (length (map num (d_elements t1)))). { unfold int_range. rewrite map_length. unfold bytes in *. subst T. nia. }
  assert (G : Forall (fun x => 0 <= x) (map num (d_elements t1))). { apply Forall_map. eapply Forall_impl; [|apply SE1]. intros s Hs. apply num_element in Hs. apply Hs. }
  specialize (X R G). destruct (og_setup_files _ _ _ _ _ _ _ _ _ _ _) as [[f u]| | |]; auto. exact I.
Qed.
End Deployed.
