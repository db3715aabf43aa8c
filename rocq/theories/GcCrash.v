(** * What the coins of [rand()] do (nothing), and crashes. *)
Require Import List Arith Lia ZArith Bool.
Import ListNotations.
From Verif Require Import Prelude TreeModel TreeSpec TreeDelModel Coins Group ElGamalModel BytesModel CipherModel PaillierModel PaillierProofs PropsPaillier WireModel SyncModel SyncSpec AddModel AddSpec AddProofs KindProofs PropsBytes DelModel DelSpec DelProofs DelRun PropsDel.
From Verif Require Import PsiModel PsiSpec PsiRun PropsPsi PropsPsiCrash GcModel GcProofs.
Local Open Scope Z_scope.

(** ** Independence of [c_rand] *)
Definition same_but_rand {A} (x y : outcome (A * coins3)) : Prop :=
  match x, y with
  | Ok (a, c), Ok (b, c') => a = b /\ c_zero c = c_zero c' /\ c_one c = c_one c'
  | Err e, Err e' => e = e' | Abort, Abort => True | UB, UB => True | _, _ => False end.
Definition norand {A} (w : D A) : Prop := forall c c', c_zero c = c_zero c' /\ c_one c = c_one c' -> same_but_rand (w c) (w c').
Lemma norand_bind {A B} (w : D A) (f : A -> D B) : norand w -> (forall a, norand (f a)) -> norand (dbind w f).
Proof.
  intros W F c c' E. unfold dbind. specialize (W c c' E). destruct (w c) as [[a d]|e| |], (w c') as [[a' d']|e'| |]; cbn in W; try contradiction; auto.
  destruct W as (-> & W). apply F; auto.
Qed.
Lemma norand_ret {A} (a : A) : norand (dret a).
Proof. intros c c' E. cbn. auto. Qed.
Lemma norand_lift {A} (o : outcome A) : norand (dlift o).
Proof. intros c c' E. unfold dlift. destruct o; cbn; auto. Qed.
Lemma norand_zero {A} (m : M A) : norand (at_zero m).
Proof. intros [r z o] [r' z' o'] (E1 & E2). cbn in E1, E2. subst. unfold at_zero. cbn. destruct (m z') as [[a t]| | |]; cbn; auto. Qed.
Lemma norand_one {A} (m : M A) : norand (at_one m).
Proof. intros [r z o] [r' z' o'] (E1 & E2). cbn in E1, E2. subst. unfold at_one. cbn. destruct (m o') as [[a t]| | |]; cbn; auto. Qed.
Lemma norand_ignored {A B} (m : M A) (f : D B) : (forall tp, exists a t, m tp = Ok (a, t)) -> norand f -> norand (dbind (with_rand m) (fun _ => f)).
Proof.
  intros T F c c' E. unfold dbind, with_rand. destruct (T (c_rand c)) as (a & t & ->), (T (c_rand c')) as (a' & t' & ->). apply F. exact E.
Qed.
Ltac norands := repeat first [apply norand_ret | apply norand_lift | apply norand_zero | apply norand_one | apply norand_bind; [|intros] | match goal with |- norand (let '(_, _) := ?p in _) => destruct p | |- norand (if ?b then _ else _) => destruct b end].
Section NoRand.
Variable circuit_input : Z -> outcome (list bool).
Lemma norand_flat P V al xs zs ys : norand (gc_flat circuit_input P V al xs zs ys).
Proof.
  intros c c' E. rewrite !gc_flat_plain. revert c c' E. change (norand (gc_plain circuit_input P V al xs zs ys)). unfold gc_plain.
  destruct (negb _); [apply norand_lift|]. apply norand_bind; [apply norand_lift|]. intros sent. apply norand_bind; [apply norand_lift|]. intros received.
  apply norand_ignored; [intros; destruct (bits_drawn xs tp) as (b & t & E & _); eauto|]. destruct al; norands.
Qed.
Variables (P0 P1 : pub) (V0 V1 : priv).
Lemma norand_del_circuits c s : norand (del_circuits_run circuit_input P0 P1 V0 V1 c s).
Proof. unfold del_circuits_run, gc_total. norands; apply norand_flat. Qed.
Lemma norand_psi_circuits c s : norand (psi_circuits_run circuit_input P0 P1 V0 V1 c s).
Proof. unfold psi_circuits_run, gc_totals. norands; apply norand_flat. Qed.
Lemma norand_second rs0 rs1 : norand (second_phase_run P0 V0 rs0 rs1).
Proof. unfold second_phase_run. norands. Qed.
Context {Gr : group}.
Variable hash : Z -> list bool.
Lemma norand_del_day st : norand (del_day_own (Gr := Gr) hash circuit_input P0 P1 V0 V1 st).
Proof.
  unfold del_day_own. destruct st as [[c s] r]. cbn [fst snd]. apply norand_bind.
  - unfold dc_run_own. destruct (nth_error _ _); [|apply norand_lift]. norands.
  - intros [c1 s1]. apply norand_bind; [apply norand_del_circuits|]. intros [[rs ors] rr]. apply norand_ret.
Qed.
Lemma norand_exchange es st : norand (exchange_own (Gr := Gr) hash P0 P1 V0 V1 es st).
Proof. unfold exchange_own. destruct st as [c s]. norands. Qed.
Lemma norand_psi_run st : norand (psi_run_own (Gr := Gr) hash P0 P1 V0 V1 st).
Proof.
  unfold psi_run_own. destruct st as [c s]. cbv zeta. destruct (nth_error _ _) as [[dels adds]|]; [|apply norand_lift].
  apply norand_bind; [apply norand_exchange|]. intros [c2 s2]. apply norand_bind; [apply norand_exchange|]. intros [c3 s3]. apply norand_ret.
Qed.
Lemma norand_psi_day st : norand (psi_day_own (Gr := Gr) hash circuit_input P0 P1 V0 V1 st).
Proof.
  unfold psi_day_own. destruct st as [[c s] di]. apply norand_bind; [apply norand_psi_run|]. intros [[c1 s1] [m0 m1]].
  apply norand_bind; [apply norand_psi_circuits|]. intros [[rs0 rs1] [r0 r1]]. apply norand_bind; [apply norand_second|]. intros us. norands.
Qed.
Lemma norand_run {S} (day : S -> D S) : (forall st, norand (day st)) -> forall k st, norand (run_own day k st).
Proof. intros H. induction k as [|k IH]; intros st; cbn [run_own]; [apply norand_ret|]. apply norand_bind; auto. intros st'. apply norand_bind; auto. intros l. apply norand_ret. Qed.
End NoRand.

(** ** Crashes *)
Notation good := GcProofs.good.
(** every crash of [w] is a crash of [m] with some coins *)
Definition fails {A} (w : D A) (m : M A) : Prop :=
  forall c, (w c = Abort -> exists t, m t = Abort) /\ (w c = UB -> exists t, m t = UB).
Lemma fails_bind' {A B} (w : D A) (m : M A) (f : A -> D B) (g : A -> M B) : fails w m -> sim w m -> (forall a, resp (g a)) ->
  (forall a, possible m a -> (exists c c', w c = Ok (a, c')) -> fails (f a) (g a)) -> fails (dbind w f) (bind m g).
Proof.
  intros W S RG F c. unfold dbind, bind. destruct (w c) as [[a c1]|e| |] eqn:E.
  - pose proof (proj2 S _ _ _ E) as PO. destruct (F a PO (ex_intro _ c (ex_intro _ c1 E)) c1) as (FA & FU).
    split; intros X; [destruct (FA X) as (u & U)|destruct (FU X) as (u & U)]; destruct (PO u) as (t & u' & ET & EU); exists t; rewrite ET;
      pose proof (RG a u' u EU) as O; rewrite U in O; destruct (g a u') as [[]| | |]; cbn in O; tauto.
  - split; discriminate.
  - destruct (W c) as (W1 & _). split; [|discriminate]. intros _. destruct (W1 E) as (t & W2). exists t. rewrite W2. auto.
  - destruct (W c) as (_ & W1). split; [discriminate|]. intros _. destruct (W1 E) as (t & W2). exists t. rewrite W2. auto.
Qed.
Lemma fails_bind {A B} (w : D A) (m : M A) (f : A -> D B) (g : A -> M B) : fails w m -> sim w m -> (forall a, resp (g a)) ->
  (forall a, possible m a -> fails (f a) (g a)) -> fails (dbind w f) (bind m g).
Proof. intros W S RG F. apply fails_bind'; auto. Qed.
Lemma fails_never {A} (w : D A) (m : M A) : (forall c, returns (w c)) -> fails w m.
Proof. intros R c. specialize (R c). destruct (w c); cbn in R; try tauto; split; discriminate. Qed.
Lemma fails_ret {A} (a : A) m : fails (dret a) m.
Proof. apply fails_never. intros c. exact I. Qed.
Lemma fails_lift {A} (o : outcome A) : fails (dlift o) (lift o).
Proof. intros c. unfold dlift, lift. destruct o; split; intros X; try discriminate; exists (fun _ => 0); auto. Qed.
Lemma fails_zero {A} (m : M A) : fails (at_zero m) m.
Proof. intros c. unfold at_zero. destruct (m (c_zero c)) as [[a t]| | |] eqn:E; split; intros X; try discriminate; eauto. Qed.
Lemma fails_one {A} (m : M A) : fails (at_one m) m.
Proof. intros c. unfold at_one. destruct (m (c_one c)) as [[a t]| | |] eqn:E; split; intros X; try discriminate; eauto. Qed.

(** *** the circuits do not crash *)
Section Calls.
Variable ci : Z -> outcome (list bool).
Hypothesis CI : forall x, returns (ci x).
Definition safe (P : pub) (V : priv) (al : bool) (p : Z * Z * Z) : Prop := forall tp, returns (gc_item ci P V al (fst p) (snd p) tp).
Lemma position_returns P V al x z y a b tp : safe P V al (x, z, y) -> ci x = Ok a -> ci y = Ok b ->
  match rand_less_than (pp_n P) tp with
  | Ok (beta, t1) => match pub_encrypt P (pp_n P - beta) t1 with
      | Ok (e, t2) => match bignum2block (pub_add P z e) (blocks_for (pp_n P)) with
          | Ok q => match bignum2block e (blocks_for (pp_n P)) with
              | Ok nq => returns (priv_decrypt V (block2bignum (if bits_eqb a b then q else nq)))
              | o => returns o end
          | o => returns o end
      | o => returns o end
  | o => returns o end.
Proof.
  intros S A B. specialize (S (cons_tape 0 tp)). unfold gc_item in S. cbn [fst snd] in S. unfold bind, lift at 1 2 in S. rewrite A, B in S.
  change (rand_less_than 2 (cons_tape 0 tp)) with (Ok (0, tp)) in S. cbv beta iota zeta in S.
  revert S. destruct (rand_less_than (pp_n P) tp) as [[beta t1]| | |]; try exact (fun x => x). destruct (pub_encrypt P (pp_n P - beta) t1) as [[e t2]| | |]; try exact (fun x => x).
  unfold lift. destruct (bignum2block (pub_add P z e) (blocks_for (pp_n P))) as [q| | |]; try exact (fun x => x). destruct (bignum2block e (blocks_for (pp_n P))) as [nq| | |]; try exact (fun x => x).
  intros S. destruct al, (bits_eqb a b); cbn [xorb negb Z.eqb] in S; destruct (priv_decrypt V _); exact S.
Qed.
Lemma masks_returns P V al : forall xs zs ys sent received tp, length xs = length zs -> length xs = length ys ->
  omap ci xs = Ok sent -> omap ci ys = Ok received -> Forall (safe P V al) (combine (combine xs zs) ys) ->
  match masks P (blocks_for (pp_n P)) zs tp with
  | Ok (ms, _) => returns (openings V sent received ms)
  | o => returns o end.
Proof.
  induction xs as [|x xs IH]; intros [|z zs] [|y ys] sent received tp L1 L2 S R F; try discriminate.
  - cbn in *. injection S as <-. exact I.
  - cbn [omap] in S, R. apply obind_Ok in S as (a & A & S). apply obind_Ok in S as (sent' & S & X). injection X as <-.
    apply obind_Ok in R as (b & B & R). apply obind_Ok in R as (received' & R & X). injection X as <-.
    cbn [combine] in F. inversion F as [|? ? F1 F2]; subst. pose proof (position_returns P V al x z y a b tp F1 A B) as X. cbn [masks]. unfold bind, lift.
    revert X. destruct (rand_less_than (pp_n P) tp) as [[beta t1]| | |]; try exact (fun x => x). destruct (pub_encrypt P (pp_n P - beta) t1) as [[e t2]| | |]; try exact (fun x => x).
    destruct (bignum2block (pub_add P z e) (blocks_for (pp_n P))) as [q| | |]; try exact (fun x => x). destruct (bignum2block e (blocks_for (pp_n P))) as [nq| | |]; try exact (fun x => x). intros X.
    specialize (IH zs ys sent' received' t2 ltac:(cbn in L1; lia) ltac:(cbn in L2; lia) S R F2). destruct (masks _ _ zs t2) as [[ms t3]| | |]; try exact IH.
    unfold ret. unfold openings in *. cbn [combine omap fst snd]. destruct (priv_decrypt V _); try exact X. cbn [obind]. destruct (omap _ _); try exact IH; exact I.
Qed.
Lemma omap_returns {A B} (f : A -> outcome B) l : (forall x, returns (f x)) -> returns (omap f l).
Proof. intros H. induction l as [|x l IH]; cbn [omap]; [exact I|]. specialize (H x). destruct (f x); try exact H. cbn [obind]. destruct (omap f l); exact IH. Qed.
Lemma gc_flat_returns P V al xs zs ys c : length xs = length zs -> length xs = length ys -> Forall (safe P V al) (combine (combine xs zs) ys) ->
  returns (gc_flat ci P V al xs zs ys c).
Proof.
  intros L1 L2 F. rewrite gc_flat_plain. unfold gc_plain. rewrite <- L1, <- L2, Nat.eqb_refl. cbn [andb negb]. unfold dbind, dlift.
  pose proof (omap_returns ci xs CI) as R1. destruct (omap ci xs) as [sent| | |] eqn:S; try exact R1.
  pose proof (omap_returns ci ys CI) as R2. destruct (omap ci ys) as [received| | |] eqn:R; try exact R2.
  unfold with_rand. destruct (bits_drawn xs (c_rand c)) as (bits & t & -> & _).
  destruct al; [unfold at_one|unfold at_zero]; cbn [c_rand c_zero c_one].
  - pose proof (masks_returns P V true xs zs ys sent received (c_one c) L1 L2 S R F) as X. destruct (masks _ _ zs _) as [[ms t1]| | |]; try exact X. destruct (openings V sent received ms); exact X.
  - pose proof (masks_returns P V false xs zs ys sent received (c_zero c) L1 L2 S R F) as X. destruct (masks _ _ zs _) as [[ms t1]| | |]; try exact X. destruct (openings V sent received ms); exact X.
Qed.
Lemma items_safe n P V al items ps : keyed n P V -> Forall2 (item_ok n V) items ps -> Forall (safe P V al) (combine (combine (map g_x items) (map g_z items)) (map snd ps)).
Proof.
  intros K F. induction F as [|it p items ps (I1 & _) F IH]; cbn [map combine]; constructor; auto. intros tp. cbn [fst snd].
  pose proof (gc_item_spec (fun _ => []) ci n P V K al (g_x it, g_z it) (snd p) (fst p) tp I1) as X. destruct (gc_item ci P V al _ _ tp) as [[]| | |]; cbn; auto; apply X; auto.
Qed.
Lemma gc_flat_items n P V al items ps c : keyed n P V -> Forall2 (item_ok n V) items ps -> returns (gc_flat ci P V al (map g_x items) (map g_z items) (map snd ps) c).
Proof. intros K F. pose proof (F2_len _ _ _ F). apply gc_flat_returns; rewrite ?map_length; auto. eapply items_safe; eauto. Qed.
Lemma to_share_returns n r : 0 <= r < n -> returns (to_share n r).
Proof. intros H. rewrite to_share_spec by auto. exact I. Qed.
Lemma sum_mod_range n l : 0 < n -> 0 <= sum_mod n l < n.
Proof. intros H. apply Z.mod_pos_bound. auto. Qed.
Lemma shares_return n ls : 0 < n -> returns (omap (to_share n) (map (sum_mod n) ls)).
Proof. intros H. rewrite omap_map. apply omap_returns. intros. apply to_share_returns, sum_mod_range, H. Qed.
End Calls.

(** *** deletion *)
Lemma returns_dbind {A B} (w : D A) (f : A -> D B) c : returns (w c) -> (forall a c', w c = Ok (a, c') -> returns (f a c')) -> returns (dbind w f c).
Proof. unfold dbind. destruct (w c) as [[a c']| | |]; auto. Qed.
Lemma returns_dlift {A} (o : outcome A) c : returns o -> returns (dlift o c).
Proof. unfold dlift. destruct o; auto. Qed.
Lemma at_zero_returns {A} (m : M A) c : (forall tp, returns (m tp)) -> returns (at_zero m c).
Proof. intros H. unfold at_zero. specialize (H (c_zero c)). destruct (m _) as [[]| | |]; exact H. Qed.
Lemma at_one_returns {A} (m : M A) c : (forall tp, returns (m tp)) -> returns (at_one m c).
Proof. intros H. unfold at_one. specialize (H (c_one c)). destruct (m _) as [[]| | |]; exact H. Qed.
Section DelCrash.
Context {Gr : group}.
Variables (hash : Z -> list bool) (ci : Z -> outcome (list bool)).
Hypothesis hash_len : forall x, length (hash x) = 256%nat.
Variables (p0 q0 p1 q1 : Z) (P0 P1 : pub) (V0 V1 : priv).
Hypothesis KP0 : paillier_pair p0 q0 P0 V0.
Hypothesis KP1 : paillier_pair p1 q1 P1 V1.
Notation n0 := (p0 * q0). Notation n1 := (p1 * q1).
Hypothesis CI : forall x, returns (ci x).
Lemma gc_total_returns n P V al items ps c : keyed n P V -> Forall2 (item_ok n V) items ps ->
  returns (gc_total ci P V al (map g_x items) (map g_z items) (map snd ps) c).
Proof. intros K F. unfold gc_total. apply returns_dbind; [eapply gc_flat_items; eauto|]. intros [b t] c' _. exact I. Qed.
Lemma gc_total_range P V al xs zs ys c r c' : 0 < pp_n P -> gc_total ci P V al xs zs ys c = Ok (r, c') -> 0 <= fst r < pp_n P /\ 0 <= snd r < pp_n P.
Proof. intros H E. apply dbind_Ok in E as ([b t] & c1 & _ & E). apply dret_Ok in E as (-> & _). split; apply sum_mod_range; auto. Qed.
Lemma del_circuits_returns c s i0 ps0 i1 ps1 k :
  pt_x c = map g_x i0 -> pt_z c = map g_z i0 -> pt_y s = map snd ps0 -> pt_x s = map g_x i1 -> pt_z s = map g_z i1 -> pt_y c = map snd ps1 ->
  Forall2 (item_ok n1 V1) i0 ps0 -> Forall2 (item_ok n0 V0) i1 ps1 -> returns (del_circuits_run ci P0 P1 V0 V1 c s k).
Proof.
  intros X1 X2 X3 X4 X5 X6 F0 F1. pose proof (pair_keyed _ _ _ _ KP0) as K0. pose proof (pair_keyed _ _ _ _ KP1) as K1.
  assert (N0 : 0 < pp_n P0) by (destruct K0 as (? & -> & _); lia). assert (N1 : 0 < pp_n P1) by (destruct K1 as (? & -> & _); lia).
  unfold del_circuits_run. rewrite X1, X2, X3, X4, X5, X6.
  apply returns_dbind; [eapply gc_total_returns; eauto|]. intros r0 k0 E0. apply gc_total_range in E0 as (A0 & B0); auto.
  apply returns_dbind; [eapply gc_total_returns; eauto|]. intros r1 k1 E1. apply gc_total_range in E1 as (A1 & B1); auto.
  repeat (apply returns_dbind; [apply returns_dlift, to_share_returns; auto|]; intros). exact I.
Qed.
Variables (d0 d1 : list (list entry)).
Hypothesis LEN : length d1 = length d0.
Hypothesis PR0 : proper_signed n1 d0.
Hypothesis PR1 : proper_signed n0 d1.
Variable o : nat.
Notation dinv := (dinv hash p0 q0 p1 q1 d0 d1 o).
Lemma fails_dc_run st : fails (dc_run_own (Gr := Gr) hash P0 P1 V0 V1 st) (dc_run (Gr := Gr) hash P0 P1 V0 V1 st).
Proof.
  destruct st as [c s]. unfold dc_run_own, dc_run. destruct (nth_error _ _) as [es|]; [|apply fails_lift].
  apply fails_bind; [apply fails_zero|apply sim_zero, good_del_gen1| |].
  { intros [p1' m1]. apply resp_bind; [apply good_send, hresp_del|]. intros [s' r]. apply good_resp. apply good_bind; [apply good_lift|intros; apply good_ret]. }
  intros [p1' m1] _. apply fails_bind; [apply fails_one|apply sim_one, good_send, hresp_del| |].
  { intros [s' r]. apply good_resp. apply good_bind; [apply good_lift|intros; apply good_ret]. }
  intros [s' r] _. apply fails_bind; [apply fails_lift|apply sim_lift|intros; apply good_resp, good_ret|]. intros. apply fails_ret.
Qed.
Lemma del_day_returns k c s rr co : (k < length d0)%nat -> dinv k c s -> returns (del_day_own (Gr := Gr) hash ci P0 P1 V0 V1 (c, s, rr) co).
Proof.
  intros LK IN. unfold del_day_own. cbn [fst snd].
  pose proof (fun tp => run_step (Gr := Gr) hash hash_len p0 q0 p1 q1 P0 P1 V0 V1 KP0 KP1 d0 d1 LEN PR0 PR1 o k c s tp LK IN) as X.
  apply returns_dbind.
  - destruct (fails_dc_run (c, ds_reset s) co) as (FA & FU). destruct (dc_run_own _ _ _ _ _ _ co) as [a|e| |]; cbn; auto.
    + destruct (FA eq_refl) as (t & E). specialize (X t). rewrite E in X. exact X.
    + destruct (FU eq_refl) as (t & E). specialize (X t). rewrite E in X. exact X.
  - intros [c1 s1] co1 E. destruct (sim_coins _ _ _ _ _ (sim_dc_run (Gr := Gr) hash P0 P1 V0 V1 (c, ds_reset s)) E) as (t & t' & E').
    specialize (X t). rewrite E' in X. destruct X as (_ & _ & i0 & ps0 & i1 & ps1 & X1 & X2 & X3 & X4 & X5 & X6 & F0 & _ & F1 & _).
    apply returns_dbind; [eapply del_circuits_returns; eauto|]. intros [[rs ors] rr'] co2 _. exact I.
Qed.
Lemma del_run_returns : forall k j c s rr co, (j + k <= length d0)%nat -> dinv j c s -> returns (run_own (del_day_own (Gr := Gr) hash ci P0 P1 V0 V1) k (c, s, rr) co).
Proof.
  induction k as [|k IH]; intros j c s rr co LE IN; cbn [run_own]; [exact I|].
  apply returns_dbind; [apply (del_day_returns j); auto; lia|]. intros [[c1 s1] [r0 r1]] co1 E. apply returns_dbind; [|intros; exact I]. apply (IH (S j)); [lia|].
  destruct (sim_coins _ _ _ _ _ (sim_del_day (Gr := Gr) hash P0 P1 V0 V1 ci (c, s, rr)) E) as (t & t' & E').
  pose proof (DelRun.day_step (Gr := Gr) hash ci hash_len p0 q0 p1 q1 P0 P1 V0 V1 KP0 KP1 d0 d1 LEN PR0 PR1 o j c s rr t ltac:(lia) IN) as X. rewrite E' in X. apply X.
Qed.
End DelCrash.

(** *** deletion-psi *)
Section PsiCrash.
Context {Gr : group}.
Variables (hash : Z -> list bool) (ci : Z -> outcome (list bool)).
Hypothesis hash_len : forall x, length (hash x) = 256%nat.
Variables (p0 q0 p1 q1 : Z) (P0 P1 : pub) (V0 V1 : priv).
Hypothesis KP0 : paillier_pair p0 q0 P0 V0.
Hypothesis KP1 : paillier_pair p1 q1 P1 V1.
Notation n0 := (p0 * q0). Notation n1 := (p1 * q1).
Variables (d0 d1 : list (list entry)).
Hypothesis PR0 : proper_signed n1 (halves d0).
Hypothesis PR1 : proper_signed n0 (halves d1).
Hypothesis LEN : length d1 = length d0.
Hypothesis BIG0 : 2 ^ 65 <= n0.
Hypothesis CI : forall x, returns (ci x).
Variable o : nat.
Notation pinv := (pinv hash p0 q0 p1 q1 (halves d0) (halves d1) d0 d1 o).
Lemma groups_concat n V (IT : list (list (Z * Z * Z))) (PS : list (list (Z * Z))) : Forall2 (Forall2 (item_ok n V)) IT PS -> Forall2 (item_ok n V) (concat IT) (concat PS).
Proof. induction 1; cbn [concat]; [constructor|]. apply F2_app; auto. Qed.
Lemma concat_map_map {A B} (f : A -> B) (l : list (list A)) : concat (map (map f) l) = map f (concat l).
Proof. induction l as [|x l IH]; cbn; auto. rewrite map_app, IH. auto. Qed.
Lemma groups_shape n V (IT : list (list (Z * Z * Z))) (PS : list (list (Z * Z))) : Forall2 (Forall2 (item_ok n V)) IT PS -> map (@length _) IT = map (@length _) PS.
Proof. induction 1; cbn [map]; auto. f_equal; auto. eapply F2_len; eauto. Qed.
Lemma gc_totals_returns n P V al IT PS c : keyed n P V -> Forall2 (Forall2 (item_ok n V)) IT PS ->
  returns (gc_totals ci P V al (map (map g_x) IT) (map (map g_z) IT) (map (map snd) PS) c).
Proof.
  intros K F. unfold gc_totals. rewrite !sizes_map. destruct (list_eq_dec Nat.eq_dec (map (@length _) IT) (map (@length _) IT)) as [_|N]; [|congruence]. cbn [negb].
  apply returns_dbind; [|intros [b t] c' _; exact I]. rewrite !concat_map_map. eapply gc_flat_items; eauto. apply groups_concat; auto.
Qed.
Lemma gc_totals_range P V al xs zs ys c b p c' : gc_totals ci P V al xs zs ys c = Ok ((b, p), c') ->
  (exists ls, b = map (sum_mod (pp_n P)) ls /\ length ls = length xs) /\ (exists ls, p = map (sum_mod (pp_n P)) ls /\ length ls = length ys).
Proof.
  unfold gc_totals. destruct (negb _); [discriminate|]. intros E. apply dbind_Ok in E as ([betas ts] & c1 & _ & E). apply dret_Ok in E as (E & _). injection E as -> ->.
  split; eexists; (split; [reflexivity|rewrite split_length, map_length; auto]).
Qed.
Lemma share_range n r a : to_share n r = Ok a -> 0 <= a < 2 ^ 64.
Proof.
  unfold to_share. rewrite !C38_uint64. destruct (n <? r * 2); [destruct (n - r <? 0)|destruct (r <? 0)]; cbn [obind]; intros E; try discriminate; injection E as <-; apply Z.mod_pos_bound; lia.
Qed.
Lemma shares_range n : forall l l', omap (to_share n) l = Ok l' -> Forall (fun a => 0 <= a < 2 ^ 64) l'.
Proof.
  induction l as [|x l IH]; cbn [omap]; intros l' E; [injection E as <-; constructor|]. apply obind_Ok in E as (a & E1 & E). apply obind_Ok in E as (r & E2 & E). injection E as <-.
  constructor; auto. eapply share_range; eauto.
Qed.
Lemma psi_circuits_returns c s I0 PS0 I1 PS1 k :
  pg_x c = map (map g_x) I0 -> pg_z c = map (map g_z) I0 -> pg_y s = map (map snd) PS0 -> pg_x s = map (map g_x) I1 -> pg_z s = map (map g_z) I1 -> pg_y c = map (map snd) PS1 ->
  Forall2 (Forall2 (item_ok n1 V1)) I0 PS0 -> Forall2 (Forall2 (item_ok n0 V0)) I1 PS1 ->
  match psi_circuits_run ci P0 P1 V0 V1 c s k with
  | Ok ((a0, a1, _), _) => length a0 = length a1 /\ Forall (fun a => 0 <= a < 2 ^ 64) a0 /\ Forall (fun a => 0 <= a < 2 ^ 64) a1
  | Err _ => True | _ => False end.
Proof.
  intros X1 X2 X3 X4 X5 X6 F0 F1. pose proof (pair_keyed _ _ _ _ KP0) as K0. pose proof (pair_keyed _ _ _ _ KP1) as K1.
  assert (N0 : 0 < pp_n P0) by (destruct K0 as (? & -> & _); lia). assert (N1 : 0 < pp_n P1) by (destruct K1 as (? & -> & _); lia).
  assert (R : returns (psi_circuits_run ci P0 P1 V0 V1 c s k)).
  { unfold psi_circuits_run. rewrite X1, X2, X3, X4, X5, X6.
    apply returns_dbind; [eapply gc_totals_returns; eauto|]. intros [b0 t1] k0 E0. apply gc_totals_range in E0 as ((l0 & -> & _) & (l1 & -> & _)).
    apply returns_dbind; [eapply gc_totals_returns; eauto|]. intros [b1 t0] k1 E1. apply gc_totals_range in E1 as ((l2 & -> & _) & (l3 & -> & _)).
    repeat (apply returns_dbind; [apply returns_dlift, shares_return; auto|]; intros). exact I. }
  destruct (psi_circuits_run ci P0 P1 V0 V1 c s k) as [[[[a0 a1] rr] k']| | |] eqn:E; [|exact I|exact R|exact R]. clear R. unfold psi_circuits_run in E.
  apply dbind_Ok in E as ([b0 t1] & k1 & E0 & E). apply dbind_Ok in E as ([b1 t0] & k2 & E1 & E). apply gc_totals_range in E0 as ((l0 & -> & L0) & (l1 & -> & L1)). apply gc_totals_range in E1 as ((l2 & -> & L2) & (l3 & -> & L3)).
  apply dbind_Ok in E as (s0 & k3 & T0 & E). apply dlift_Ok in T0 as (T0 & ->). apply dbind_Ok in E as (t1 & k3 & T1 & E). apply dlift_Ok in T1 as (T1 & ->).
  apply dbind_Ok in E as (s1 & k3 & T2 & E). apply dlift_Ok in T2 as (T2 & ->). apply dbind_Ok in E as (t0 & k3 & T3 & E). apply dlift_Ok in T3 as (T3 & ->).
  apply dret_Ok in E as (E & _). injection E as -> -> _.
  pose proof (omap_length _ _ _ T0) as M0. pose proof (omap_length _ _ _ T1) as M1. pose proof (omap_length _ _ _ T2) as M2. pose proof (omap_length _ _ _ T3) as M3. rewrite map_length in M0, M1, M2, M3.
  apply (f_equal (@length _)) in X1, X3, X4, X6. rewrite map_length in X1, X3, X4, X6. pose proof (F2_len _ _ _ F0). pose proof (F2_len _ _ _ F1).
  split; [rewrite !app_length; lia|]. split; apply Forall_app; split; eapply shares_range; eauto.
Qed.
Lemma second_returns rs0 rs1 k : length rs0 = length rs1 -> Forall (fun a => 0 <= a < 2 ^ 64) rs0 -> Forall (fun a => 0 <= a < 2 ^ 64) rs1 -> returns (second_phase_run P0 V0 rs0 rs1 k).
Proof.
  intros L F0 F1. pose proof (pair_keyed _ _ _ _ KP0) as K0. pose proof K0 as (_ & _ & _ & HE & HA & _). pose proof KP0 as (_ & fl0 & HV0).
  unfold second_phase_run. rewrite L, Nat.eqb_refl. cbn [negb].
  assert (M0 : forall l tp, match mapM (priv_encrypt V0) l tp with Ok (cs, _) => Forall2 (fun a c => ct_of n0 a c) l cs | Err _ => True | _ => False end).
  { induction l as [|a l IH]; intros tp; cbn [mapM]; [constructor|]. unfold bind. pose proof (priv_enc_ok V0 p0 q0 fl0 a tp HV0) as X. destruct (priv_encrypt V0 a tp) as [[c t1]| | |]; auto. destruct X as (_ & X).
    specialize (IH t1). destruct (mapM _ l t1) as [[cs t2]| | |]; auto. constructor; auto. }
  assert (O0 : forall l cs, Forall2 (fun a c => ct_of n0 a c) l cs -> omap (over_io (blocks_for (pv_n V0))) cs = Ok cs).
  { induction 1 as [|a c l cs C F IH]; [reflexivity|]. cbn [omap]. rewrite (over_io_ok p0 q0 p1 q1 P0 V0 KP0 d0 d1 LEN BIG0 a c C). cbn [obind]. rewrite IH. reflexivity. }
  apply returns_dbind; [apply at_zero_returns; intros tp; specialize (M0 rs0 tp); destruct (mapM _ rs0 tp) as [[]| | |]; cbn; tauto|]. intros cs k1 E1.
  assert (C0 : Forall2 (fun a c => ct_of n0 a c) rs0 cs).
  { unfold at_zero in E1. specialize (M0 rs0 (c_zero k)). destruct (mapM _ _ _) as [[v t]| | |]; try discriminate. injection E1 as <- _. exact M0. }
  rewrite (O0 _ _ C0). unfold dbind at 1. cbn [dlift].
  assert (M1 : forall l tp, Forall (fun p => exists a, 0 <= a < 2 ^ 64 /\ ct_of n0 a (fst p) /\ 0 <= snd p < 2 ^ 64) l ->
    match mapM (fun p => encrypted_y <- pub_encrypt P0 (snd p) ;; ret (pub_add P0 (fst p) encrypted_y)) l tp with
    | Ok (ms, _) => Forall (fun m => exists v, 0 <= v < 2 ^ 65 /\ ct_of n0 v m) ms | Err _ => True | _ => False end).
  { induction l as [|[a b] l IH]; intros tp F; cbn [mapM]; [constructor|]. inversion F as [|? ? (v & V & CV & B) F']; subst. cbn [fst snd] in *. unfold bind at 1 2.
    destruct (HE b tp) as ((d & t1 & ED & C2) & _); [lia|]. rewrite ED. unfold ret at 1. unfold bind. specialize (IH t1 F'). destruct (mapM _ l t1) as [[ms t2]| | |]; auto. constructor; auto. exists (v + b). split; [lia|]. apply HA; auto. }
  assert (FC : Forall (fun p => exists a, 0 <= a < 2 ^ 64 /\ ct_of n0 a (fst p) /\ 0 <= snd p < 2 ^ 64) (combine cs rs1)).
  { clear - C0 F0 F1 L. revert rs1 L F1. induction C0 as [|a c rs0 cs C F IH]; intros [|b rs1] L F1; try discriminate; cbn [combine]; constructor; inversion F0; inversion F1; subst; cbn [fst snd]; eauto. }
  apply returns_dbind; [apply at_one_returns; intros tp; specialize (M1 (combine cs rs1) tp FC); destruct (mapM _ _ tp) as [[]| | |]; cbn; tauto|]. intros msgs k2 E2.
  assert (FM : Forall (fun m => exists v, 0 <= v < 2 ^ 65 /\ ct_of n0 v m) msgs).
  { unfold at_one in E2. specialize (M1 (combine cs rs1) (c_one k1) FC). destruct (mapM _ _ _) as [[v t]| | |] in *; try discriminate. injection E2 as <- _. exact M1. }
  destruct (shuffle_total msgs (c_one k2)) as (sh & t & ES). unfold at_one, dbind. rewrite ES. apply shuffle_perm in ES.
  assert (FS : Forall (fun m => exists v, 0 <= v < 2 ^ 65 /\ ct_of n0 v m) sh).
  { apply Forall_forall. intros m Hm. rewrite Forall_forall in FM. apply FM. eapply Permutation.Permutation_in; [|exact Hm]. first [exact ES | apply Permutation.Permutation_sym; exact ES]. }
  assert (OS : exists vs, omap (open_share V0) sh = Ok vs).
  { clear - FS KP0 BIG0 K0 LEN. induction FS as [|m ms (v & B & C) F (vs & IH)]; [exists []; reflexivity|]. cbn [omap].
    pose proof (open_spec p0 q0 0 0 P0 V0 KP0 d0 d1 LEN BIG0 [m] [v] ltac:(constructor; [exact C|constructor]) ltac:(constructor; [exact B|constructor])) as X. cbn [omap map] in X.
    destruct (open_share V0 m) as [u| | |]; try discriminate. cbn [obind]. rewrite IH. eexists. reflexivity. }
  destruct OS as (vs & ->). exact I.
Qed.

Lemma fails_exchange es st : fails (exchange_own (Gr := Gr) hash P0 P1 V0 V1 es st) (exchange (Gr := Gr) hash P0 P1 V0 V1 es st).
Proof.
  destruct st as [c s]. unfold exchange_own, exchange.
  apply fails_bind; [apply fails_zero|apply sim_zero, good_psi_gen1| |].
  { intros [p1' m1]. apply resp_bind; [apply good_send, hresp_psi|]. intros [s' r]. apply good_resp. apply good_bind; [apply good_lift|intros; apply good_ret]. }
  intros [p1' m1] _. apply fails_bind; [apply fails_one|apply sim_one, good_send, hresp_psi| |].
  { intros [s' r]. apply good_resp. apply good_bind; [apply good_lift|intros; apply good_ret]. }
  intros [s' r] _. apply fails_bind; [apply fails_lift|apply sim_lift|intros; apply good_resp, good_ret|]. intros. apply fails_ret.
Qed.
Lemma fails_psi_run st : fails (psi_run_own (Gr := Gr) hash P0 P1 V0 V1 st) (psi_run (Gr := Gr) hash P0 P1 V0 V1 st).
Proof.
  destruct st as [c s]. unfold psi_run_own, psi_run. cbv zeta. destruct (nth_error _ _) as [[dels adds]|]; [|apply fails_lift].
  apply fails_bind; [apply fails_exchange|apply sim_exchange| |].
  { intros [c2 s2]. apply resp_bind; [apply (sim_exchange (Gr := Gr) hash P0 P1 V0 V1)|]. intros [c3 s3]. apply good_resp, good_ret. }
  intros [c2 s2] _. apply fails_bind; [apply fails_exchange|apply sim_exchange| |]; intros [c3 s3]; [apply good_resp, good_ret|]. intros _. apply fails_ret.
Qed.
Lemma fails_psi_day k c s info : (k < length d0)%nat -> pinv k c s ->
  fails (psi_day_own (Gr := Gr) hash ci P0 P1 V0 V1 (c, s, info)) (psi_day2 (Gr := Gr) hash ci P0 P1 V0 V1 (c, s, info)).
Proof.
  intros LK IN. unfold psi_day_own, psi_day2.
  apply fails_bind; [apply fails_psi_run|apply sim_psi_run| |].
  { intros [[c1 s1] [mid0 mid1]]. apply resp_bind; [apply good_psi_circuits|]. intros [[rs0 rs1] [r0 r1]]. apply resp_bind; [apply good_second|]. intros us. apply good_resp, good_bind; [apply good_lift|intros; apply good_ret]. }
  intros [[c1 s1] [mid0 mid1]] PO. destruct (PO (fun _ => 0)) as (t & u' & ER & _).
  pose proof (psi_run_in_step _ _ _ _ _ _ _ _ _ _ _ _ ER) as (S1 & S2).
  pose proof (psi_run_step (Gr := Gr) hash hash_len p0 q0 p1 q1 P0 P1 V0 V1 KP0 KP1 _ _ PR0 PR1 d0 d1 eq_refl eq_refl LEN o k c s t LK IN) as X. rewrite ER in X.
  destruct X as (_ & _ & _ & _ & _ & I0 & PS0 & I1 & PS1 & X1 & X2 & X3 & X4 & X5 & X6 & F0 & _ & F1 & _).
  pose proof (fun co => psi_circuits_returns (pc_party c1) (ps_party s1) I0 PS0 I1 PS1 co X1 X2 X3 X4 X5 X6 F0 F1) as R.
  apply fails_bind'.
  - apply fails_never. intros co. specialize (R co). destruct (psi_circuits_run _ _ _ _ _ _ _ co) as [[[[a0 a1] rr] k']| | |]; cbn; tauto.
  - split; [apply good_psi_circuits|]. intros co a co' E. eapply psi_circuits_possible; eauto.
  - intros [[rs0 rs1] [r0 r1]]. apply resp_bind; [apply good_second|]. intros us. apply good_resp, good_bind; [apply good_lift|intros; apply good_ret].
  - intros [[rs0 rs1] [r0 r1]] _ (co & co' & E). specialize (R co). rewrite E in R. destruct R as (L & A0 & A1).
    apply fails_bind; [apply fails_never; intros; apply second_returns; auto|apply sim_second| |].
    { intros us. apply good_resp, good_bind; [apply good_lift|intros; apply good_ret]. }
    intros us _. apply fails_bind; [apply fails_lift|apply sim_lift|intros; apply good_resp, good_ret|]. intros. apply fails_ret.
Qed.
Lemma fails_psi_trace : forall k j c s info, (j + k <= length d0)%nat -> pinv j c s ->
  fails (run_own (psi_day_own (Gr := Gr) hash ci P0 P1 V0 V1) k (c, s, info)) (run_trace (psi_day2 (Gr := Gr) hash ci P0 P1 V0 V1) k (c, s, info)).
Proof.
  induction k as [|k IH]; intros j c s info LE IN; cbn [run_own run_trace]; [apply fails_ret|].
  pose proof (fun st => sim_run _ _ (sim_psi_day (Gr := Gr) hash P0 P1 V0 V1 ci) k st) as SR.
  apply fails_bind; [apply (fails_psi_day j); auto; lia|apply sim_psi_day| |].
  { intros st'. apply resp_bind; [apply SR|]. intros l. apply good_resp, good_ret. }
  intros [[c1 s1] di1] PO. apply fails_bind; [|apply SR|intros; apply good_resp, good_ret|intros; apply fails_ret]. apply (IH (S j)); [lia|].
  destruct (PO (fun _ => 0)) as (t & u' & ER & _).
  pose proof (day_step (Gr := Gr) hash ci hash_len p0 q0 p1 q1 P0 P1 V0 V1 KP0 KP1 _ _ PR0 PR1 d0 d1 eq_refl eq_refl LEN o BIG0 j c s info t ltac:(lia) IN) as X. rewrite ER in X. apply X.
Qed.
End PsiCrash.
