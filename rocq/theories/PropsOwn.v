(** * C75: the deletion deployments as the two processes run them.

    Programs: OwnModel.v: files, network and garbled circuits at once, with each
    process's own coins. *)
Require Import String.
Require Import List Arith Lia ZArith Bool Znumtheory.
Import ListNotations.
From Verif Require Import Prelude NumTheory TreeModel TreeDelModel TreeHistory TreeDelSpec TreeDelProofs BytesProofs ContextModel PaillierProofs SyncProofs KindProofs CsvSpec CsvProofs DataProofs DelProofs BigPrime SetupProofs FileProofs DeployProofs DataDelProofs PropsDataDel ProgProofs TreeSpec Coins Group ElGamalModel BytesModel CipherModel PaillierModel PropsPaillier WireModel SyncModel SyncSpec PropsSync FlagModel CsvModel DataModel DataSpec PropsData AddModel AddSpec PropsAdd DelModel DelSpec DelRun PropsDel PsiSpec PsiSets PsiRun PropsPsi SetupModel PropsSetup FileModel FileSpec PropsFile KeyModel KeyProofs PropsKeys DeployModel PropsDeploy DelSetupModel DelSetupProofs PropsDelSetup ProtoModel ProtoCodec PropsProto PropsCodec OnceModel NetModel PropsNet ProgModel PropsProg DelProgModel PropsDelProg PropsPsiCrash PropsDelCrash PsiModel GcModel GcProofs GcCrash PropsGc OwnModel.
Local Open Scope Z_scope.

(** ** Specification *)
(** [w] ends as [d], except that it may end with an Internal error instead *)
Definition or_internal {T} (d w : outcome T) : Prop := w = d \/ w = Err Internal.

(** ** Proofs *)
Definition below {A} (d w : D A) : Prop := forall c, or_internal (d c) (w c).
Lemma below_refl {A} (d : D A) : below d d. Proof. intros c. left. reflexivity. Qed.
Lemma below_bind {A B} (d w : D A) (f g : A -> D B) : below d w -> (forall a, below (f a) (g a)) -> below (dbind d f) (dbind w g).
Proof. intros M F c. unfold dbind. destruct (M c) as [->| ->]; [|right; reflexivity]. destruct (d c) as [[a c1]| | |]; [apply F|left; reflexivity..]. Qed.
Lemma below_one {A} (m n : M A) : (forall tp, or_internal (m tp) (n tp)) -> below (at_one m) (at_one n).
Proof. intros E c. unfold at_one. destruct (E (c_one c)) as [->| ->]; [left|right]; reflexivity. Qed.
Lemma below_run {S} (d w : S -> D S) : (forall st, below (d st) (w st)) -> forall k st, below (run_own d k st) (run_own w k st).
Proof. intros E. induction k as [|k IH]; intros st; [apply below_refl|]. cbn [run_own]. apply below_bind; [apply E|]. intros st'. apply below_bind; [apply IH|]. intros; apply below_refl. Qed.

Section Wire.
Variables (Gr : group) (enc : wpoint Gr -> bytes) (dec : bytes -> wpoint Gr).
Hypothesis enc_dec : forall w, dec (enc w) = w.
Lemma send_wired {SV} (handle : client_msg Gr -> SV -> tape -> SV * outcome (option (server_msg Gr))) req s tp :
  (forall r s tp s' rep, handle r s tp = (s', Ok rep) -> clean Gr rep) -> or_internal (send handle req s tp) (send (wired enc dec handle) req s tp).
Proof.
  intros CL. unfold send, wired, over_wire. fold (bytes_of ClientMessage (to_client enc req)).
  destruct (Z.ltb_spec message_limit (bytes_of ClientMessage (to_client enc req))) as [L|L]; [right; reflexivity|].
  rewrite (proj1 C70_network) by (apply small_of; exact L). rewrite (back_client Gr enc dec enc_dec).
  destruct (handle req s _) as [s' [rep|c| |]] eqn:H; try (left; reflexivity).
  fold (bytes_of ServerMessage (to_server enc rep)).
  destruct (Z.ltb_spec message_limit (bytes_of ServerMessage (to_server enc rep))) as [L2|L2]; [right; reflexivity|].
  rewrite (proj2 C70_network) by (apply small_of; exact L2). rewrite (back_server Gr enc dec enc_dec) by (eapply CL; eauto). left. reflexivity.
Qed.
Variables (hash : Z -> list bool) (circuit_input : Z -> outcome (list bool)) (P0 P1 : pub) (V0 V1 : priv).
Notation dh := (del_handle (Gr := Gr) hash P0 V1). Notation ph := (PsiModel.psi_handle (Gr := Gr) hash P0 V1).
Lemma del_day_below st : below (del_day_own (Gr := Gr) hash circuit_input P0 P1 V0 V1 st) (del_day_own_by hash circuit_input P0 P1 V0 V1 (wired enc dec dh) st).
Proof.
  unfold del_day_own, del_day_own_by. apply below_bind; [|intros; apply below_refl]. unfold dc_run_own, dc_run_by. destruct (nth_error _ _); [|apply below_refl].
  apply below_bind; [apply below_refl|]. intros [p m]. apply below_bind; [|intros; apply below_refl]. apply below_one. intros tp. apply send_wired. apply del_clean.
Qed.
Lemma exchange_below es st : below (exchange_own (Gr := Gr) hash P0 P1 V0 V1 es st) (exchange_by hash P1 V0 (wired enc dec ph) es st).
Proof.
  destruct st as [c s]. unfold exchange_own, exchange_by. apply below_bind; [apply below_refl|]. intros [p m]. apply below_bind; [|intros; apply below_refl].
  apply below_one. intros tp. apply send_wired. apply ph_clean.
Qed.
Lemma psi_day_below st : below (psi_day_own (Gr := Gr) hash circuit_input P0 P1 V0 V1 st) (psi_day_own_by hash circuit_input P0 P1 V0 V1 (wired enc dec ph) st).
Proof.
  destruct st as [[c s] di]. unfold psi_day_own, psi_day_own_by. apply below_bind; [|intros; apply below_refl]. unfold psi_run_own, psi_run_own_by. destruct (nth_error _ _) as [[dels adds]|]; [|apply below_refl].
  apply below_bind; [apply exchange_below|]. intros [c2 s2]. apply below_bind; [apply exchange_below|]. intros; apply below_refl.
Qed.
End Wire.

(** *** the starts *)
Section Own.
Context {Gr : group}.
Variables (enc : wpoint Gr -> bytes) (dec : bytes -> wpoint Gr).
Hypothesis enc_dec : forall w, dec (enc w) = w.
Variables (cppub : codec ppub_msg) (cpsec : codec psec_msg).
Variables (cpt : codec (tree_file pnode)) (cet : codec (tree_file (list (welem Gr)))).
Variable hash : Z -> list bool.
Variables stash node : nat.
Variable two_k_ary : bool.
Variable fuel : nat.
Variable circuit_input : Z -> outcome (list bool).
Notation own_del e0 e1 := (prog_deletion_own enc dec cppub cpsec cpt cet hash stash node two_k_ary fuel e0 e1).
Notation own_psi e0 e1 := (prog_deletion_psi_own enc dec cppub cpsec cpt cet hash stash node two_k_ary fuel e0 e1).
Notation start_party := (start_del_party cppub cpsec cpt cet stash node two_k_ary fuel).

(** C75.  The network adds nothing but Internal errors: with messages passed
    directly ([own_direct]: the days of C73) the programs end in the same way. *)
Definition own_direct_del e0 e1 data out days trees := both_start cppub cpsec cpt cet stash node two_k_ary fuel e0 e1 data out days trees (fun zero one =>
  let st := del_start_with (dp_trees zero) (dp_trees one) (dp_data zero) (dp_data one) in
  trace <~ run_own (del_day_own (Gr := Gr) hash circuit_input (dp_pub one) (dp_pub zero) (dp_priv zero) (dp_priv one)) days st ;; dret (st, trace)).
Definition own_direct_psi e0 e1 data out days trees := both_start cppub cpsec cpt cet stash node two_k_ary fuel e0 e1 data out days trees (fun zero one =>
  let st := psi_start_with stash node (dp_trees zero) (dp_trees one) (dp_data zero) (dp_data one) in
  trace <~ run_own (psi_day_own (Gr := Gr) hash circuit_input (dp_pub one) (dp_pub zero) (dp_priv zero) (dp_priv one)) days st ;; dret (st, trace)).
Lemma below_start {A} e0 e1 data out days trees (d w : del_party -> del_party -> D A) : (forall z o, below (d z o) (w z o)) -> forall f c,
  or_internal (both_start cppub cpsec cpt cet stash node two_k_ary fuel e0 e1 data out days trees d f c) (both_start cppub cpsec cpt cet stash node two_k_ary fuel e0 e1 data out days trees w f c).
Proof.
  intros E f c. unfold both_start. destruct (start_party e1 _ _ _ _ _) as [s1 [one|k| |]]; try (left; reflexivity). destruct (start_party e0 _ _ _ _ _) as [s0 [zero|k| |]]; try (left; reflexivity).
  destruct (E zero one (mkC3 (c_rand c) (sy_coins s0) (sy_coins s1))) as [->| ->]; [left|right]; reflexivity.
Qed.
Theorem C75_network : forall e0 e1 data out days trees w coins,
  or_internal (own_direct_del e0 e1 data out days trees w coins) (own_del e0 e1 data out days trees circuit_input w coins) /\
  or_internal (own_direct_psi e0 e1 data out days trees w coins) (own_psi e0 e1 data out days trees circuit_input w coins).
Proof.
  intros. split; apply below_start; intros z o; cbv zeta; (apply below_bind; [|intros; apply below_refl]); apply below_run; intros st; [apply del_day_below|apply psi_day_below]; exact enc_dec.
Qed.

(** rand() does not matter to a deployment either, nor to its errors. *)
Lemma norand_day_by P0 P1 V0 V1 h st : norand (del_day_own_by (Gr := Gr) hash circuit_input P0 P1 V0 V1 h st).
Proof.
  unfold del_day_own_by. destruct st as [[c s] r]. cbn [fst snd]. apply norand_bind.
  - unfold dc_run_by. destruct (nth_error _ _); [|apply norand_lift]. norands.
  - intros [c1 s1]. apply norand_bind; [apply norand_del_circuits|]. intros [[rs ors] rr]. apply norand_ret.
Qed.
Lemma norand_psi_by P0 P1 V0 V1 h st : norand (psi_day_own_by (Gr := Gr) hash circuit_input P0 P1 V0 V1 h st).
Proof.
  unfold psi_day_own_by. destruct st as [[c s] di]. apply norand_bind.
  - unfold psi_run_own_by. destruct (nth_error _ _) as [[dels adds]|]; [|apply norand_lift].
    apply norand_bind; [unfold exchange_by; norands|]. intros [c2 s2]. apply norand_bind; [unfold exchange_by; norands|]. intros [c3 s3]. apply norand_ret.
  - intros [[c1 s1] [m0 m1]]. apply norand_bind; [apply norand_psi_circuits|]. intros [[rs0 rs1] [r0 r1]]. apply norand_bind; [apply norand_second|]. intros us. norands.
Qed.
Lemma norand_start {A} e0 e1 data out days trees (go : del_party -> del_party -> D A) w c c' : (forall z o, norand (go z o)) -> c_zero c = c_zero c' -> c_one c = c_one c' ->
  both_start cppub cpsec cpt cet stash node two_k_ary fuel e0 e1 data out days trees go w c = both_start cppub cpsec cpt cet stash node two_k_ary fuel e0 e1 data out days trees go w c'.
Proof.
  intros N Z O. unfold both_start. rewrite Z, O. destruct (start_party e1 _ _ _ _ _) as [s1 [one|k| |]]; auto. destruct (start_party e0 _ _ _ _ _) as [s0 [zero|k| |]]; auto.
  specialize (N zero one (mkC3 (c_rand c) (sy_coins s0) (sy_coins s1)) (mkC3 (c_rand c') (sy_coins s0) (sy_coins s1)) (conj eq_refl eq_refl)). unfold same_but_rand in N.
  destruct (go zero one _) as [[a d]|e| |], (go zero one _) as [[a' d']|e'| |]; try contradiction; auto; [destruct N as (-> & _); auto|subst; auto].
Qed.
Theorem C75_rand_irrelevant : forall e0 e1 data out days trees w coins coins', c_zero coins = c_zero coins' -> c_one coins = c_one coins' ->
  own_del e0 e1 data out days trees circuit_input w coins = own_del e0 e1 data out days trees circuit_input w coins' /\
  own_psi e0 e1 data out days trees circuit_input w coins = own_psi e0 e1 data out days trees circuit_input w coins'.
Proof.
  intros e0 e1 data out days trees w c c' Z O. split; apply norand_start; auto; intros z o; cbv zeta; (apply norand_bind; [|intros; apply norand_ret]); apply norand_run; intros st; [apply norand_day_by|apply norand_psi_by].
Qed.

(** What a party starts with, and the generator it goes on with, do not depend on
    the coins of the other party. *)
Lemma start_world e dir keys days (import : bool) w t t' s s' a a' :
  start_party e dir keys days import (mkSys w t) = (s, Ok a) -> start_party e dir keys days import (mkSys w t') = (s', Ok a') -> sy_world s = sy_world s'.
Proof.
  unfold start_del_party, sbind, io, pure, KeyModel.rand, zoom, sfail. cbn [sy_world sy_coins].
  destruct (read_days e dir days 1 w) as [w1 [ds| | |]]; try discriminate. cbn [sy_world sy_coins].
  match goal with |- context [(if import then ?x else ?y) w1] => destruct ((if import then x else y) w1) as [w2 [ts| | |]] end; try discriminate. cbn [sy_world sy_coins].
  match goal with |- context [must ?x w2] => destruct (must x w2) as [w3 [sm| | |]] end; try discriminate. cbn [sy_world sy_coins].
  destruct (private_key two_k_ary sm) as [V| | |]; try discriminate. cbn [sy_world sy_coins].
  match goal with |- context [must ?x w3] => destruct (must x w3) as [w4 [pm| | |]] end; try discriminate. cbn [sy_world sy_coins].
  destruct (public_key two_k_ary fuel pm t) as [[P u]| | |]; try discriminate. destruct (public_key two_k_ary fuel pm t') as [[P' u']| | |]; try discriminate. cbn [sy_world sy_coins].
  destruct (omap dataset_pairs ds) as [l| | |]; try discriminate. unfold sret. intros E E'. injection E as <- _. injection E' as <- _. reflexivity.
Qed.
Theorem C75_own_generators : forall e0 e1 data out days trees w coins coins' zero one after zero' one' after',
  let start := both_start cppub cpsec cpt cet stash node two_k_ary fuel e0 e1 data out days trees (fun zero one c => Ok ((zero, one, c), c)) w in
  start coins = Ok (zero, one, after) -> start coins' = Ok (zero', one', after') ->
  (c_zero coins = c_zero coins' -> zero = zero' /\ c_zero after = c_zero after') /\
  (c_one coins = c_one coins' -> one = one' /\ c_one after = c_one after') /\ c_rand after = c_rand coins.
Proof.
  intros e0 e1 data out days trees w c c' z o d z' o' d' start. unfold start, both_start.
  destruct (start_party e1 _ _ _ _ (mkSys w (c_one c))) as [s1 [one|k| |]] eqn:E1; try discriminate.
  destruct (start_party e1 _ _ _ _ (mkSys w (c_one c'))) as [s1' [one'|k| |]] eqn:E1'; try discriminate.
  destruct (start_party e0 _ _ _ _ (mkSys (sy_world s1) (c_zero c))) as [s0 [zero|k| |]] eqn:E0; try discriminate.
  destruct (start_party e0 _ _ _ _ (mkSys (sy_world s1') (c_zero c'))) as [s0' [zero'|k| |]] eqn:E0'; try discriminate.
  intros E E'. injection E as <- <- <-. injection E' as <- <- <-. cbn [c_zero c_one c_rand]. pose proof (start_world _ _ _ _ _ _ _ _ _ _ _ _ E1 E1') as W.
  split; [intros X; rewrite W, X, E0' in E0; injection E0 as <- <-; auto|]. split; [|reflexivity]. intros X. rewrite X, E1' in E1. injection E1 as <- <-. auto.
Qed.

Hypotheses (Fppub : faithful cppub) (Fpsec : faithful cpsec) (Fpt : faithful cpt) (Fet : faithful cet).
Variables e0 e1 : env.
Hypotheses (R0 : reliable e0) (R1 : reliable e1).
(** the starts do not crash; what they start with *)
Lemma own_both data out days start (import : bool) (d : del_deployed Gr) p0 q0 p1 q1 V0 V1 t0 t1 d0 d1 w {A} (go : del_party -> del_party -> D A) (P : outcome A -> Prop) co :
  (forall w', same_files w w' -> days_hold w' (p0_dir data) 1 (dd_csv0 d) /\ days_hold w' (p1_dir data) 1 (dd_csv1 d)
         /\ match dd_trees d with Some f => 0 < start /\ del_files_hold cpt cet w' data f | None => start <= 0 end
         /\ sec_saved cpsec w' (p0_dir out) p0 q0 /\ sec_saved cpsec w' (p1_dir out) p1 q1 /\ pub_saved cppub w' (p0_dir out) (p1 * q1) /\ pub_saved cppub w' (p1_dir out) (p0 * q0)) ->
  priv_new two_k_ary p0 q0 1 = Ok V0 -> priv_new two_k_ary p1 q1 1 = Ok V1 -> length (dd_csv0 d) = days -> length (dd_csv1 d) = days ->
  load_entries (dd_csv0 d) = Ok d0 -> load_entries (dd_csv1 d) = Ok d1 ->
  (import = (0 <? start) /\ del_trees_for stash node import_del_zero (dd_trees d) = Ok t0 /\ del_trees_for stash node import_del_one (dd_trees d) = Ok t1
   \/ import = false /\ t0 = (tree_new stash node, tree_new stash node) /\ t1 = (tree_new stash node, tree_new stash node)) ->
  (forall c, P (Err c)) ->
  (forall a0 a1 c, started p0 q0 p1 q1 V0 V1 t0 t1 d0 d1 a0 a1 -> P (match go a0 a1 c with Ok (a, _) => Ok a | Err c => Err c | Abort => Abort | UB => UB end)) ->
  P (both_start cppub cpsec cpt cet stash node two_k_ary fuel e0 e1 data out days import go w co).
Proof.
  intros HOLD PV0 PV1 C0 C1 L0 L1 TT PE PG. unfold both_start.
  assert (N0 : 1 < p0 * q0) by (eapply priv_new_pos; eauto). assert (N1 : 1 < p1 * q1) by (eapply priv_new_pos; eauto).
  assert (O0 : Z.odd (p0 * q0) = true) by (eapply priv_new_odd; eauto). assert (O1 : Z.odd (p1 * q1) = true) by (eapply priv_new_odd; eauto).
  assert (IMP : forall w (v : bool) t, match dd_trees d with Some f => 0 < start /\ del_files_hold cpt cet w data f | None => start <= 0 end ->
     t = (if v then t1 else t0) -> if import then exists pm em my other, t = (my, other) /\ saved w cpt (party_dir v data ++ plaintext_tree) pm /\ saved w cet (party_dir v data ++ encrypted_tree) em /\
        tree_deserialize deser_pnode_payload pm = Ok my /\ tree_deserialize (deser_node (@deser_deletion Gr)) em = Ok other
     else t = (tree_new stash node, tree_new stash node)).
  { intros w0 v t F ->. destruct TT as [(-> & T0 & T1)|(-> & -> & ->)]; [|destruct v; reflexivity].
    assert (T : del_trees_for stash node (if v then import_del_one else import_del_zero) (dd_trees d) = Ok (if v then t1 else t0)) by (destruct v; auto).
    revert T. generalize (if v then t1 else t0) as t. intros t T. clear T0 T1 PG. destruct (dd_trees d) as [f|]; cbn [del_trees_for] in T.
    - destruct F as (PS & F1 & F2 & F3 & F4). rewrite (proj2 (Z.ltb_lt 0 start) PS). destruct v; cbn [party_dir].
      + exists (p1_plaintext f), (p1_encrypted f), (fst t), (snd t). unfold import_del_one in T. apply import_Ok in T as (T1' & T2'). split; [destruct t; auto|]. auto.
      + exists (p0_plaintext f), (p0_encrypted f), (fst t), (snd t). unfold import_del_zero in T. apply import_Ok in T as (T1' & T2'). split; [destruct t; auto|]. auto.
    - rewrite (proj2 (Z.ltb_ge 0 start) F). apply Ok_inj' in T. auto. }
  destruct (HOLD w (fun f => eq_refl)) as (_ & D1 & F & _ & S1 & _ & Q1).
  pose proof (start_del_run cppub cpsec cpt cet stash node two_k_ary fuel Fppub Fpsec Fpt Fet e1 (p1_dir data) (p1_dir out) days import _ _ _ _ _ _ t1 (mkSys w (c_one co)) R1 D1 C1 L1 (IMP w true t1 F eq_refl) S1 PV1 Q1 N0 (fun _ => O0)) as X.
  destruct (start_party e1 _ _ _ _ (mkSys w (c_one co))) as [s1 [a1|c| |]]; try contradiction; [|apply PE]. destruct X as (SF & A1 & A2 & A3 & t & t' & PN1). cbn [sy_world] in SF.
  destruct (HOLD (sy_world s1) SF) as (D0 & _ & F' & S0 & _ & Q0 & _).
  pose proof (start_del_run cppub cpsec cpt cet stash node two_k_ary fuel Fppub Fpsec Fpt Fet e0 (p0_dir data) (p0_dir out) days import _ _ _ _ _ _ t0 (mkSys (sy_world s1) (c_zero co)) R0 D0 C0 L0 (IMP _ false t0 F' eq_refl) S0 PV0 Q0 N1 (fun _ => O1)) as X.
  destruct (start_party e0 _ _ _ _ (mkSys (sy_world s1) (c_zero co))) as [s2 [a0|c| |]]; try contradiction; [|apply PE]. destruct X as (_ & B1 & B2 & B3 & u & u' & PN0).
  assert (ST : started p0 q0 p1 q1 V0 V1 t0 t1 d0 d1 a0 a1).
  { unfold started, paillier_pair. split; [split; [exists two_k_ary, fuel, t, t'; auto|eauto]|]. split; [split; [exists two_k_ary, fuel, u, u'; auto|eauto]|]. auto 10. }
  apply PG. exact ST.
Qed.

(** what [change_of_facts] leaves to be shown for the programs: no crash *)
Lemma own_returns p0 q0 p1 q1 P0 P1 V0 V1 days daily start max func d t0 t1 D0 D1 h0 h1 l0 l1 a0 o0 a1 o1 k co :
  del_request hash p0 q0 p1 q1 P0 P1 V0 V1 stash node days daily start max -> Z.of_nat k <= days ->
  del_facts (Gr := Gr) hash stash node (p0 * q0) (p1 * q1) days start (u32 max) func d t0 t1 D0 D1 h0 h1 l0 l1 ->
  del_trees_for stash node import_del_zero (dd_trees d) = Ok (a0, o0) -> del_trees_for stash node import_del_one (dd_trees d) = Ok (a1, o1) ->
  (forall x, returns (circuit_input x)) ->
  returns (run_own (del_day_own (Gr := Gr) hash circuit_input P0 P1 V0 V1) k (del_start_with (a0, o0) (a1, o1) (tl l0) (tl l1)) co).
Proof.
  intros RQ LK F T0 T1 CI. destruct RQ as ((HH & K0 & K1) & S1 & S2 & U1 & U2 & U3 & DP & SM & B0 & B1 & M0 & M1).
  pose proof F as [A1 A2 A3 A4 A5 A6 A7 A8 A9 C1 C2 C3 C4 C5 C6 PS LO0 LO1 TR _ CH].
  destruct TR as (x0 & y0 & x1 & y1 & Q0 & Q1 & R0' & R1' & MI0 & MI1 & NEW).
  rewrite T0 in Q0. apply Ok_inj' in Q0. apply pair_equal_spec in Q0 as (E1 & E2). subst x0 y0. rewrite T1 in Q1. apply Ok_inj' in Q1. apply pair_equal_spec in Q1 as (E1 & E2). subst x1 y1.
  assert (LL0 : length l0 = S (Z.to_nat days)) by (rewrite C1, map_length; cbn [length]; rewrite map_length; lia).
  assert (LL1 : length l1 = S (Z.to_nat days)) by (rewrite C2, map_length; cbn [length]; rewrite map_length; lia).
  destruct (PS (p1 * q1) B1 M1) as (PR0 & _). destruct (PS (p0 * q0) B0 M0) as (_ & PR1).
  assert (DI : dinv hash p0 q0 p1 q1 l0 l1 1 1 (fst (fst (del_start_with (a0, o0) (a1, o1) (tl l0) (tl l1)))) (snd (fst (del_start_with (a0, o0) (a1, o1) (tl l0) (tl l1))))).
  { apply (dinv_deployed (Gr := Gr) hash p0 q0 p1 q1 l0 l1 a0 o0 a1 o1); auto; intros E; rewrite E in *; discriminate. }
  exact (del_run_returns (Gr := Gr) hash circuit_input HH p0 q0 p1 q1 P0 P1 V0 V1 K0 K1 CI l0 l1 ltac:(lia) PR0 PR1 1 k 1 _ _ ((0, 0), (0, 0)) co ltac:(lia) DI).
Qed.
Lemma or_internal_returns {T} (d w : outcome T) : or_internal d w -> returns d -> returns w.
Proof. intros [->| ->]; auto. intros _. exact I. Qed.

(** C75.  Cardinality and sum: as C72_deletion_result, for the two processes. *)
Theorem C75_deletion_result : forall p0 q0 p1 q1 V0 V1 e data out days daily start max func sum sets w coins,
  del_setting hash stash node two_k_ary p0 q0 p1 q1 V0 V1 days daily start max -> func = CA \/ func = SUM ->
  del_set_up cppub cpsec cpt cet hash stash node two_k_ary p0 q0 p1 q1 e data out days daily start max func sum sets w ->
  exists tree0 tree1 h0 h1, sets_are sets days start tree0 tree1 h0 h1 /\
  let l0 := history_of (rows tree0) h0 in let l1 := history_of (rows tree1) h1 in
  match own_del e0 e1 data out (Z.to_nat days) (0 <? start) circuit_input w coins with
  | Ok ((c0, s0, _), trace) => Z.of_nat (length trace) = days /\
      (start = 0 -> DelSpec.holds (pt_my (dc_party c0)) (upto 1 l0) /\ DelSpec.holds (pt_my (ds_party s0)) (upto 1 l1)) /\
      forall j c sv rounds, nth_error trace j = Some (c, sv, rounds) ->
        DelSpec.holds (pt_my (dc_party c0)) (upto 1 l0) -> DelSpec.holds (pt_my (ds_party s0)) (upto 1 l1) ->
        (forall i st, (i <= j)%nat -> nth_error trace i = Some st -> lucky_day circuit_input p0 q0 p1 q1 l0 l1 (S i) st) ->
        dc_result c = (score func (held_after (rows tree0) (firstn (S j) h0)) (held_after (rows tree1) (firstn (S j) h1)) - score func (rows tree0) (rows tree1)) mod 2 ^ 64 /\
        (Z.of_nat (S j) = days -> dc_result c = sum mod 2 ^ 64)
  | Err _ => True
  | _ => ~ forall x, returns (circuit_input x)
  end.
Proof.
  intros p0 q0 p1 q1 V0 V1 e data out days daily start max func sum sets w co DS FN SU.
  destruct (del_deployment cppub cpsec cpt cet hash stash node two_k_ary Fpsec _ _ _ _ _ _ _ _ _ _ _ _ _ _ _ _ _ DS SU) as (d & t0 & t1 & D0 & D1 & h0 & h1 & l0 & l1 & SA & EL0 & EL1 & EX & C0 & C1 & F & RQ & HOLD).
  destruct DS as (HH & PV0 & PV1 & IS & IN & U1 & _). exists t0, t1, h0, h1. split; [auto|]. cbv zeta.
  pose proof (df_load0 _ _ _ _ _ _ _ _ _ _ _ _ _ _ _ _ _ _ F) as LO0. pose proof (df_load1 _ _ _ _ _ _ _ _ _ _ _ _ _ _ _ _ _ _ F) as LO1.
  destruct (df_trees _ _ _ _ _ _ _ _ _ _ _ _ _ _ _ _ _ _ F) as (a0 & o0 & a1 & o1 & T0 & T1 & _).
  unfold prog_deletion_own. set (go := fun zero one : del_party => _).
  match goal with |- context C [both_start _ _ _ _ _ _ _ _ e0 e1 data out _ _ go w co] => pattern (both_start cppub cpsec cpt cet stash node two_k_ary fuel e0 e1 data out (Z.to_nat days) (0 <? start) go w co) end.
  apply (own_both data out (Z.to_nat days) start (0 <? start) d p0 q0 p1 q1 V0 V1 (a0, o0) (a1, o1) (tl l0) (tl l1) w go); auto.
  intros x0 x1 c (Y0 & Y1 & E0 & E1 & E2 & E3 & E4 & E5). unfold go. rewrite E0, E1, E2, E3, E4, E5. cbv zeta. clear go.
  pose proof (below_run _ _ (del_day_below Gr enc dec enc_dec hash circuit_input (dp_pub x1) (dp_pub x0) V0 V1) (Z.to_nat days) (del_start_with (a0, o0) (a1, o1) (tl l0) (tl l1)) c) as B.
  pose proof (own_returns p0 q0 p1 q1 (dp_pub x1) (dp_pub x0) V0 V1 days daily start max func d t0 t1 D0 D1 h0 h1 l0 l1 a0 o0 a1 o1 (Z.to_nat days) c (RQ _ _ Y0 Y1) ltac:(unfold uint32 in U1; lia) F T0 T1) as RT.
  unfold dbind, dret. destruct B as [B|B]; rewrite B; clear B; [|exact I].
  destruct (run_own _ _ _ c) as [[trace c']|cc| |] eqn:ER; auto.
  apply C73_deletion in ER as (one & one' & ER).
  pose proof (change_of_facts hash circuit_input p0 q0 p1 q1 (dp_pub x1) (dp_pub x0) V0 V1 stash node days daily start max func d (Z.to_nat days) one t0 t1 D0 D1 h0 h1 l0 l1 (RQ _ _ Y0 Y1) FN ltac:(unfold uint32 in U1; lia) F) as X.
  unfold del_deployed_run in X. unfold bind at 1, lift at 1 in X. rewrite LO1 in X. unfold bind at 1, lift at 1 in X. rewrite T1 in X. unfold bind at 1, lift at 1 in X. rewrite LO0 in X. unfold bind at 1, lift at 1 in X. rewrite T0 in X.
  cbv zeta in X. unfold bind, ret in X. rewrite ER in X. cbn [del_start_with fst snd] in X |- *.
  destruct X as (X1 & X2 & X3). rewrite <- EL0, <- EL1, <- EX. split; [unfold uint32 in U1; lia|]. auto.
Qed.
(** ... without --import *)
Theorem C75_not_imported : forall p0 q0 p1 q1 V0 V1 e data out days daily start max func sum sets w coins,
  del_setting hash stash node two_k_ary p0 q0 p1 q1 V0 V1 days daily start max ->
  del_set_up cppub cpsec cpt cet hash stash node two_k_ary p0 q0 p1 q1 e data out days daily start max func sum sets w ->
  exists tree0 tree1 h0 h1, sets_are sets days start tree0 tree1 h0 h1 /\
  let d0 := map (fun day => map as_number (DataSpec.written day)) h0 in let d1 := map (fun day => map as_number (DataSpec.written day)) h1 in
  match own_del e0 e1 data out (Z.to_nat days) false circuit_input w coins with
  | Ok (_, trace) => Z.of_nat (length trace) = days /\
      forall j c sv rounds, nth_error trace j = Some (c, sv, rounds) ->
        (forall i st, (i <= j)%nat -> nth_error trace i = Some st -> lucky_day circuit_input p0 q0 p1 q1 d0 d1 i st) ->
        dc_result c = inner (upto (S j) d0) (upto (S j) d1) mod 2 ^ 64
  | Err _ => True
  | _ => ~ forall x, returns (circuit_input x)
  end.
Proof.
  intros p0 q0 p1 q1 V0 V1 e data out days daily start max func sum sets w co DS SU.
  destruct (del_deployment cppub cpsec cpt cet hash stash node two_k_ary Fpsec _ _ _ _ _ _ _ _ _ _ _ _ _ _ _ _ _ DS SU) as (d & t0 & t1 & D0 & D1 & h0 & h1 & l0 & l1 & SA & EL0 & EL1 & EX & C0 & C1 & F & RQ & HOLD).
  destruct DS as (HH & PV0 & PV1 & IS & IN & U1 & U2 & U3 & DP & SM & B0 & B1 & M0 & M1). exists t0, t1, h0, h1. split; [auto|]. cbv zeta.
  pose proof (df_load0 _ _ _ _ _ _ _ _ _ _ _ _ _ _ _ _ _ _ F) as LO0. pose proof (df_load1 _ _ _ _ _ _ _ _ _ _ _ _ _ _ _ _ _ _ F) as LO1.
  pose proof (df_proper _ _ _ _ _ _ _ _ _ _ _ _ _ _ _ _ _ _ F) as PS. pose proof (df_len0 _ _ _ _ _ _ _ _ _ _ _ _ _ _ _ _ _ _ F) as LH0. pose proof (df_len1 _ _ _ _ _ _ _ _ _ _ _ _ _ _ _ _ _ _ F) as LH1.
  assert (TL0 : tl l0 = map (fun day => map as_number (DataSpec.written day)) h0) by (rewrite EL0; reflexivity). assert (TL1 : tl l1 = map (fun day => map as_number (DataSpec.written day)) h1) by (rewrite EL1; reflexivity).
  rewrite <- TL0, <- TL1. destruct (PS _ B1 M1) as (PR0 & _). destruct (PS _ B0 M0) as (_ & PR1).
  assert (PT : forall n l, proper_signed n l -> proper_signed n (tl l)).
  { intros n [|a l] (X & Y); [split; auto|]. cbn [tl concat] in *. split; [apply Forall_app in X; apply X|]. unfold int_range in *. rewrite app_length in Y. lia. }
  assert (L0 : length (tl l0) = Z.to_nat days) by (rewrite TL0, map_length; auto). assert (L1 : length (tl l1) = length (tl l0)) by (rewrite L0, TL1, map_length; auto).
  unfold prog_deletion_own. set (go := fun zero one : del_party => _).
  match goal with |- context C [both_start _ _ _ _ _ _ _ _ e0 e1 data out _ _ go w co] => pattern (both_start cppub cpsec cpt cet stash node two_k_ary fuel e0 e1 data out (Z.to_nat days) false go w co) end.
  apply (own_both data out (Z.to_nat days) start false d p0 q0 p1 q1 V0 V1 (tree_new stash node, tree_new stash node) (tree_new stash node, tree_new stash node) (tl l0) (tl l1) w go); auto.
  intros x0 x1 c (Y0 & Y1 & E0 & E1 & E2 & E3 & E4 & E5). unfold go. rewrite E0, E1, E2, E3, E4, E5. cbv zeta. clear go.
  change (del_start_with (tree_new stash node, tree_new stash node) (tree_new stash node, tree_new stash node) (tl l0) (tl l1)) with (del_start stash node (tl l0) (tl l1)).
  pose proof (below_run _ _ (del_day_below Gr enc dec enc_dec hash circuit_input (dp_pub x1) (dp_pub x0) V0 V1) (Z.to_nat days) (del_start stash node (tl l0) (tl l1)) c) as B.
  assert (KK : PropsDel.keys hash p0 q0 p1 q1 (dp_pub x1) (dp_pub x0) V0 V1) by (split; auto).
  pose proof (C73_deletion_no_crash (Gr := Gr) hash circuit_input p0 q0 p1 q1 (dp_pub x1) (dp_pub x0) V0 V1 stash node (tl l0) (tl l1) (Z.to_nat days) c KK L1 (PT _ _ PR0) (PT _ _ PR1) ltac:(lia)) as Y.
  unfold dbind, dret. destruct B as [B|B]; rewrite B; clear B; [|exact I].
  destruct (run_own _ _ _ c) as [[trace c']|cc| |] eqn:ER; auto.
  destruct (C73_inner_product hash circuit_input p0 q0 p1 q1 (dp_pub x1) (dp_pub x0) V0 V1 stash node (tl l0) (tl l1) (Z.to_nat days) c trace c' KK L1 (PT _ _ PR0) (PT _ _ PR1) ltac:(lia) ER) as (X1 & X2). split; [unfold uint32 in U1; lia|].
  intros j c1 sv rr EJ LK. apply (proj2 (proj2 (X2 j c1 sv rr EJ))). exact LK.
Qed.

(** ... the intersection *)
Theorem C75_psi_result : forall p0 q0 p1 q1 V0 V1 e data out days daily start max sum sets w coins,
  del_setting hash stash node two_k_ary p0 q0 p1 q1 V0 V1 days daily start max -> 2 ^ 65 <= p0 * q0 -> 2 ^ 65 <= p1 * q1 ->
  del_set_up cppub cpsec cpt cet hash stash node two_k_ary p0 q0 p1 q1 e data out days daily start max PSI sum sets w ->
  exists tree0 tree1 h0 h1, sets_are sets days start tree0 tree1 h0 h1 /\
  (no_zero_element tree0 h0 -> no_zero_element tree1 h1 ->
  let l0 := history_of (rows tree0) h0 in let l1 := history_of (rows tree1) h1 in
  let meet := meet_after tree0 tree1 h0 h1 in
  match own_psi e0 e1 data out (Z.to_nat days) (0 <? start) circuit_input w coins with
  | Ok ((c0, s0, di0), trace) =>
      Z.of_nat (length trace) = days /\ (start = 0 -> DelSpec.holds (pg_my (ps_party s0)) (upto 1 l1)) /\
      forall j c sv di, nth_error trace j = Some (c, sv, di) -> DelSpec.holds (pg_my (ps_party s0)) (upto 1 l1) ->
        (forall i st, (i <= j)%nat -> nth_error trace i = Some st -> lucky_psi_day circuit_input p0 q0 p1 q1 l0 l1 (S i) st) ->
        pc_result c = (Z.of_nat (length (meet (S j))) - Z.of_nat (length (meet 0%nat))) mod 2 ^ 64 /\
        (Z.of_nat (S j) = days -> pc_result c = sum mod 2 ^ 64) /\
        signed_change (pc_set c) (meet (S j)) (meet 0%nat) /\
        (start = 0 -> same_set (pc_set c) (meet (S j)))
  | Err _ => True
  | Abort => ~ forall x, returns (circuit_input x)
  | UB => (forall x, returns (circuit_input x)) ->
      exists s1 s2 one zero tape,
      start_party e1 (p1_dir data) (p1_dir out) (Z.to_nat days) (0 <? start) (mkSys w (c_one coins)) = (s1, Ok one) /\
      start_party e0 (p0_dir data) (p0_dir out) (Z.to_nat days) (0 <? start) (mkSys (sy_world s1) (c_zero coins)) = (s2, Ok zero) /\
      let st := psi_start_with stash node (dp_trees zero) (dp_trees one) (dp_data zero) (dp_data one) in
      (DelSpec.holds (pg_my (ps_party (snd (fst st)))) (upto 1 l1) ->
       stopped_by_2_63 (Gr := Gr) hash circuit_input (dp_pub one) (dp_pub zero) (dp_priv zero) (dp_priv one)
         (fun i day => lucky_psi_day circuit_input p0 q0 p1 q1 l0 l1 (S i) day) (Z.to_nat days) st tape)
  end).
Proof.
  intros p0 q0 p1 q1 V0 V1 e data out days daily start max sum sets w co DS N0 N1 SU.
  destruct (del_deployment cppub cpsec cpt cet hash stash node two_k_ary Fpsec _ _ _ _ _ _ _ _ _ _ _ _ _ _ _ _ _ DS SU) as (d & t0 & t1 & D0 & D1 & h0 & h1 & l0 & l1 & SA & EL0 & EL1 & EX & C0 & C1 & F & RQ & HOLD).
  destruct DS as (HH & PV0 & PV1 & IS & IN & U1 & _). exists t0, t1, h0, h1. split; [auto|]. intros Z0 Z1. cbv zeta. rewrite <- EL0, <- EL1, <- EX.
  pose proof (df_load0 _ _ _ _ _ _ _ _ _ _ _ _ _ _ _ _ _ _ F) as LO0. pose proof (df_load1 _ _ _ _ _ _ _ _ _ _ _ _ _ _ _ _ _ _ F) as LO1.
  destruct (df_trees _ _ _ _ _ _ _ _ _ _ _ _ _ _ _ _ _ _ F) as (a0 & o0 & a1 & o1 & T0 & T1 & TR).
  unfold prog_deletion_psi_own.
  (* the starts *)
  pose proof (own_both data out (Z.to_nat days) start (0 <? start) d p0 q0 p1 q1 V0 V1 (a0, o0) (a1, o1) (tl l0) (tl l1) w (fun x0 x1 => dret (x0, x1))
    (fun o => match o with Ok (x0, x1) => started p0 q0 p1 q1 V0 V1 (a0, o0) (a1, o1) (tl l0) (tl l1) x0 x1 | Err _ => True | _ => False end) co) as X.
  do 7 (specialize (X ltac:(auto))). specialize (X ltac:(left; auto)). specialize (X (fun _ => I) (fun x0 x1 _ H => H)). revert X.
  unfold both_start.
  destruct (start_party e1 _ _ _ _ (mkSys w (c_one co))) as [s1 [x1|cc| |]] eqn:E1; try tauto.
  destruct (start_party e0 _ _ _ _ (mkSys (sy_world s1) (c_zero co))) as [s2 [x0|cc| |]] eqn:E0; try tauto.
  unfold dret at 1. intros (Y0 & Y1 & G0 & G1 & G2 & G3 & G4 & G5). rewrite G0, G1, G2, G3, G4, G5.
  set (c := mkC3 _ _ _). set (st := psi_start_with stash node (a0, o0) (a1, o1) (tl l0) (tl l1)).
  pose proof (below_run _ _ (psi_day_below Gr enc dec enc_dec hash circuit_input (dp_pub x1) (dp_pub x0) V0 V1) (Z.to_nat days) st c) as B.
  unfold dbind, dret. destruct B as [B|B]; rewrite B; clear B; [|exact I].
  assert (FS : (forall x, returns (circuit_input x)) -> fails (run_own (psi_day_own (Gr := Gr) hash circuit_input (dp_pub x1) (dp_pub x0) V0 V1) (Z.to_nat days) st) (run_trace (psi_day2 (Gr := Gr) hash circuit_input (dp_pub x1) (dp_pub x0) V0 V1) (Z.to_nat days) st)).
  { intros CI. destruct (RQ _ _ Y0 Y1) as ((_ & K0 & K1) & S1 & S2 & _ & U2 & U3 & DP & SM & B0 & B1 & M0 & M1).
    assert (UM : uint32 (u32 max)) by (apply Z.mod_pos_bound; reflexivity).
    destruct (psi_facts hash circuit_input p0 q0 p1 q1 _ _ _ _ _ _ _ _ _ _ _ _ _ _ F UM Z0 Z1) as (PH0 & PH1 & LG0 & LG1 & DO0 & DO1 & NR & CN & SC).
    set (g0 := number_history (with_first t0 h0)) in *. set (g1 := number_history (with_first t1 h1)) in *.
    destruct TR as (R0' & R1' & MI0 & MI1 & NEW). pose proof (df_l0 _ _ _ _ _ _ _ _ _ _ _ _ _ _ _ _ _ _ F) as Q0. pose proof (df_l1 _ _ _ _ _ _ _ _ _ _ _ _ _ _ _ _ _ _ F) as Q1.
    assert (NE0 : l0 <> []) by (rewrite Q0; discriminate). assert (NE1 : l1 <> []) by (rewrite Q1; discriminate).
    pose proof (pinv_deployed hash p0 q0 p1 q1 l0 l1 stash node a0 o0 a1 o1 NE0 NE1 R0' R1' MI0 MI1) as PI. cbv zeta in PI. fold st in PI.
    assert (L0 : length l0 = length g0) by (destruct DO0 as (FF & _); clear - FF; induction FF; cbn; lia).
    assert (L1 : length l1 = length g1) by (destruct DO1 as (FF & _); clear - FF; induction FF; cbn; lia).
    assert (PR0 : proper_signed (p1 * q1) (halves l0)) by (apply (proper_halves (fun x => x) (p1 * q1) l0 g0); auto).
    assert (PR1 : proper_signed (p0 * q0) (halves l1)) by (apply (proper_halves (fun _ => 1) (p0 * q0) l1 g1); auto; intros; lia).
    exact (fails_psi_trace (Gr := Gr) hash circuit_input HH p0 q0 p1 q1 (dp_pub x1) (dp_pub x0) V0 V1 K0 K1 l0 l1 PR0 PR1 ltac:(lia) N0 CI 1 (Z.to_nat days) 1
      (fst (fst st)) (snd (fst st)) (snd st) ltac:(lia) PI). }
  assert (CR : (forall x, returns (circuit_input x)) -> forall tp, match run_trace (psi_day2 (Gr := Gr) hash circuit_input (dp_pub x1) (dp_pub x0) V0 V1) (Z.to_nat days) st tp with
    | Ok _ | Err _ => True | Abort => False | UB => DelSpec.holds (pg_my (ps_party (snd (fst st)))) (upto 1 l1) -> stopped_by_2_63 (Gr := Gr) hash circuit_input (dp_pub x1) (dp_pub x0) V0 V1 (fun i day => lucky_psi_day circuit_input p0 q0 p1 q1 l0 l1 (S i) day) (Z.to_nat days) st tp end).
  { intros CI tp. exact (crash_of_facts hash circuit_input p0 q0 p1 q1 (dp_pub x1) (dp_pub x0) V0 V1 stash node days daily start max d (Z.to_nat days) tp t0 t1 D0 D1 h0 h1 l0 l1 a0 o0 a1 o1 (RQ _ _ Y0 Y1) N0 N1 ltac:(unfold uint32 in U1; lia) F Z0 Z1 CI T0 T1). }
  destruct (run_own _ _ _ c) as [[trace c']|cc| |] eqn:ER; auto.
  - apply C73_psi in ER as (one & one' & ER).
    pose proof (psi_of_facts hash circuit_input p0 q0 p1 q1 (dp_pub x1) (dp_pub x0) V0 V1 stash node days daily start max d (Z.to_nat days) one t0 t1 D0 D1 h0 h1 l0 l1 (RQ _ _ Y0 Y1) N0 N1 ltac:(unfold uint32 in U1; lia) F Z0 Z1 (fst (fst st)) (snd (fst st)) (snd st) trace) as X.
    unfold psi_deployed_run in X. unfold bind at 1, lift at 1 in X. rewrite LO1 in X. unfold bind at 1, lift at 1 in X. rewrite T1 in X. unfold bind at 1, lift at 1 in X. rewrite LO0 in X. unfold bind at 1, lift at 1 in X. rewrite T0 in X.
    cbv zeta in X. fold st in X. unfold bind, ret in X. rewrite ER in X. destruct (X one' eq_refl) as (X1 & X2 & X3). unfold st in X1, X2, X3 |- *. cbn [psi_start_with fst snd] in X1, X2, X3 |- *. split; [unfold uint32 in U1; lia|]. auto.
  - intros CI. destruct (proj1 (FS CI c) ER) as (t & ET). specialize (CR CI t). rewrite ET in CR. exact CR.
  - intros CI. destruct (proj2 (FS CI c) ER) as (t & ET). specialize (CR CI t). rewrite ET in CR. exists s1, s2, x1, x0, t. split; [auto|]. split; [auto|]. cbv zeta. rewrite G0, G1, G2, G3, G4, G5. exact CR.
Qed.
End Own.

(** ** Examples: the deployment of ex_C69 run by two processes, with three
    different tapes *)
Definition known_both {A} (go : del_party -> del_party -> D A) (import : bool) (w : FileModel.world) (co : coins3) : outcome A :=
  match known_party (p1_dir ex_data) (p1_dir ex_out) import (mkSys w (c_one co)) with
  | (s1, Ok one) =>
      match known_party (p0_dir ex_data) (p0_dir ex_out) import (mkSys (sy_world s1) (c_zero co)) with
      | (s0, Ok zero) => match go zero one (mkC3 (c_rand co) (sy_coins s0) (sy_coins s1)) with Ok (a, _) => Ok a | Err c => Err c | Abort => Abort | UB => UB end
      | (_, Err c) => Err c | (_, Abort) => Abort | (_, UB) => UB
      end
  | (_, Err c) => Err c | (_, Abort) => Abort | (_, UB) => UB
  end.
Lemma known_both_ok {A} (go : del_party -> del_party -> D A) import w co :
  known_both go import w co = both_start ex_ppub ex_psec ex_pt ex_et 1 1 false 3 ex_env ex_env ex_data ex_out 1 import go w co.
Proof.
  assert (T : forall dir keys s, known_party dir keys import s = start_del_party ex_ppub ex_psec ex_pt ex_et 1 1 false 3 ex_env dir keys 1 import s).
  { intros. do 3 (apply sbind_ext; auto; intros). apply sbind_ext; [unfold pure; rewrite known_key_ok; auto|]. auto. }
  unfold known_both, both_start. rewrite T. destruct (start_del_party _ _ _ _ _ _ _ _ _ _ _ _ _ (mkSys w (c_one co))) as [s1 [one|c| |]]; auto. rewrite T. reflexivity.
Qed.
Definition ex_own_go (zero one : del_party) : D ((dclient * dserver * (round * round)) * list (dclient * dserver * (round * round))) :=
  let st := del_start_with (dp_trees zero) (dp_trees one) (dp_data zero) (dp_data one) in
  trace <~ run_own (del_day_own_by (Gr := PropsAdd.exG) ex_hash ex_circuit (dp_pub one) (dp_pub zero) (dp_priv zero) (dp_priv one)
                      (wired (Gr := PropsAdd.exG) ex_enc ex_dec (del_handle (Gr := PropsAdd.exG) ex_hash (dp_pub one) (dp_priv one)))) 1 st ;;
  dret (st, trace).
Definition ex_coins_own : coins3 := mkC3 (fun i => Z.of_nat (i * i / 3)) ex_del_coins (fun i => 3 * 10 ^ 15 + Z.of_nat i).
Definition ex_own_days (import : bool) (s : sys) (t0 : dataset) (D0 : list dataset) (t1 : dataset) (D1 : list dataset) : option (Z * bool) :=
  match omap dataset_pairs (t0 :: D0), omap dataset_pairs (t1 :: D1), known_both ex_own_go import (sy_world s) ex_coins_own with
  | Ok l0, Ok l1, Ok ((c, sv, _), [st]) =>
      Some (dc_result (fst (fst st)), holds_b (pt_my (dc_party c)) (upto 1 l0) && holds_b (pt_my (ds_party sv)) (upto 1 l1) &&
         lucky_day_b ex_circuit (100011167 * 100014059) (100015079 * 100024187) l0 l1 1 st)
  | _, _, _ => None end.
Definition ex_own_program (import : bool) : option (Z * Z * bool) :=
  match known_setup 1 20 SUM (mkSys ex_fs (PropsData.ex_coins 1)) with
  | (s, Ok (sum, (t0, D0, t1, D1))) => match ex_own_days import s t0 D0 t1 D1 with Some (result, lucky) => Some (sum, result, lucky) | None => None end
  | _ => None end.
Lemma ex_own_is import w co : known_both ex_own_go import w co =
  prog_deletion_own ex_enc ex_dec ex_ppub ex_psec ex_pt ex_et ex_hash 1 1 false 3 ex_env ex_env ex_data ex_out 1 import ex_circuit w co.
Proof. exact (known_both_ok ex_own_go import w co). Qed.
(** the two processes get what the setup program printed ... *)
Example ex_C75 : match ex_own_program true with Some (sum, result, lucky) => (sum =? 16) && (result =? 16) && lucky | None => false end = true.
Proof. vm_cast_no_check (eq_refl true). Qed.
(** ... but not with the default of --import *)
Example ex_C75_not_imported : match ex_own_program false with Some (sum, result, _) => (sum =? 16) && (result =? 0) | None => false end = true.
Proof. vm_cast_no_check (eq_refl true). Qed.
Example ex_C75_enc : forall w, ex_dec (ex_enc w) = w.
Proof. exact ex_enc_dec. Qed.

Print Assumptions C75_network.
Print Assumptions C75_rand_irrelevant.
Print Assumptions C75_own_generators.
Print Assumptions C75_deletion_result.
Print Assumptions C75_not_imported.
Print Assumptions C75_psi_result.
