(** Proofs for GcModel: tapes, and the circuits position by position. *)
Require Import List Arith Lia ZArith Bool.
Import ListNotations.
From Verif Require Import Prelude TreeModel TreeDelModel Coins Group ElGamalModel BytesModel CipherModel PaillierModel WireModel SyncModel AddModel DelModel PsiModel GcModel DataProofs.
Local Open Scope Z_scope.

(** ** What a computation can return, with any coins left over *)
Definition teq (t u : tape) : Prop := forall n, t n = u n.
Lemma teq_refl t : teq t t. Proof. intros n; auto. Qed.
Lemma teq_sym t u : teq t u -> teq u t. Proof. intros E n; auto. Qed.
Lemma teq_trans t u v : teq t u -> teq u v -> teq t v. Proof. intros E F n. rewrite E. auto. Qed.
Definition oeq {A} (x y : outcome (A * tape)) : Prop :=
  match x, y with
  | Ok (a, t), Ok (b, u) => a = b /\ teq t u
  | Err e, Err f => e = f
  | Abort, Abort | UB, UB => True
  | _, _ => False
  end.
Definition resp {A} (m : M A) : Prop := forall t u, teq t u -> oeq (m t) (m u).
Definition possible {A} (m : M A) (a : A) : Prop := forall u, exists t u', m t = Ok (a, u') /\ teq u' u.
Definition good {A} (m : M A) : Prop := resp m /\ forall t a t', m t = Ok (a, t') -> possible m a.

Lemma resp_bind {A B} (m : M A) (f : A -> M B) : resp m -> (forall a, resp (f a)) -> resp (bind m f).
Proof.
  intros R F t u E. specialize (R t u E). unfold bind. unfold oeq in R. destruct (m t) as [[a t1]| | |], (m u) as [[b u1]| | |]; try easy.
  destruct R as (-> & E1). exact (F b _ _ E1).
Qed.
Lemma possible_bind {A B} (m : M A) (f : A -> M B) a b : possible m a -> possible (f a) b -> resp (f a) -> possible (bind m f) b.
Proof.
  intros P Q R u. destruct (Q u) as (t2 & u2 & E2 & T2). destruct (P t2) as (t1 & u1 & E1 & T1).
  exists t1. unfold bind. rewrite E1. specialize (R _ _ T1). rewrite E2 in R. unfold oeq in R. destruct (f a u1) as [[b' u3]| | |]; try easy.
  destruct R as (-> & T3). exists u3. split; auto. eapply teq_trans; eauto.
Qed.
Lemma good_bind {A B} (m : M A) (f : A -> M B) : good m -> (forall a, good (f a)) -> good (bind m f).
Proof.
  intros (R & P) F. split; [apply resp_bind; [auto|apply F]|]. intros t b t' E. apply bind_Ok in E as (a & t1 & E1 & E2).
  eapply possible_bind; [eapply P; eauto|eapply (proj2 (F a)); eauto|apply F].
Qed.
Lemma possible_ret {A} (a : A) : possible (ret a) a.
Proof. intros u. exists u, u. split; [reflexivity|apply teq_refl]. Qed.
Lemma good_ret {A} (a : A) : good (ret a).
Proof. split; [intros t u E; cbn; auto|]. intros t b t' E. apply ret_Ok in E as (-> & _). apply possible_ret. Qed.
Lemma possible_lift {A} (o : outcome A) a : o = Ok a -> possible (lift o) a.
Proof. intros -> u. exists u, u. split; [reflexivity|apply teq_refl]. Qed.
Lemma good_lift {A} (o : outcome A) : good (lift o).
Proof. split; [intros t u E; unfold lift; destruct o; cbn; auto|]. intros t b t' E. apply lift_Ok in E as (-> & _). apply possible_lift; auto. Qed.
Lemma good_ext {A} (m n : M A) : (forall t, m t = n t) -> good n -> good m.
Proof.
  intros E (R & P). split; [intros t u T; rewrite !E; auto|]. intros t a t' X. rewrite E in X. intros u. destruct (P _ _ _ X u) as (t0 & u' & Y & Z). exists t0, u'. rewrite E. auto.
Qed.
Definition cons_tape (z : Z) (t : tape) : tape := fun n => match n with O => z | S k => t k end.
Lemma good_rand n : good (rand_less_than n).
Proof.
  unfold rand_less_than. split.
  - intros t u E. destruct (0 <? n); cbn; auto. split; [rewrite E; auto|intros k; apply E].
  - intros t a t' E u. destruct (0 <? n); [|discriminate]. injection E as <- _. exists (cons_tape (t 0%nat) u), u. split; [reflexivity|apply teq_refl].
Qed.
Lemma good_between a b : good (rand_between a b).
Proof.
  unfold rand_between. destruct (a <? b).
  - apply good_bind; [apply good_rand|]. intros. apply good_ret.
  - split; [intros t u E; cbn; auto|]. discriminate.
Qed.
Lemma good_mapM {A B} (f : A -> M B) l : (forall a, good (f a)) -> good (mapM f l).
Proof.
  intros F. induction l as [|x l IH]; cbn [mapM]; [apply good_ret|]. apply good_bind; auto. intros. apply good_bind; auto. intros. apply good_ret.
Qed.
Lemma good_repeatM {A} n (m : M A) : good m -> good (repeatM n m).
Proof. intros G. induction n; cbn [repeatM]; [apply good_ret|]. apply good_bind; auto. intros. apply good_bind; auto. intros. apply good_ret. Qed.
Lemma good_shuffle {A} (l : list A) : good (shuffle l).
Proof. induction l; cbn [shuffle]; [apply good_ret|]. apply good_bind; auto. intros. apply good_bind; [apply good_rand|]. intros. apply good_ret. Qed.
Lemma possible_mapM {A B} (f : A -> M B) l vs : (forall a, resp (f a)) -> Forall2 (fun x v => possible (f x) v) l vs -> possible (mapM f l) vs.
Proof.
  intros R F. assert (RM : forall l, resp (mapM f l)).
  { induction l0; cbn [mapM]; [apply good_ret|]. apply resp_bind; auto. intros. apply resp_bind; auto. intros. apply good_ret. }
  induction F; cbn [mapM]; [apply possible_ret|].
  eapply possible_bind; [eassumption| |apply resp_bind; [auto|intros; apply good_ret]].
  eapply possible_bind; [eassumption|apply possible_ret|apply good_ret].
Qed.

(** ** The encryptions, the updates, the messages *)
Ltac goods := repeat first [apply good_ret | apply good_lift | apply good_rand | apply good_between | apply good_shuffle | assumption
  | apply good_bind; [|intros] | apply good_mapM; intros | apply good_repeatM | match goal with |- good (if ?b then _ else _) => destruct b end
  | match goal with |- good (let '(_, _) := ?p in _) => destruct p end | match goal with |- good (match ?o with _ => _ end) => destruct o end].
Lemma good_pub_encrypt P m : good (pub_encrypt P m).
Proof. unfold pub_encrypt. goods. Qed.
Lemma good_priv_encrypt V m : good (priv_encrypt V m).
Proof. unfold priv_encrypt, pc_encrypt. goods. Qed.
Lemma good_combine hash P t e : good (combine_initiator hash P t e).
Proof. unfold combine_initiator, combine_item. goods; first [apply good_pub_encrypt | apply good_priv_encrypt]. Qed.
Lemma good_initiate hash P es t : good (initiate hash P es t).
Proof. unfold initiate. apply good_bind; [apply good_mapM; intros; apply good_combine|]. intros. apply good_ret. Qed.
Lemma good_pinitiate hash P es t : good (pinitiate hash P es t).
Proof. unfold pinitiate. apply good_mapM; intros. apply good_combine. Qed.

Section Update.
Context {Gr : group}.
Variable hash : Z -> list bool.
Lemma good_node_message V n : good (node_message (Gr := Gr) pad_payload (enc_deletion (pv_n V) (priv_encrypt V)) ser_deletion n).
Proof. unfold node_message, pad_node, enc_deletion. goods; apply good_priv_encrypt. Qed.
(** the update as one computation, with the new tree in the result *)
Definition update_m (V : priv) (es : list entry) (t : tree entry) : M (tree entry * M (update Gr)) :=
  hs <- random_hashes (length es) ;;
  ret (let '(t', nodes) := insert_del hash es (map byte2binary hs) t in
       (t', (ns <- mapM (node_message pad_payload (enc_deletion (pv_n V) (priv_encrypt V)) ser_deletion) nodes ;; ret (mkUpdate hs ns)))).
Definition update_k {T} (V : priv) (es : list entry) (t : tree entry) (k : tree entry -> update Gr -> M T) : M T :=
  hs <- random_hashes (length es) ;;
  let '(t', nodes) := insert_del hash es (map byte2binary hs) t in
  ns <- mapM (node_message pad_payload (enc_deletion (pv_n V) (priv_encrypt V)) ser_deletion) nodes ;; k t' (mkUpdate hs ns).
Lemma good_update_k {T} V es t (k : _ -> _ -> M T) : (forall t' u, good (k t' u)) -> good (update_k V es t k).
Proof.
  intros G. unfold update_k. apply good_bind; [unfold random_hashes, random_hash; goods|]. intros hs. destruct (insert_del _ _ _ _) as [t' nodes].
  apply good_bind; [apply good_mapM; intros; apply good_node_message|]. intros. apply G.
Qed.
Lemma update_as_k {T} V es t (k : tree entry -> update Gr -> M T) tp :
  (let '(my', o) := del_update (Gr := Gr) hash V es t tp in (u <- (fun _ => o) ;; k my' u) tp) = update_k V es t k tp.
Proof.
  unfold del_update, send_update, update_k, bind. destruct (random_hashes _ tp) as [[hs tp1]| | |]; auto.
  destruct (insert_del _ _ _ _) as [t' nodes]. cbv beta iota. match goal with |- ?L = match ?y with _ => _ end => match L with context [mapM ?f ?n tp1] => change y with (mapM f n tp1) end end. destruct (mapM _ nodes tp1) as [[ns tp2]| | |]; auto.
Qed.
(** as a member function: the new state also after errors *)
Definition stresp {S A} (f : ST S A) : Prop := forall s t u, teq t u -> fst (f s t) = fst (f s u) /\ oeq (snd (f s t)) (snd (f s u)).
Lemma oeq_refl {A} (x : outcome (A * tape)) : oeq x x.
Proof. destruct x as [[a t]| | |]; cbn; auto. split; auto. apply teq_refl. Qed.
Lemma stresp_update V es : stresp (del_update (Gr := Gr) hash V es).
Proof.
  intros s t u E. unfold del_update, send_update. assert (R : resp (random_hashes (length es))) by (apply good_repeatM; unfold random_hash; goods).
  specialize (R _ _ E). unfold oeq in R. destruct (random_hashes _ t) as [[hs t1]| | |], (random_hashes _ u) as [[hs' u1]| | |]; try easy; try (subst; split; [reflexivity|cbn; auto]).
  destruct R as (-> & E1). destruct (insert_del _ _ _ _) as [t' nodes]. cbn [fst snd]. split; auto.
  refine ((_ : resp _) _ _ E1). apply resp_bind; [apply good_mapM; intros; apply good_node_message|]. intros. apply good_ret.
Qed.
End Update.

Section Messages.
Context {Gr : group}.
Variable hash : Z -> list bool.
Lemma good_del_gen1 P V es p : good (del_gen1 (Gr := Gr) hash P V es p).
Proof.
  eapply good_ext; [intros t; unfold del_gen1; rewrite update_as_k; reflexivity|]. apply good_update_k. intros. apply good_bind; [apply good_initiate|]. intros. goods.
Qed.
Lemma good_psi_gen1 P V es p : good (psi_gen1 (Gr := Gr) hash P V es p).
Proof.
  eapply good_ext; [intros t; unfold psi_gen1; rewrite update_as_k; reflexivity|]. apply good_update_k. intros. apply good_bind; [apply good_pinitiate|]. intros. goods.
Qed.
(** a handler whose reply depends on the coins alone *)
Definition hresp {S} (h : client_msg Gr -> S -> tape -> S * outcome (option (server_msg Gr))) : Prop :=
  forall r s t u, teq t u -> h r s t = h r s u.
Lemma oeq_map {A B} (f : A -> B) (x y : outcome (A * tape)) : oeq x y ->
  match x with Ok (a, _) => Ok (f a) | Err c => Err c | Abort => Abort | UB => UB end = match y with Ok (a, _) => Ok (f a) | Err c => Err c | Abort => Abort | UB => UB end.
Proof. unfold oeq. destruct x as [[a t]| | |], y as [[b u]| | |]; try easy; [intros (-> & _); auto|intros ->; auto]. Qed.
Lemma stresp_gen2 P V m es : stresp (del_gen2 (Gr := Gr) hash P V m es).
Proof.
  intros s t u E. unfold del_gen2. destruct (del_receive _ _ _) as [p1 [[]|c| |]]; try (split; [reflexivity|cbn; auto]; fail).
  destruct (stresp_update (Gr := Gr) hash V es (pt_my p1) t u E) as (F & G). destruct (del_update hash V es (pt_my p1) t) as [my1 o1], (del_update hash V es (pt_my p1) u) as [my2 o2]. cbn [fst snd] in F, G. subst my2.
  assert (R : oeq ((x <- (fun _ => o1) ;; items <- initiate hash P es (pt_other p1) ;; ws <- lift (omap (only_paillier (Gr := Gr)) (map g_c items)) ;; ret (x, items, ws)) t)
                  ((x <- (fun _ => o2) ;; items <- initiate hash P es (pt_other p1) ;; ws <- lift (omap (only_paillier (Gr := Gr)) (map g_c items)) ;; ret (x, items, ws)) u)).
  { unfold bind at 1. unfold bind at 3. unfold oeq in G. destruct o1 as [[x t1]| | |], o2 as [[y u1]| | |]; try easy. destruct G as (-> & G).
    refine ((_ : resp _) _ _ G). apply resp_bind; [apply good_initiate|]. intros. apply resp_bind; [apply good_lift|]. intros. apply good_ret. }
  unfold oeq in R. destruct (bind _ _ t) as [[[[x items] ws] t2]| | |], (bind _ _ u) as [[[[x' items'] ws'] u2]| | |]; try easy; try (subst; split; [reflexivity|cbn; auto]).
  destruct R as (R & T). injection R as -> -> ->. split; [reflexivity|cbn; auto].
Qed.
Lemma stresp_psi_gen2 P V m es : stresp (psi_gen2 (Gr := Gr) hash P V m es).
Proof.
  intros s t u E. unfold psi_gen2. destruct (psi_receive _ _ _) as [p1 [[]|c| |]]; try (split; [reflexivity|cbn; auto]; fail).
  destruct (stresp_update (Gr := Gr) hash V es (pg_my p1) t u E) as (F & G). destruct (del_update hash V es (pg_my p1) t) as [my1 o1], (del_update hash V es (pg_my p1) u) as [my2 o2]. cbn [fst snd] in F, G. subst my2.
  assert (R : oeq ((x <- (fun _ => o1) ;; items <- pinitiate hash P es (pg_other p1) ;; ws <- lift (omap (fun l => omap (only_paillier (Gr := Gr)) (map g_c l)) items) ;; ret (x, items, ws)) t)
                  ((x <- (fun _ => o2) ;; items <- pinitiate hash P es (pg_other p1) ;; ws <- lift (omap (fun l => omap (only_paillier (Gr := Gr)) (map g_c l)) items) ;; ret (x, items, ws)) u)).
  { unfold bind at 1. unfold bind at 3. unfold oeq in G. destruct o1 as [[x t1]| | |], o2 as [[y u1]| | |]; try easy. destruct G as (-> & G).
    refine ((_ : resp _) _ _ G). apply resp_bind; [apply good_pinitiate|]. intros. apply resp_bind; [apply good_lift|]. intros. apply good_ret. }
  unfold oeq in R. destruct (bind _ _ t) as [[[[x items] ws] t2]| | |], (bind _ _ u) as [[[[x' items'] ws'] u2]| | |]; try easy; try (subst; split; [reflexivity|cbn; auto]).
  destruct R as (R & T). injection R as -> -> ->. split; [reflexivity|cbn; auto].
Qed.
Lemma hresp_del P V : hresp (del_handle hash P V).
Proof.
  intros r s t u E. unfold del_handle. destruct (ds_finished s); auto. destruct r as [[m| | |]| |]; auto. destruct (nth_error _ _) as [es|]; auto.
  destruct (stresp_gen2 P V m es (ds_party s) t u E) as (F & G). destruct (del_gen2 hash P V m es (ds_party s) t) as [p1 o1], (del_gen2 hash P V m es (ds_party s) u) as [p2 o2]. cbn [fst snd] in *. subst p2.
  unfold oeq in G. destruct o1 as [[a t1]| | |], o2 as [[b u1]| | |]; try easy; [destruct G as (-> & _); auto|subst; auto].
Qed.
Lemma hresp_psi P V : hresp (PsiModel.psi_handle hash P V).
Proof.
  intros r s t u E. unfold PsiModel.psi_handle. destruct (ps_finished s); auto. destruct r as [[m| | |]| |]; auto. destruct (nth_error _ _) as [[dels adds]|]; auto.
  set (es := if ps_first s then adds else dels).
  destruct (stresp_psi_gen2 P V m es (ps_party s) t u E) as (F & G). destruct (psi_gen2 hash P V m es (ps_party s) t) as [p1 o1], (psi_gen2 hash P V m es (ps_party s) u) as [p2 o2]. cbn [fst snd] in *. subst p2.
  unfold oeq in G. destruct o1 as [[a t1]| | |], o2 as [[b u1]| | |]; try easy; [destruct G as (-> & _); auto|subst; auto].
Qed.
(** two tapes in one *)
Definition weave (e o : tape) : tape := fun n => if Nat.even n then e (n / 2)%nat else o (n / 2)%nat.
Lemma weave_even e o : teq (fun i => weave e o (2 * i)%nat) e.
Proof. intros n. unfold weave. rewrite Nat.even_mul. cbn [Nat.even orb]. rewrite Nat.mul_comm, Nat.div_mul by lia. auto. Qed.
Lemma weave_odd e o : teq (fun i => weave e o (2 * i + 1)%nat) o.
Proof.
  intros n. unfold weave. rewrite Nat.even_add, Nat.even_mul. cbn [Nat.even orb eqb]. rewrite Nat.add_comm, Nat.mul_comm, Nat.div_add by lia. auto.
Qed.
Lemma good_send {S} (h : client_msg Gr -> S -> tape -> S * outcome (option (server_msg Gr))) r s : hresp h -> good (send h r s).
Proof.
  intros H. split.
  - intros t u E. unfold send. rewrite (H r s (fun i => t (2 * i)%nat) (fun i => u (2 * i)%nat)) by (intros n; apply E).
    destruct (h _ _ _) as [s' [a|c| |]]; cbn; auto. split; auto. intros n. apply E.
  - intros t a t' E u. unfold send in *. exists (weave (fun i => t (2 * i)%nat) u), (fun i => weave (fun i => t (2 * i)%nat) u (2 * i + 1)%nat).
    rewrite (H r s _ _ (weave_even (fun i => t (2 * i)%nat) u)). split; [|apply weave_odd].
    destruct (h _ _ _) as [s' [b|c| |]]; try discriminate. injection E as <- _. reflexivity.
Qed.
End Messages.

(** ** Both processes together can do what one computation can *)
Definition sim {A} (w : D A) (m : M A) : Prop := resp m /\ forall c a c', w c = Ok (a, c') -> possible m a.
Lemma dbind_Ok {A B} (w : D A) (f : A -> D B) c b c' : dbind w f c = Ok (b, c') -> exists a c1, w c = Ok (a, c1) /\ f a c1 = Ok (b, c').
Proof. unfold dbind. destruct (w c) as [[a c1]| | |]; try discriminate. eauto. Qed.
Lemma dret_Ok {A} (a : A) c b c' : dret a c = Ok (b, c') -> b = a /\ c' = c.
Proof. unfold dret. intros E. injection E as <- <-. auto. Qed.
Lemma dlift_Ok {A} (o : outcome A) c b c' : dlift o c = Ok (b, c') -> o = Ok b /\ c' = c.
Proof. unfold dlift. destruct o; try discriminate. intros E. injection E as <- <-. auto. Qed.
Lemma sim_bind {A B} (w : D A) (m : M A) (f : A -> D B) (g : A -> M B) :
  sim w m -> (forall a, resp (g a)) -> (forall a, possible m a -> forall c b c', f a c = Ok (b, c') -> possible (g a) b) -> sim (dbind w f) (bind m g).
Proof.
  intros (R & S) RG F. split; [apply resp_bind; auto|]. intros c b c' E. apply dbind_Ok in E as (a & c1 & E1 & E2).
  pose proof (S _ _ _ E1) as PA. eapply possible_bind; [exact PA|exact (F a PA _ _ _ E2)|apply RG].
Qed.
Lemma sim_bind' {A B} (w : D A) (m : M A) (f : A -> D B) (g : A -> M B) : sim w m -> (forall a, sim (f a) (g a)) -> sim (dbind w f) (bind m g).
Proof. intros S F. apply sim_bind; auto; [intros; apply F|]. intros a _ c b c' E. eapply (proj2 (F a)); eauto. Qed.
Lemma sim_ret {A} (a : A) : sim (dret a) (ret a).
Proof. split; [apply good_ret|]. intros c b c' E. apply dret_Ok in E as (-> & _). apply possible_ret. Qed.
Lemma sim_lift {A} (o : outcome A) : sim (dlift o) (lift o).
Proof. split; [apply good_lift|]. intros c b c' E. apply dlift_Ok in E as (-> & _). apply possible_lift; auto. Qed.
Lemma sim_zero {A} (m : M A) : good m -> sim (at_zero m) m.
Proof. intros (R & P). split; auto. intros c a c' E. unfold at_zero in E. destruct (m _) as [[b t]| | |] eqn:X; try discriminate. injection E as <- _. eapply P; eauto. Qed.
Lemma sim_one {A} (m : M A) : good m -> sim (at_one m) m.
Proof. intros (R & P). split; auto. intros c a c' E. unfold at_one in E. destruct (m _) as [[b t]| | |] eqn:X; try discriminate. injection E as <- _. eapply P; eauto. Qed.

(** ** The circuits, position by position *)
Lemma bits_eqb_sym a b : bits_eqb a b = bits_eqb b a.
Proof. unfold bits_eqb. destruct (list_eq_dec _ a b), (list_eq_dec _ b a); congruence. Qed.
Lemma omap_length {A B} (f : A -> outcome B) l : forall l', omap f l = Ok l' -> length l' = length l.
Proof.
  induction l as [|x l IH]; cbn [omap]; intros l' E; [injection E as <-; auto|].
  destruct (f x); [|discriminate..]. cbn [obind] in E. destruct (omap f l); [|discriminate..]. cbn [obind] in E. injection E as <-. cbn. f_equal. auto.
Qed.
Lemma blocks_length x k bl : bignum2block x k = Ok bl -> length bl = k.
Proof. unfold bignum2block. destruct (to_bytes x); [|discriminate..]. cbn [obind]. intros E. injection E as <-. rewrite map_length, seq_length. auto. Qed.

Section Circuits.
Variable circuit_input : Z -> outcome (list bool).
(** the masks of the sender and what it encrypts, without the bits *)
Fixpoint masks (P : pub) (k : nat) (zs : list Z) : M (list (Z * (list bytes * list bytes))) :=
  match zs with
  | [] => ret []
  | z :: r =>
      beta <- rand_less_than (pp_n P) ;;
      encrypted_beta <- pub_encrypt P (pp_n P - beta) ;;
      if_eq <- lift (bignum2block (pub_add P z encrypted_beta) k) ;;
      if_neq <- lift (bignum2block encrypted_beta k) ;;
      ms <- masks P k r ;;
      ret ((beta, (if_eq, if_neq)) :: ms)
  end.
Lemma masks_length P k : forall zs tp ms tp', masks P k zs tp = Ok (ms, tp') ->
  length ms = length zs /\ Forall (fun m => length (fst (snd m)) = k /\ length (snd (snd m)) = k) ms.
Proof.
  induction zs as [|z zs IH]; cbn [masks]; intros tp ms tp' E; [apply ret_Ok in E as (-> & _); auto|].
  apply bind_Ok in E as (beta & t1 & E1 & E). apply bind_Ok in E as (e & t2 & E2 & E). apply bind_Ok in E as (q & t3 & E3 & E). apply bind_Ok in E as (nq & t4 & E4 & E). apply bind_Ok in E as (r & t5 & E5 & E).
  apply ret_Ok in E as (-> & _). apply lift_Ok in E3 as (E3 & _). apply lift_Ok in E4 as (E4 & _). destruct (IH _ _ _ E5) as (L & F).
  split; [cbn; f_equal; auto|]. constructor; [|exact F]. cbn [fst snd]. split; eapply blocks_length; eauto.
Qed.
Definition zeros (bits : list bool) (ms : list (Z * (list bytes * list bytes))) : list bytes :=
  flat_map (fun p => if fst p : bool then snd (snd (snd p)) else fst (snd (snd p))) (combine bits ms).
Definition ones (bits : list bool) (ms : list (Z * (list bytes * list bytes))) : list bytes :=
  flat_map (fun p => if fst p : bool then fst (snd (snd p)) else snd (snd (snd p))) (combine bits ms).
Lemma send_masks P k : forall bits zs, length bits = length zs -> forall tp,
  gc_send P k (combine bits zs) tp = (ms <- masks P k zs ;; ret (map fst ms, zeros bits ms, ones bits ms)) tp.
Proof.
  induction bits as [|b bits IH]; intros [|z zs] L tp; try discriminate; [reflexivity|]. injection L as L. specialize (IH zs L).
  cbn [combine gc_send masks]. unfold bind in IH |- *. destruct (rand_less_than _ tp) as [[beta t1]| | |]; auto. destruct (pub_encrypt _ _ t1) as [[e t2]| | |]; auto.
  destruct (lift (bignum2block (pub_add P z e) k) t2) as [[q t3]| | |]; auto. destruct (lift (bignum2block e k) t3) as [[nq t4]| | |]; auto.
  rewrite IH. destruct (masks P k zs t4) as [[ms t5]| | |]; auto.
Qed.
(** what the transfer delivers *)
Lemma transfer_app z1 o1 c1 z2 o2 c2 : length z1 = length o1 -> length z1 = length c1 ->
  transfer (z1 ++ z2) (o1 ++ o2) (c1 ++ c2) = transfer z1 o1 c1 ++ transfer z2 o2 c2.
Proof.
  unfold transfer. revert o1 c1. induction z1 as [|z z1 IH]; intros [|o o1] [|c c1] L1 L2; try discriminate; [reflexivity|].
  cbn [app combine map]. f_equal. apply IH; cbn in *; lia.
Qed.
Lemma transfer_repeat z o (c : bool) k : length z = k -> length o = k -> transfer z o (repeat c k) = if c then o else z.
Proof.
  intros <-. unfold transfer. revert o. induction z as [|x z IH]; intros [|y o] L; try discriminate; [destruct c; auto|].
  cbn [length repeat combine map fst snd]. rewrite IH by (cbn in L; lia). destruct c; auto.
Qed.
Lemma gc_open_cons V k n b r : length b = k -> gc_open V k (S n) (b ++ r) = (let! t := priv_decrypt V (block2bignum b) in let! ts := gc_open V k n r in Ok (t :: ts)).
Proof.
  intros L. unfold gc_open. cbn [seq omap]. rewrite Nat.mul_0_r. cbn [skipn].
  assert (F : firstn k (b ++ r) = b) by (rewrite <- L, firstn_app, Nat.sub_diag, firstn_O, app_nil_r, firstn_all; auto). rewrite F.
  destruct (priv_decrypt V (block2bignum b)); cbn [obind]; auto. rewrite <- seq_shift.
  replace (omap (fun i => priv_decrypt V (block2bignum (firstn k (skipn (k * i) (b ++ r))))) (map S (seq 0 n))) with (omap (fun i => priv_decrypt V (block2bignum (firstn k (skipn (k * i) r)))) (seq 0 n)); auto.
  generalize (seq 0 n). induction l as [|i l IH]; cbn [map omap]; auto. rewrite IH, Nat.mul_succ_r, Nat.add_comm, <- skipn_add, skipn_app, <- L, Nat.sub_diag, skipn_all. reflexivity.
Qed.
(** the positions: what the receiver decrypts *)
Definition openings (V : priv) (sent received : list (list bool)) (ms : list (Z * (list bytes * list bytes))) : outcome (list Z) :=
  omap (fun p => priv_decrypt V (block2bignum (if bits_eqb (fst (fst p)) (snd (fst p)) then fst (snd (snd p)) else snd (snd (snd p))))) (combine (combine sent received) ms).
Lemma open_openings V k (al : bool) : forall sent received ab ms, length sent = length ab -> length received = length ab -> length ms = length ab ->
  Forall (fun m => length (fst (snd m)) = k /\ length (snd (snd m)) = k) ms ->
  let tmp := map negb ab in
  let bob := if al then circuit sent received tmp else circuit received sent tmp in
  let sb := if al then ab else bob in let rb := if al then bob else ab in
  gc_open V k (length received) (transfer (zeros sb ms) (ones sb ms) (choice k rb)) = openings V sent received ms.
Proof.
  induction sent as [|a sent IH]; intros [|b received] [|r ab] [|[beta [q nq]] ms] L1 L2 L3 F; try discriminate; [destruct al; reflexivity|].
  cbn [length] in *. injection L1 as L1. injection L2 as L2. injection L3 as L3. destruct (Forall_inv F) as (Q & NQ). pose proof (Forall_inv_tail F) as F'. cbn [fst snd] in Q, NQ.
  specialize (IH received ab ms L1 L2 L3 F'). cbv zeta in IH |- *.
  unfold openings. cbn [combine map omap fst snd].
  assert (E : forall s1 r1 s2 r2, (if Bool.eqb r1 s1 then q else nq) = (if bits_eqb a b then q else nq) ->
     gc_open V k (S (length received)) (transfer (zeros (s1 :: s2) ((beta, (q, nq)) :: ms)) (ones (s1 :: s2) ((beta, (q, nq)) :: ms)) (choice k (r1 :: r2))) =
     (let! t := priv_decrypt V (block2bignum (if bits_eqb a b then q else nq)) in let! ts := gc_open V k (length received) (transfer (zeros s2 ms) (ones s2 ms) (choice k r2)) in Ok (t :: ts))).
  { intros s1 r1 s2 r2 X. unfold zeros, ones, choice. cbn [combine flat_map fst snd]. rewrite transfer_app.
    - rewrite gc_open_cons.
      + rewrite <- X. rewrite transfer_repeat by (destruct s1; assumption). destruct s1, r1; reflexivity.
      + unfold transfer. rewrite map_length, !combine_length, repeat_length. destruct s1; lia.
    - destruct s1; congruence.
    - rewrite repeat_length. destruct s1; congruence. }
  destruct al; cbn [map circuit combine fst snd].
  - unfold circuit in *. cbn [map combine fst snd]. rewrite E; [|destruct (bits_eqb a b), r; reflexivity]. rewrite IH. reflexivity.
  - unfold circuit in *. cbn [map combine fst snd]. rewrite E; [|rewrite (bits_eqb_sym b a); destruct (bits_eqb a b), r; reflexivity]. rewrite IH. reflexivity.
Qed.

(** one call of the circuits: the bits do not matter *)
Definition gc_plain (P : pub) (V : priv) (al : bool) (xs zs ys : list Z) : D (list Z * list Z) :=
  if negb ((length xs =? length zs)%nat && (length xs =? length ys)%nat) then dlift UB else
  sent <~ dlift (omap circuit_input xs) ;;
  received <~ dlift (omap circuit_input ys) ;;
  _ <~ with_rand (mapM (fun _ => rand_bit) xs) ;;
  ms <~ (if al then at_one else at_zero) (masks P (blocks_for (pp_n P)) zs) ;;
  ts <~ dlift (openings V sent received ms) ;;
  dret (map fst ms, ts).
Lemma bits_drawn {T} (xs : list T) : forall tp, exists bits t, mapM (fun _ => rand_bit) xs tp = Ok (bits, t) /\ length bits = length xs.
Proof.
  induction xs as [|x xs IH]; intros tp; [exists [], tp; auto|]. destruct (IH (tl_tape tp)) as (bits & t & E & L).
  cbn [mapM]. exists ((tp 0%nat mod 2 =? 1) :: bits), t. split; [|cbn; f_equal; auto].
  assert (RB : rand_bit tp = Ok (tp 0%nat mod 2 =? 1, tl_tape tp)) by reflexivity.
  unfold bind. rewrite RB, E. reflexivity.
Qed.
Lemma circuit_length a b t : length a = length t -> length b = length t -> length (circuit a b t) = length t.
Proof. intros A B. unfold circuit. rewrite map_length, !combine_length. lia. Qed.
Lemma gc_flat_plain P V al xs zs ys c : gc_flat circuit_input P V al xs zs ys c = gc_plain P V al xs zs ys c.
Proof.
  unfold gc_flat, gc_plain. destruct ((length xs =? length zs)%nat && (length xs =? length ys)%nat) eqn:T; cbn [negb]; auto.
  apply andb_true_iff in T as (T1 & T2). apply Nat.eqb_eq in T1, T2. unfold dbind, dlift.
  destruct (omap circuit_input xs) as [sent| | |] eqn:S; auto. destruct (omap circuit_input ys) as [received| | |] eqn:R; auto.
  unfold with_rand. destruct (bits_drawn xs (c_rand c)) as (ab & t & -> & L). apply omap_length in S, R.
  set (bob := if al then circuit sent received (map negb ab) else circuit received sent (map negb ab)).
  assert (LB : length bob = length ab) by (unfold bob; destruct al; rewrite circuit_length; rewrite ?map_length; congruence).
  set (sb := if al then ab else bob). set (rb := if al then bob else ab). assert (LS : length sb = length zs) by (unfold sb; destruct al; congruence).
  assert (X : forall tp, gc_send P (blocks_for (pp_n P)) (combine sb zs) tp = (ms <- masks P (blocks_for (pp_n P)) zs ;; ret (map fst ms, zeros sb ms, ones sb ms)) tp) by (intros; apply send_masks; auto).
  assert (Y : forall tp ms tp', masks P (blocks_for (pp_n P)) zs tp = Ok (ms, tp') -> gc_open V (blocks_for (pp_n P)) (length ys) (transfer (zeros sb ms) (ones sb ms) (choice (blocks_for (pp_n P)) rb)) = openings V sent received ms).
  { intros tp ms tp' E. apply masks_length in E as (LM & F). replace (length ys) with (length received) by congruence. apply (open_openings V _ al); auto; congruence. }
  destruct al; [unfold at_one|unfold at_zero]; rewrite X; unfold bind.
  - destruct (masks P _ zs _) as [[ms t1]| | |] eqn:E; auto. unfold ret. rewrite (Y _ _ _ E). auto.
  - destruct (masks P _ zs _) as [[ms t1]| | |] eqn:E; auto. unfold ret. rewrite (Y _ _ _ E). auto.
Qed.
Lemma good_resp {A} (m : M A) : good m -> resp m. Proof. intros (R & _); auto. Qed.
Ltac resps := apply good_resp; cbv zeta; goods; first [apply good_pub_encrypt | apply good_priv_encrypt].
(** every position can be what DelModel does at that position *)
Lemma good_gc_item P V al xz y : good (gc_item circuit_input P V al xz y).
Proof. unfold gc_item. goods; apply good_pub_encrypt. Qed.
Lemma block_item (r e : bool) (al : bool) (q nq : list bytes) :
  let bob := xorb e (negb r) in
  (if (if al then bob else r) then (if (if al then r else bob) then q else nq) else (if (if al then r else bob) then nq else q)) = if e then q else nq.
Proof. destruct r, e, al; reflexivity. Qed.
Lemma position_possible P V al x z y a b beta e q nq t tp1 tp1' tp2 tp2' :
  circuit_input x = Ok a -> circuit_input y = Ok b -> rand_less_than (pp_n P) tp1 = Ok (beta, tp1') -> pub_encrypt P (pp_n P - beta) tp2 = Ok (e, tp2') ->
  bignum2block (pub_add P z e) (blocks_for (pp_n P)) = Ok q -> bignum2block e (blocks_for (pp_n P)) = Ok nq ->
  priv_decrypt V (block2bignum (if bits_eqb a b then q else nq)) = Ok t -> possible (gc_item circuit_input P V al (x, z) y) (beta, t).
Proof.
  intros A B E1 E2 Q NQ O. unfold gc_item. cbn [fst snd].
  pose proof (proj2 (good_rand (pp_n P)) _ _ _ E1) as PB. pose proof (proj2 (good_pub_encrypt _ _) _ _ _ E2) as PE.
  eapply possible_bind; [apply possible_lift; eassumption| |resps].
  eapply possible_bind; [apply possible_lift; eassumption| |resps].
  eapply possible_bind; [eapply (proj2 (good_rand 2) (fun _ => 0)); reflexivity| |resps].
  eapply possible_bind; [exact PB| |resps]. eapply possible_bind; [exact PE| |resps]. cbv zeta.
  eapply possible_bind; [apply possible_lift; eassumption| |resps].
  eapply possible_bind; [apply possible_lift; eassumption| |resps]. rewrite block_item.
  eapply possible_bind; [apply possible_lift; eassumption|apply possible_ret|apply good_ret].
Qed.
Lemma positions_possible P V al : forall xs zs ys sent received ms ts tp tp', length xs = length zs -> length xs = length ys ->
  omap circuit_input xs = Ok sent -> omap circuit_input ys = Ok received -> masks P (blocks_for (pp_n P)) zs tp = Ok (ms, tp') -> openings V sent received ms = Ok ts ->
  Forall2 (fun p v => possible (gc_item circuit_input P V al (fst p) (snd p)) v) (combine (combine xs zs) ys) (combine (map fst ms) ts) /\
  length ms = length xs /\ length ts = length xs.
Proof.
  induction xs as [|x xs IH]; intros [|z zs] [|y ys] sent received ms ts tp tp' L1 L2 S R E O; try discriminate.
  - cbn in *. injection S as <-. apply ret_Ok in E as (-> & _). injection O as <-. split; [constructor|auto].
  - cbn [omap] in S, R. apply obind_Ok in S as (a & A & S). apply obind_Ok in S as (sent' & S & X). injection X as <-.
    apply obind_Ok in R as (b & B & R). apply obind_Ok in R as (received' & R & X). injection X as <-. cbn [masks] in E.
    apply bind_Ok in E as (beta & t1 & E1 & E). apply bind_Ok in E as (e & t2 & E2 & E). apply bind_Ok in E as (q & t3 & E3 & E). apply bind_Ok in E as (nq & t4 & E4 & E). apply bind_Ok in E as (r & t5 & E5 & E).
    apply ret_Ok in E as (-> & _). apply lift_Ok in E3 as (E3 & ->). apply lift_Ok in E4 as (E4 & ->). unfold openings in O. cbn [combine omap fst snd] in O.
    apply obind_Ok in O as (t & T & O). apply obind_Ok in O as (ts' & O & X). injection X as <-.
    destruct (IH zs ys sent' received' r ts' _ _ ltac:(cbn in L1; lia) ltac:(cbn in L2; lia) S R E5 O) as (F & LA & LB).
    split; [|cbn; split; lia]. cbn [combine map fst snd]. constructor; [|exact F]. eapply position_possible; eauto.
Qed.
Lemma gc_flat_possible P V al xs zs ys c betas ts c' : gc_flat circuit_input P V al xs zs ys c = Ok ((betas, ts), c') ->
  length xs = length zs /\ length xs = length ys /\ length betas = length xs /\ length ts = length xs /\
  Forall2 (fun p v => possible (gc_item circuit_input P V al (fst p) (snd p)) v) (combine (combine xs zs) ys) (combine betas ts).
Proof.
  rewrite gc_flat_plain. unfold gc_plain. destruct ((length xs =? length zs)%nat && (length xs =? length ys)%nat) eqn:T; [|discriminate]. cbn [negb].
  apply andb_true_iff in T as (T1 & T2). apply Nat.eqb_eq in T1, T2. intros E.
  apply dbind_Ok in E as (sent & c1 & S & E). apply dlift_Ok in S as (S & ->). apply dbind_Ok in E as (received & c2 & R & E). apply dlift_Ok in R as (R & ->).
  apply dbind_Ok in E as (bits & c3 & _ & E). apply dbind_Ok in E as (ms & c4 & M & E). apply dbind_Ok in E as (ts' & c5 & O & E). apply dlift_Ok in O as (O & ->). apply dret_Ok in E as (E & _). injection E as -> ->.
  assert (X : exists tp tp', masks P (blocks_for (pp_n P)) zs tp = Ok (ms, tp')).
  { destruct al; [unfold at_one in M|unfold at_zero in M]; destruct (masks _ _ _ _) as [[m t]| | |] eqn:Q in M; try discriminate; injection M as <- _; eauto. }
  destruct X as (tp & tp' & X). destruct (positions_possible P V al xs zs ys sent received ms ts' tp tp' T1 T2 S R X O) as (F & LA & LB).
  rewrite map_length. auto.
Qed.
Lemma map_fst_combine {A B} (a : list A) : forall b : list B, length a = length b -> map fst (combine a b) = a.
Proof. induction a as [|x a IH]; intros [|y b] L; try discriminate; auto. cbn. f_equal. apply IH. cbn in L; lia. Qed.
Lemma map_snd_combine {A B} (a : list A) : forall b : list B, length a = length b -> map snd (combine a b) = b.
Proof. induction a as [|x a IH]; intros [|y b] L; try discriminate; auto. cbn. f_equal. apply IH. cbn in L; lia. Qed.
Lemma good_gc_sums P V al xs zs ys : good (gc_sums circuit_input P V al xs zs ys).
Proof.
  unfold gc_sums. destruct (negb _); [apply good_lift|]. apply good_bind; [apply good_mapM; intros; apply good_gc_item|]. intros. apply good_ret.
Qed.
Lemma sums_possible P V al xs zs ys betas ts : length xs = length zs -> length xs = length ys -> length betas = length xs -> length ts = length xs ->
  Forall2 (fun p v => possible (gc_item circuit_input P V al (fst p) (snd p)) v) (combine (combine xs zs) ys) (combine betas ts) ->
  possible (gc_sums circuit_input P V al xs zs ys) (sum_mod (pp_n P) betas, sum_mod (pp_n P) ts).
Proof.
  intros L1 L2 L3 L4 F. unfold gc_sums. rewrite <- L1, <- L2, Nat.eqb_refl. cbn [andb negb].
  eapply possible_bind; [apply possible_mapM; [intros; apply good_gc_item|exact F]| |apply good_ret].
  rewrite map_fst_combine, map_snd_combine by congruence. apply possible_ret.
Qed.
Lemma sim_total P V al xs zs ys : sim (gc_total circuit_input P V al xs zs ys) (gc_sums circuit_input P V al xs zs ys).
Proof.
  split; [apply good_gc_sums|]. intros c r c' E. unfold gc_total in E. apply dbind_Ok in E as ([betas ts] & c1 & E & X). apply dret_Ok in X as (-> & _).
  destruct (gc_flat_possible _ _ _ _ _ _ _ _ _ _ E) as (L1 & L2 & L3 & L4 & F). apply sums_possible; auto.
Qed.
End Circuits.

(** ** deletion-psi: the groups, the shape of a day *)
Notation shape := (map (@length Z)).
Section Groups.
Variable circuit_input : Z -> outcome (list bool).
Lemma split_length {A} : forall sizes (l : list A), length (split_by sizes l) = length sizes.
Proof. induction sizes; intros; cbn; auto. Qed.
Lemma concat_shape : forall (xs ys : list (list Z)), shape xs = shape ys -> length (concat xs) = length (concat ys).
Proof. induction xs as [|x xs IH]; intros [|y ys] E; try discriminate; auto. cbn [map concat] in *. injection E as E1 E2. rewrite !app_length. specialize (IH ys E2). lia. Qed.
Lemma combine_app {A B} (a1 a2 : list A) : forall b1 b2 : list B, length a1 = length b1 -> combine (a1 ++ a2) (b1 ++ b2) = combine a1 b1 ++ combine a2 b2.
Proof. induction a1 as [|x a1 IH]; intros [|y b1] b2 L; try discriminate; auto. cbn [app combine]. f_equal. apply IH. cbn in L; lia. Qed.
Lemma app_len {A} : forall a b c d : list A, a ++ b = c ++ d -> length a = length c -> a = c /\ b = d.
Proof. induction a as [|x a IH]; intros b [|y c] d E L; try discriminate; [auto|]. cbn in E. injection E as -> E. destruct (IH b c d E ltac:(cbn in L; lia)) as (-> & ->). auto. Qed.
Lemma F2_len {A B} (R : A -> B -> Prop) l l' : Forall2 R l l' -> length l = length l'.
Proof. induction 1; cbn; auto. Qed.
Lemma groups_positions P V al : forall xs zs ys betas ts, shape xs = shape zs -> shape xs = shape ys -> length betas = length (concat xs) -> length ts = length (concat xs) ->
  Forall2 (fun p v => possible (gc_item circuit_input P V al (fst p) (snd p)) v) (combine (combine (concat xs) (concat zs)) (concat ys)) (combine betas ts) ->
  Forall2 (fun p v => possible (gc_sums circuit_input P V al (fst (fst p)) (snd (fst p)) (snd p)) v) (combine (combine xs zs) ys)
    (combine (map (sum_mod (pp_n P)) (split_by (shape xs) betas)) (map (sum_mod (pp_n P)) (split_by (shape ys) ts))).
Proof.
  induction xs as [|x xs IH]; intros [|z zs] [|y ys] betas ts S1 S2 L1 L2 F; try discriminate; [constructor|].
  cbn [map] in S1, S2. injection S1 as Z1 S1. injection S2 as Y1 S2. cbn [concat] in *. rewrite app_length in *.
  rewrite !combine_app in F by (rewrite ?combine_length; lia).
  rewrite <- (firstn_skipn (length x) betas), <- (firstn_skipn (length x) ts) in F. rewrite (combine_app (firstn _ betas)) in F by (rewrite !firstn_length; lia).
  apply Forall2_app_inv_l in F as (v1 & v2 & F1 & F2 & EV).
  assert (LV : length v1 = length (combine (firstn (length x) betas) (firstn (length x) ts))).
  { apply F2_len in F1. rewrite <- F1, !combine_length, !firstn_length. lia. }
  symmetry in EV. apply app_len in EV as (-> & ->); [|auto].
  cbn [map combine split_by fst snd]. constructor.
  - cbn [fst snd]. rewrite <- Y1. apply sums_possible; auto; rewrite ?firstn_length; lia.
  - rewrite <- Y1. apply IH; auto; rewrite ?skipn_length; lia.
Qed.
Lemma groups_possible P V al xs zs ys c b p c' : gc_totals circuit_input P V al xs zs ys c = Ok ((b, p), c') -> shape xs = shape ys ->
  possible (gc_groups circuit_input P V al xs zs ys) (combine b p) /\ length b = length p.
Proof.
  unfold gc_totals. destruct (list_eq_dec Nat.eq_dec (shape xs) (shape zs)) as [S1|]; [|discriminate]. cbn [negb]. intros E S2.
  apply dbind_Ok in E as ([betas ts] & c1 & E & X). apply dret_Ok in X as (X & _). injection X as -> ->.
  destruct (gc_flat_possible _ _ _ _ _ _ _ _ _ _ _ E) as (L1 & L2 & L3 & L4 & F). split.
  - unfold gc_groups. assert (LX : length xs = length zs) by (rewrite <- (map_length (@length Z) xs), S1, map_length; auto).
    assert (LY : length xs = length ys) by (rewrite <- (map_length (@length Z) xs), S2, map_length; auto). rewrite <- LX, <- LY, Nat.eqb_refl. cbn [andb negb].
    apply possible_mapM; [intros; apply good_gc_sums|]. apply groups_positions; auto.
  - rewrite !map_length, !split_length, S2. auto.
Qed.
Lemma good_groups P V al xs zs ys : good (gc_groups circuit_input P V al xs zs ys).
Proof. unfold gc_groups. destruct (negb _); [apply good_lift|]. apply good_mapM. intros. apply good_gc_sums. Qed.
Lemma omap_fst {A B C} (f : A -> outcome C) : forall (a : list A) (b : list B), length a = length b -> omap (fun r => f (fst r)) (combine a b) = omap f a.
Proof. induction a as [|x a IH]; intros [|y b] L; try discriminate; auto. cbn [combine omap fst]. rewrite IH by (cbn in L; lia). auto. Qed.
Lemma omap_snd {A B C} (f : B -> outcome C) : forall (a : list A) (b : list B), length a = length b -> omap (fun r => f (snd r)) (combine a b) = omap f b.
Proof. induction a as [|x a IH]; intros [|y b] L; try discriminate; auto. cbn [combine omap snd]. rewrite IH by (cbn in L; lia). auto. Qed.

Variables (P0 P1 : pub) (V0 V1 : priv).
Lemma good_psi_circuits c s : good (psi_circuits circuit_input P0 P1 V0 V1 c s).
Proof. unfold psi_circuits. apply good_bind; [apply good_groups|]. intros. apply good_bind; [apply good_groups|]. intros. goods. Qed.
Lemma psi_circuits_possible c s k a k' : shape (pg_x c) = shape (pg_y s) -> shape (pg_x s) = shape (pg_y c) ->
  psi_circuits_run circuit_input P0 P1 V0 V1 c s k = Ok (a, k') -> possible (psi_circuits circuit_input P0 P1 V0 V1 c s) a.
Proof.
  intros S1 S2 E. unfold psi_circuits_run in E.
  apply dbind_Ok in E as ([b0 p1] & k1 & E0 & E). apply dbind_Ok in E as ([b1 p0] & k2 & E1 & E).
  destruct (groups_possible _ _ _ _ _ _ _ _ _ _ E0 S1) as (G0 & L0). destruct (groups_possible _ _ _ _ _ _ _ _ _ _ E1 S2) as (G1 & L1).
  apply dbind_Ok in E as (s0 & k3 & T0 & E). apply dlift_Ok in T0 as (T0 & ->). apply dbind_Ok in E as (t1 & k3 & T1 & E). apply dlift_Ok in T1 as (T1 & ->).
  apply dbind_Ok in E as (s1 & k3 & T2 & E). apply dlift_Ok in T2 as (T2 & ->). apply dbind_Ok in E as (t0 & k3 & T3 & E). apply dlift_Ok in T3 as (T3 & ->).
  apply dret_Ok in E as (-> & _). unfold psi_circuits.
  eapply possible_bind; [exact G0| |apply good_resp; apply good_bind; [apply good_groups|intros; goods]].
  eapply possible_bind; [exact G1| |apply good_resp; goods].
  eapply possible_bind; [apply possible_lift; rewrite omap_fst by auto; exact T0| |apply good_resp; goods].
  eapply possible_bind; [apply possible_lift; rewrite omap_snd by auto; exact T1| |apply good_resp; goods].
  eapply possible_bind; [apply possible_lift; rewrite omap_fst by auto; exact T2| |apply good_resp; goods].
  eapply possible_bind; [apply possible_lift; rewrite omap_snd by auto; exact T3| |apply good_resp; goods].
  apply possible_ret.
Qed.

(** *** the second phase *)
Lemma mapM_possible {A B} (f : A -> M B) : (forall a, good (f a)) -> forall l tp vs tp', mapM f l tp = Ok (vs, tp') -> Forall2 (fun a v => possible (f a) v) l vs.
Proof.
  intros G. induction l as [|x l IH]; cbn [mapM]; intros tp vs tp' E; [apply ret_Ok in E as (-> & _); constructor|].
  apply bind_Ok in E as (v & t1 & E1 & E). apply bind_Ok in E as (vs' & t2 & E2 & E). apply ret_Ok in E as (-> & _). constructor; [eapply (proj2 (G x)); eauto|eauto].
Qed.
Lemma good_share ab : good (combine_share P0 V0 ab).
Proof. unfold combine_share. goods; first [apply good_pub_encrypt | apply good_priv_encrypt]. Qed.
Lemma good_add (p : Z * Z) : good (encrypted_y <- pub_encrypt P0 (snd p) ;; ret (pub_add P0 (fst p) encrypted_y)).
Proof. apply good_bind; [apply good_pub_encrypt|]. intros. apply good_ret. Qed.
Lemma shares_possible : forall rs0 rs1 cs cs' msgs, length rs0 = length rs1 -> Forall2 (fun a v => possible (priv_encrypt V0 a) v) rs0 cs ->
  omap (over_io (blocks_for (pv_n V0))) cs = Ok cs' -> Forall2 (fun p v => possible (encrypted_y <- pub_encrypt P0 (snd p) ;; ret (pub_add P0 (fst p) encrypted_y)) v) (combine cs' rs1) msgs ->
  Forall2 (fun p v => possible (combine_share P0 V0 p) v) (combine rs0 rs1) msgs.
Proof.
  induction rs0 as [|a rs0 IH]; intros [|b rs1] cs cs' msgs L F O G; try discriminate.
  - inversion F; subst. injection O as <-. inversion G. constructor.
  - inversion F as [|? c ? cs1 F1 F2]; subst. cbn [omap] in O. apply obind_Ok in O as (c1 & O1 & O). apply obind_Ok in O as (cs2 & O2 & X). injection X as <-.
    cbn [combine] in G. inversion G as [|? m ? msgs1 G1 G2]; subst. cbn [combine]. constructor; [|eapply IH; eauto].
    unfold combine_share. cbn [fst snd] in *. eapply possible_bind; [exact F1| |apply good_resp; goods; apply good_pub_encrypt].
    eapply possible_bind; [apply possible_lift; exact O1|exact G1|apply good_resp; goods; apply good_pub_encrypt].
Qed.
Lemma good_second rs0 rs1 : good (second_phase P0 V0 rs0 rs1).
Proof. unfold second_phase. destruct (negb _); [apply good_lift|]. apply good_bind; [apply good_mapM; intros; apply good_share|]. intros. apply good_bind; [apply good_shuffle|]. intros. goods. Qed.
Lemma sim_second rs0 rs1 : sim (second_phase_run P0 V0 rs0 rs1) (second_phase P0 V0 rs0 rs1).
Proof.
  split; [apply good_second|]. intros c us c' E. unfold second_phase_run in E. unfold second_phase. destruct (length rs0 =? length rs1)%nat eqn:T; [|discriminate]. apply Nat.eqb_eq in T. cbn [negb] in *.
  apply dbind_Ok in E as (cs & c1 & E1 & E). apply dbind_Ok in E as (cs' & c2 & E2 & E). apply dlift_Ok in E2 as (E2 & ->).
  apply dbind_Ok in E as (msgs & c3 & E3 & E). apply dbind_Ok in E as (sh & c4 & E4 & E). apply dbind_Ok in E as (vals & c5 & E5 & E). apply dlift_Ok in E5 as (E5 & ->). apply dret_Ok in E as (-> & _).
  assert (F1 : Forall2 (fun a v => possible (priv_encrypt V0 a) v) rs0 cs).
  { unfold at_zero in E1. destruct (mapM _ _ _) as [[v t]| | |] eqn:X; try discriminate. injection E1 as <- _. eapply mapM_possible; [apply good_priv_encrypt|eauto]. }
  assert (F3 : Forall2 (fun p v => possible (encrypted_y <- pub_encrypt P0 (snd p) ;; ret (pub_add P0 (fst p) encrypted_y)) v) (combine cs' rs1) msgs).
  { unfold at_one in E3. destruct (mapM _ _ _) as [[v t]| | |] eqn:X in E3; try discriminate. injection E3 as <- _. eapply mapM_possible; [apply good_add|eauto]. }
  pose proof (proj2 (sim_one (shuffle msgs) (good_shuffle msgs)) _ _ _ E4) as PS.
  eapply possible_bind; [apply possible_mapM; [intros; apply good_share|eapply shares_possible; eauto]| |apply good_resp; apply good_bind; [apply good_shuffle|intros; goods]].
  eapply possible_bind; [exact PS| |apply good_resp; goods].
  eapply possible_bind; [apply possible_lift; exact E5|apply possible_ret|apply good_ret].
Qed.
End Groups.

(** *** the groups of both parties agree *)
Section Shapes.
Context {Gr : group}.
Variable hash : Z -> list bool.
Variables (P0 P1 : pub) (V0 V1 : priv).
Notation sizes l := (map (@length _) l).
Lemma omap2_sizes {A B} (f : A -> outcome B) : forall (l : list (list A)) l', omap (omap f) l = Ok l' -> sizes l' = sizes l.
Proof.
  induction l as [|x l IH]; cbn [omap]; intros l' E; [injection E as <-; auto|].
  apply obind_Ok in E as (y & E1 & E). apply obind_Ok in E as (r & E2 & E). injection E as <-. cbn [map]. f_equal; [eapply omap_length; eauto|auto].
Qed.
Lemma sizes_map {A B} (f : A -> B) (l : list (list A)) : sizes (map (map f) l) = sizes l.
Proof. rewrite map_map. apply map_ext. intros. apply map_length. Qed.
Lemma omap_map {A B C} (g : A -> B) (f : B -> outcome C) l : omap f (map g l) = omap (fun x => f (g x)) l.
Proof. induction l; cbn; auto. rewrite IHl. auto. Qed.
Lemma ws_sizes (items : list (list (Z * Z * Z))) ws : omap (fun l => omap (only_paillier (Gr := Gr)) (map g_c l)) items = Ok ws -> sizes ws = sizes items.
Proof. rewrite <- (omap_map (map g_c) (omap only_paillier)). intros E. apply omap2_sizes in E. rewrite E. apply sizes_map. Qed.
Lemma receive_sizes V (m : msg12 Gr) p p' o : psi_receive V m p = (p', Ok o) -> pg_x p' = pg_x p /\ pg_z p' = pg_z p /\ exists ys, pg_y p' = pg_y p ++ ys /\ sizes ys = sizes (m_vct m).
Proof.
  unfold psi_receive. destruct (recv_update _ _ _) as [other'|c| |]; [|intros E; discriminate..].
  destruct (omap (omap deser_cand_only_paillier) (m_vct m)) as [cs|c| |] eqn:E1; cbn [obind]; [|intros E; discriminate..].
  destruct (omap (combine_responder V) cs) as [ys|c| |] eqn:E2; intros E; try discriminate. injection E as <- _. cbn [pg_x pg_y pg_z]. split; auto. split; auto.
  exists ys. split; auto. unfold combine_responder in E2. apply omap2_sizes in E1, E2. congruence.
Qed.
Lemma gen1_sizes P V es p p1 (m : msg12 Gr) tp tp' : psi_gen1 hash P V es p tp = Ok ((p1, m), tp') ->
  exists items, pg_x p1 = pg_x p ++ map (map g_x) items /\ pg_y p1 = pg_y p /\ sizes (m_vct m) = sizes items.
Proof.
  unfold psi_gen1. destruct (del_update hash V es (pg_my p) tp) as [my' o]. intros E.
  apply bind_Ok in E as (u & t1 & _ & E). apply bind_Ok in E as (items & t2 & _ & E). apply bind_Ok in E as (ws & t3 & E3 & E). apply lift_Ok in E3 as (E3 & _). apply ret_Ok in E as (E & _).
  injection E as -> ->. exists items. cbn [pg_x pg_y m_vct]. split; auto. split; auto. apply ws_sizes; auto.
Qed.
Lemma gen2_sizes P V (m : msg12 Gr) es p p' r tp tp' : psi_gen2 hash P V m es p tp = (p', Ok (r, tp')) ->
  exists items ys, pg_x p' = pg_x p ++ map (map g_x) items /\ pg_y p' = pg_y p ++ ys /\ sizes ys = sizes (m_vct m) /\ sizes (m_vct r) = sizes items.
Proof.
  unfold psi_gen2. destruct (psi_receive V m p) as [p1 [[]|c| |]] eqn:R; [|discriminate..]. apply receive_sizes in R as (X & Z & ys & Y & S).
  destruct (del_update hash V es (pg_my p1) tp) as [my' o]. 
  destruct (bind _ _ tp) as [[[[u items] ws] t2]| | |] eqn:E; [|discriminate..].
  apply bind_Ok in E as (u' & t1 & _ & E). apply bind_Ok in E as (items' & t3 & _ & E). apply bind_Ok in E as (ws' & t4 & E3 & E). apply lift_Ok in E3 as (E3 & _). apply ret_Ok in E as (E & _). injection E as -> -> ->.
  intros E. injection E as <- <- _. exists items', ys. cbn [pg_x pg_y m_vct]. rewrite X, Y. repeat split; auto. apply ws_sizes; auto.
Qed.
Definition in_step (c s : pparty) : Prop := shape (pg_x c) = shape (pg_y s) /\ shape (pg_x s) = shape (pg_y c).
Lemma exchange_in_step es c s c' s' tp tp' : exchange (Gr := Gr) hash P0 P1 V0 V1 es (c, s) tp = Ok ((c', s'), tp') ->
  in_step (pc_party c) (ps_party s) -> in_step (pc_party c') (ps_party s').
Proof.
  unfold exchange. intros E (S1 & S2). apply bind_Ok in E as ([p1 m1] & t1 & E1 & E). apply bind_Ok in E as ([s2 r] & t2 & E2 & E).
  apply bind_Ok in E as (c2 & t3 & E3 & E). apply lift_Ok in E3 as (E3 & _). apply ret_Ok in E as (E & _). injection E as -> ->.
  apply gen1_sizes in E1 as (items & X1 & Y1 & M1).
  unfold send in E2. unfold PsiModel.psi_handle in E2. destruct (ps_finished s); [discriminate|]. destruct (nth_error (ps_data s) (ps_day s)) as [[dels adds]|]; [|discriminate].
  destruct (psi_gen2 hash P0 V1 m1 _ (ps_party s) _) as [p2 [[r2 t']|c0| |]] eqn:G; [|discriminate..].
  apply gen2_sizes in G as (items2 & ys & X2 & Y2 & S3 & M2). injection E2 as <- <- _.
  unfold pc_handle in E3. destruct (_ <=? _)%nat; [discriminate|]. destruct (psi_receive V0 r2 (pc_party (pc_with p1 c))) as [p3 [[]|c0| |]] eqn:R; [|discriminate..].
  injection E3 as <-. apply receive_sizes in R as (X3 & _ & ys3 & Y3 & S4). cbn [pc_party pc_with] in *.
  assert (PF : ps_party (ps_finish (mkPS p2 (ps_data s) (ps_day s) (ps_first s) false)) = p2) by (unfold ps_finish; cbn; destruct (ps_first s); auto).
  rewrite PF. unfold in_step. rewrite X3, Y3, X1, Y1, X2, Y2, !map_app, !sizes_map, S3, S4, M1, M2, S1, S2. auto.
Qed.
Lemma psi_run_in_step c s c1 s1 mids tp tp' : psi_run (Gr := Gr) hash P0 P1 V0 V1 (c, ps_reset s) tp = Ok ((c1, s1, mids), tp') -> in_step (pc_party c1) (ps_party s1).
Proof.
  unfold psi_run. destruct (nth_error _ _) as [[dels adds]|]; [|discriminate]. intros E. apply bind_Ok in E as ([c2 s2] & t1 & E1 & E). apply bind_Ok in E as ([c3 s3] & t2 & E2 & E).
  apply ret_Ok in E as (E & _). injection E as -> -> _. cbn [pc_party]. eapply exchange_in_step; eauto. eapply exchange_in_step; eauto. split; reflexivity.
Qed.

(** ** The days *)
Variable circuit_input : Z -> outcome (list bool).
Ltac sims := repeat first [apply sim_ret | apply sim_lift | apply sim_bind'; [|intros] | match goal with |- sim (let '(_, _) := ?p in _) _ => destruct p end].
Lemma sim_dc_run st : sim (dc_run_own (Gr := Gr) hash P0 P1 V0 V1 st) (dc_run (Gr := Gr) hash P0 P1 V0 V1 st).
Proof.
  destruct st as [c s]. unfold dc_run_own, dc_run. destruct (nth_error _ _) as [es|]; [|apply sim_lift].
  apply sim_bind'; [apply sim_zero, good_del_gen1|]. intros [p1 m1]. apply sim_bind'; [apply sim_one, good_send, hresp_del|]. intros [s' r]. sims.
Qed.
Lemma sim_del_circuits c s : sim (del_circuits_run circuit_input P0 P1 V0 V1 c s) (del_circuits circuit_input P0 P1 V0 V1 c s).
Proof. unfold del_circuits_run, del_circuits. apply sim_bind'; [apply sim_total|]. intros. apply sim_bind'; [apply sim_total|]. intros. sims. Qed.
Lemma sim_del_day st : sim (del_day_own (Gr := Gr) hash circuit_input P0 P1 V0 V1 st) (del_day (Gr := Gr) hash circuit_input P0 P1 V0 V1 st).
Proof.
  unfold del_day_own, del_day. apply sim_bind'; [apply sim_dc_run|]. intros [c s]. apply sim_bind'; [apply sim_del_circuits|]. intros [[rs ors] rounds]. apply sim_ret.
Qed.
Lemma sim_exchange es st : sim (exchange_own (Gr := Gr) hash P0 P1 V0 V1 es st) (exchange (Gr := Gr) hash P0 P1 V0 V1 es st).
Proof.
  destruct st as [c s]. unfold exchange_own, exchange. apply sim_bind'; [apply sim_zero, good_psi_gen1|]. intros [p1 m1].
  apply sim_bind'; [apply sim_one, good_send, hresp_psi|]. intros [s' r]. sims.
Qed.
Lemma sim_psi_run st : sim (psi_run_own (Gr := Gr) hash P0 P1 V0 V1 st) (psi_run (Gr := Gr) hash P0 P1 V0 V1 st).
Proof.
  destruct st as [c s]. unfold psi_run_own, psi_run. cbv zeta. destruct (nth_error _ _) as [[dels adds]|]; [|apply sim_lift].
  apply sim_bind'; [apply sim_exchange|]. intros [c2 s2]. apply sim_bind'; [apply sim_exchange|]. intros [c3 s3]. apply sim_ret.
Qed.
Lemma sim_psi_day st : sim (psi_day_own (Gr := Gr) hash circuit_input P0 P1 V0 V1 st) (psi_day2 (Gr := Gr) hash circuit_input P0 P1 V0 V1 st).
Proof.
  destruct st as [[c s] di]. unfold psi_day_own, psi_day2.
  assert (T : forall c1 s1 (x : list Z * list Z * (list round * list round)) (mid0 mid1 : tree entry), sim ((let '(rs0, rs1, (r0, r1)) := x in us <~ second_phase_run P0 V0 rs0 rs1 ;; rs <~ dlift (apply_updates us (pc_result c1, pc_set c1)) ;;
       dret (mkPC (pc_party c1) (pc_data c1) (pc_day c1) (pc_total c1) (fst rs) (snd rs), s1, mkDay mid0 mid1 r0 r1))%M)
      ((let '(rs0, rs1, (r0, r1)) := x in us <- second_phase P0 V0 rs0 rs1 ;; rs <- lift (apply_updates us (pc_result c1, pc_set c1)) ;;
       ret (mkPC (pc_party c1) (pc_data c1) (pc_day c1) (pc_total c1) (fst rs) (snd rs), s1 : pserver, mkDay mid0 mid1 r0 r1))%M)).
  { intros c1 s1 [[rs0 rs1] [r0 r1]] mid0 mid1. apply sim_bind'; [apply sim_second|]. intros us. sims. }
  apply sim_bind; [apply sim_psi_run| |].
  - intros [[c1 s1] [mid0 mid1]]. apply resp_bind; [apply good_psi_circuits|]. intros x. apply (T c1 s1 x mid0 mid1).
  - intros [[c1 s1] [mid0 mid1]] PO k b k' E.
    destruct (PO (fun _ => 0)) as (t & u' & ER & _). apply psi_run_in_step in ER as (S1 & S2).
    apply dbind_Ok in E as (x & k1 & E1 & E2). eapply possible_bind; [eapply psi_circuits_possible; eauto| |apply (T c1 s1 x mid0 mid1)].
    exact (proj2 (T c1 s1 x mid0 mid1) _ _ _ E2).
Qed.
Lemma sim_run {S} (w : S -> D S) (m : S -> M S) : (forall st, sim (w st) (m st)) -> forall k st, sim (run_own w k st) (run_trace m k st).
Proof.
  intros H. induction k as [|k IH]; intros st; cbn [run_own run_trace]; [apply sim_ret|]. apply sim_bind'; [apply H|]. intros st'. apply sim_bind'; [apply IH|]. intros l. apply sim_ret.
Qed.
Lemma sim_coins {A} (w : D A) (m : M A) c a c' : sim w m -> w c = Ok (a, c') -> exists coins coins', m coins = Ok (a, coins').
Proof. intros (_ & S) E. destruct (S _ _ _ E (fun _ => 0)) as (t & u & X & _). eauto. Qed.
End Shapes.
