(** * Random coins and the state-and-error monad used by the protocol models.

    A [tape] is an infinite sequence of integers from which every random draw
    of the program is taken; theorems quantify over all tapes, hence over all
    outcomes of the random generators. *)
Require Import List Arith Lia ZArith Permutation Bool.
Import ListNotations.
From Verif Require Import Prelude.

Definition tape := nat -> Z.
Definition tl_tape (t : tape) : tape := fun n => t (S n).

Definition M (A : Type) := tape -> outcome (A * tape).
Definition ret {A} (a : A) : M A := fun t => Ok (a, t).
Definition bind {A B} (m : M A) (f : A -> M B) : M B :=
  fun t => match m t with
           | Ok (a, t') => f a t'
           | Err c => Err c | Abort => Abort | UB => UB
           end.
Definition lift {A} (o : outcome A) : M A :=
  fun t => match o with Ok a => Ok (a, t) | Err c => Err c | Abort => Abort | UB => UB end.

Declare Scope M_scope.
Delimit Scope M_scope with M.
Notation "x <- m ;; k" := (bind m (fun x => k))
  (at level 61, m at next level, right associativity) : M_scope.
Notation "' p <- m ;; k" := (bind m (fun x => let p := x in k))
  (at level 61, p pattern, m at next level, right associativity) : M_scope.
Open Scope M_scope.

(** Context::GenerateRandLessThan, crypto/context.cc:182-186 (BN_rand_range
    fails, and CRYPTO_CHECK aborts, unless 0 < max). *)
Definition rand_less_than (max : Z) : M Z :=
  fun t => if (0 <? max)%Z then Ok ((t O mod max)%Z, tl_tape t) else Abort.
(** Context::GenerateRandBetween, crypto/context.cc:188-191. *)
Definition rand_between (start stop : Z) : M Z :=
  fun t => if (start <? stop)%Z
           then (r <- rand_less_than (stop - start)%Z ;; ret (r + start)%Z) t else Abort.

(** [for] loops with early return. *)
Fixpoint mapM {A B} (f : A -> M B) (l : list A) : M (list B) :=
  match l with
  | [] => ret []
  | x :: r => y <- f x ;; ys <- mapM f r ;; ret (y :: ys)
  end.
Fixpoint repeatM {A} (n : nat) (m : M A) : M (list A) :=
  match n with O => ret [] | S k => x <- m ;; xs <- repeatM k m ;; ret (x :: xs) end.

(** std::shuffle: an arbitrary permutation chosen by the coins (every
    permutation is obtained for some tape: [shuffle_surjective]). *)
Fixpoint insert_at {A} (i : nat) (x : A) (l : list A) : list A :=
  match i, l with
  | O, _ => x :: l
  | S j, [] => [x]
  | S j, y :: r => y :: insert_at j x r
  end.
Fixpoint shuffle {A} (l : list A) : M (list A) :=
  match l with
  | [] => ret []
  | x :: r => r' <- shuffle r ;;
              i <- rand_less_than (Z.of_nat (S (length r))) ;;
              ret (insert_at (Z.to_nat i) x r')
  end.

(** ** laws *)
Lemma bind_Ok {A B} (m : M A) (f : A -> M B) t b t' :
  bind m f t = Ok (b, t') -> exists a t1, m t = Ok (a, t1) /\ f a t1 = Ok (b, t').
Proof. unfold bind. destruct (m t) as [[a t1]| | |]; intros H; try discriminate. eauto. Qed.

Lemma ret_Ok {A} (a : A) t b t' : ret a t = Ok (b, t') -> b = a /\ t' = t.
Proof. unfold ret. intros H; inversion H; auto. Qed.

Lemma lift_Ok {A} (o : outcome A) t b t' : lift o t = Ok (b, t') -> o = Ok b /\ t' = t.
Proof. unfold lift. destruct o; intros H; inversion H; auto. Qed.

Ltac minv H :=
  repeat match type of H with
  | bind _ _ _ = Ok _ =>
      let a := fresh "a" in let t := fresh "t" in let H1 := fresh "E" in
      apply bind_Ok in H as (a & t & H1 & H)
  | ret _ _ = Ok _ => apply ret_Ok in H as [H ?]
  | lift _ _ = Ok _ => apply lift_Ok in H as [H ?]
  end.

Lemma rand_less_than_range max t r t' :
  rand_less_than max t = Ok (r, t') -> (0 <= r < max)%Z.
Proof.
  unfold rand_less_than. destruct (Z.ltb_spec 0 max); intros H'; inversion H'; subst.
  apply Z.mod_pos_bound; auto.
Qed.
Lemma rand_between_range a b t r t' : rand_between a b t = Ok (r, t') -> (a <= r < b)%Z.
Proof.
  unfold rand_between. destruct (a <? b)%Z; intros H; [|discriminate].
  apply bind_Ok in H as (x & t1 & H1 & H). apply rand_less_than_range in H1.
  apply ret_Ok in H as [-> _]. lia.
Qed.

Lemma mapM_Ok {A B} (f : A -> M B) l : forall t ys t',
  mapM f l t = Ok (ys, t') -> Forall2 (fun x y => exists s s', f x s = Ok (y, s')) l ys.
Proof.
  induction l as [|x l IH]; intros t ys t' H; simpl in H.
  - apply ret_Ok in H as [-> _]. constructor.
  - apply bind_Ok in H as (y & t1 & H1 & H). apply bind_Ok in H as (ys' & t2 & H2 & H).
    apply ret_Ok in H as [-> _]. constructor; eauto.
Qed.
Lemma repeatM_Ok {A} (m : M A) n : forall t xs t',
  repeatM n m t = Ok (xs, t') -> length xs = n /\ Forall (fun x => exists s s', m s = Ok (x, s')) xs.
Proof.
  induction n as [|n IH]; intros t xs t' H; simpl in H.
  - apply ret_Ok in H as [-> _]. auto.
  - apply bind_Ok in H as (y & t1 & H1 & H). apply bind_Ok in H as (ys' & t2 & H2 & H).
    apply ret_Ok in H as [-> _]. destruct (IH _ _ _ H2). simpl. split; eauto.
Qed.

Lemma insert_at_perm {A} (x : A) l : forall i, Permutation (insert_at i x l) (x :: l).
Proof.
  induction l as [|y l IH]; intros [|i]; simpl; auto. rewrite IH. apply perm_swap.
Qed.
Lemma shuffle_perm {A} (l : list A) : forall t l' t', shuffle l t = Ok (l', t') -> Permutation l' l.
Proof.
  induction l as [|x l IH]; intros t l' t' H; cbn [shuffle] in H.
  - apply ret_Ok in H as [-> _]. auto.
  - apply bind_Ok in H as (r & t1 & H1 & H). apply bind_Ok in H as (i & t2 & _ & H).
    apply ret_Ok in H as [-> _]. rewrite insert_at_perm. apply perm_skip. eauto.
Qed.

(** shuffling never fails *)
Lemma shuffle_total {A} (l : list A) : forall t, exists l' t', shuffle l t = Ok (l', t').
Proof.
  induction l as [|x l IH]; intros t; cbn [shuffle].
  - eexists _, _; reflexivity.
  - destruct (IH t) as (r & t1 & E). unfold bind at 1. rewrite E.
    unfold bind, rand_less_than. destruct (Z.ltb_spec 0 (Z.of_nat (S (length l)))); [|lia].
    eexists _, _; reflexivity.
Qed.

(** ** every permutation is the result of some tape *)
Fixpoint shuffle_with {A} (l : list A) (c : nat -> Z) : list A :=
  match l with
  | [] => []
  | x :: r => insert_at (Z.to_nat (c (length r) mod Z.of_nat (S (length r)))) x (shuffle_with r c)
  end.
Lemma iter_tl k : forall t : tape, Nat.iter k tl_tape t O = t k.
Proof.
  assert (G : forall k (t : tape) n, Nat.iter k tl_tape t n = t (k + n)).
  { induction k0; intros t n; simpl; auto. unfold tl_tape at 1. rewrite IHk0. f_equal. lia. }
  intros t. rewrite G. f_equal. lia.
Qed.
Lemma shuffle_eq {A} (l : list A) t :
  shuffle l t = Ok (shuffle_with l t, Nat.iter (length l) tl_tape t).
Proof.
  induction l as [|x l IH]; cbn [shuffle]; [reflexivity|].
  unfold bind at 1. rewrite IH. unfold bind, rand_less_than.
  destruct (Z.ltb_spec 0 (Z.of_nat (S (length l)))); [|lia].
  unfold ret. rewrite iter_tl. reflexivity.
Qed.
Lemma shuffle_with_ext {A} (l : list A) c c' :
  (forall i, i < length l -> c i = c' i) -> shuffle_with l c = shuffle_with l c'.
Proof.
  induction l as [|x l IH]; intros H; cbn [shuffle_with]; auto.
  rewrite (H (length l)) by (simpl; lia). f_equal. apply IH. intros i Hi. apply H. simpl. lia.
Qed.
Lemma insert_at_split {A} (x : A) l1 l2 : insert_at (length l1) x (l1 ++ l2) = l1 ++ x :: l2.
Proof. induction l1; simpl; auto. f_equal; auto. Qed.
Lemma shuffle_surjective {A} (l l' : list A) : Permutation l' l ->
  exists t t', shuffle l t = Ok (l', t').
Proof.
  intros P. cut (exists c, shuffle_with l c = l').
  { intros (c & E). exists c. rewrite shuffle_eq, E. eauto. }
  revert l' P. induction l as [|x l IH]; intros l' P.
  - apply Permutation_sym, Permutation_nil in P. subst. exists (fun _ => 0%Z). reflexivity.
  - assert (In x l') as (l1 & l2 & ->)%in_split by (eapply Permutation_in; [symmetry; exact P|left; auto]).
    symmetry in P. apply Permutation_cons_app_inv in P. symmetry in P.
    destruct (IH _ P) as (c & E).
    exists (fun n => if n =? length l then Z.of_nat (length l1) else c n).
    cbn [shuffle_with]. rewrite Nat.eqb_refl.
    rewrite (shuffle_with_ext l _ c), E.
    + rewrite Z.mod_small, Nat2Z.id by (apply Permutation_length in P; rewrite app_length in P; lia).
      apply insert_at_split.
    + intros i Hi. destruct (Nat.eqb_spec i (length l)); auto; lia.
Qed.

Lemma mapM_length {A B} (f : A -> M B) l t ys t' : mapM f l t = Ok (ys, t') -> length ys = length l.
Proof. intros H. apply mapM_Ok, Forall2_length' in H. auto. Qed.
