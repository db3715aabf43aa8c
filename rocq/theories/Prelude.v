(** * Prelude: outcomes of C++ calls and a few list facts.

    [outcome] is the result of a modelled C++ call:
    - [Ok a]      : the call returned normally (absl [OkStatus] / value);
    - [Err c]     : the call returned a non-OK absl status with code [c];
    - [Abort]     : the process terminates (failed CHECK, uncaught exception,
                    or a failed [assert] in a build where asserts are enabled);
    - [UB]        : undefined behaviour (out-of-bounds access, ...). *)
Require Import List Arith Lia ZArith Permutation Bool.
Import ListNotations.

(** absl status codes used by the code base (upsi/util/status.inc:1-36). *)
Global Arguments Nat.div _ _ : simpl never.
Global Arguments Nat.modulo _ _ : simpl never.
Global Arguments Nat.pow _ _ : simpl never.

Inductive code := InvalidArgument | Internal | NotFound.

Inductive outcome (A : Type) : Type :=
| Ok (a : A)
| Err (c : code)
| Abort
| UB.
Arguments Ok {A} a.
Arguments Err {A} c.
Arguments Abort {A}.
Arguments UB {A}.

(** ASSIGN_OR_RETURN / RETURN_IF_ERROR (upsi/util/status_macros.h:20-66). *)
Definition obind {A B} (m : outcome A) (f : A -> outcome B) : outcome B :=
  match m with
  | Ok a => f a
  | Err c => Err c
  | Abort => Abort
  | UB => UB
  end.

Declare Scope outcome_scope.
Delimit Scope outcome_scope with outcome.
Notation "'let!' x ':=' m 'in' k" := (obind m (fun x => k))
  (at level 200, x pattern, m at level 100, k at level 200) : outcome_scope.
Open Scope outcome_scope.

Lemma obind_Ok {A B} (m : outcome A) (f : A -> outcome B) b :
  obind m f = Ok b -> exists a, m = Ok a /\ f a = Ok b.
Proof. destruct m; simpl; intros; try discriminate; eauto. Qed.

(** [map] for functions that may fail: a [for] loop whose body contains
    ASSIGN_OR_RETURN. *)
Fixpoint omap {A B} (f : A -> outcome B) (l : list A) : outcome (list B) :=
  match l with
  | [] => Ok []
  | x :: r => let! y := f x in let! ys := omap f r in Ok (y :: ys)
  end.

Lemma omap_Ok_Forall2 {A B} (f : A -> outcome B) l l' :
  omap f l = Ok l' <-> Forall2 (fun a b => f a = Ok b) l l'.
Proof.
  revert l'; induction l as [|x l IH]; intros l'; simpl.
  - split; intros H. { inversion H; constructor. } { inversion H; reflexivity. }
  - split; intros H.
    + apply obind_Ok in H as (y & Hy & H). apply obind_Ok in H as (ys & Hys & H).
      inversion H; subst. constructor; auto. apply IH; auto.
    + inversion H; subst. rewrite H2. simpl.
      rewrite (proj2 (IH l'0) H4). reflexivity.
Qed.

(** ** Lists as arrays *)
Section Arrays.
  Context {A : Type}.

  (** [v[i] = x] on a vector; out-of-range positions leave the list unchanged
      (callers establish that positions are in range). *)
  Fixpoint set_nth (i : nat) (x : A) (l : list A) : list A :=
    match l, i with
    | [], _ => []
    | _ :: r, O => x :: r
    | y :: r, S j => y :: set_nth j x r
    end.

  Lemma set_nth_length i x l : length (set_nth i x l) = length l.
  Proof. revert i; induction l; intros [|i]; simpl; auto. Qed.

  Lemma nth_set_nth_eq i x l d : i < length l -> nth i (set_nth i x l) d = x.
  Proof. revert i; induction l; intros [|i]; simpl; intros; try lia; auto.
    apply IHl; lia. Qed.

  Lemma nth_set_nth_neq i j x l d : i <> j -> nth j (set_nth i x l) d = nth j l d.
  Proof. revert i j; induction l; intros [|i] [|j]; simpl; intros; try lia; auto. Qed.

  Lemma set_nth_split i x l : i < length l ->
    exists l1 y l2, l = l1 ++ y :: l2 /\ length l1 = i /\ set_nth i x l = l1 ++ x :: l2.
  Proof.
    revert i; induction l as [|y l IH]; intros [|i] H; simpl in *; try lia.
    - exists [], y, l. auto.
    - destruct (IH i) as (l1 & z & l2 & E & L & E'); [lia|].
      exists (y :: l1), z, l2. simpl. rewrite E', <- E, L. auto.
  Qed.
End Arrays.

Lemma nth_ext_iff {A} (l l' : list A) d :
  length l = length l' -> (forall i, i < length l -> nth i l d = nth i l' d) -> l = l'.
Proof. intros. apply nth_ext with d d; auto. Qed.

Lemma Forall2_length' {A B} (R : A -> B -> Prop) l l' : Forall2 R l l' -> length l = length l'.
Proof. induction 1; simpl; auto. Qed.

Lemma Forall2_nth {A B} (R : A -> B -> Prop) l l' d d' :
  (length l = length l' /\ forall i, i < length l -> R (nth i l d) (nth i l' d')) <-> Forall2 R l l'.
Proof.
  split.
  - revert l'; induction l; intros [|b l'] [H1 H2]; simpl in *; try lia; constructor.
    + apply (H2 0); lia.
    + apply IHl; split; [lia|]. intros i Hi. apply (H2 (S i)); lia.
  - intros H. split; [eapply Forall2_length'; eauto|].
    induction H; simpl; intros i Hi; [lia|]. destruct i; auto. apply IHForall2; lia.
Qed.

Lemma nth_repeat_lt {A} (a d : A) m i : i < m -> nth i (repeat a m) d = a.
Proof. revert i; induction m; intros [|i] H; simpl; auto; try lia. apply IHm; lia. Qed.

Lemma filter_perm {A} (p : A -> bool) l l' : Permutation l l' -> Permutation (filter p l) (filter p l').
Proof.
  induction 1; simpl; auto.
  - destruct (p x); auto.
  - destruct (p x), (p y); auto. apply perm_swap.
  - etransitivity; eauto.
Qed.
