(** * C23: the original construction, both parties together.

    [run_days ... k] is PartyOne::Run observed after at most [k] days, with
    every request answered by party zero.  For all coins of both parties, all
    element hashes with 256 bits, all generated key pairs, and all groups of
    prime order at least 2 * 10^15. *)
Require Import String.
Require Import List Arith Lia ZArith Permutation Bool Znumtheory.
Import ListNotations.
From Verif Require Import Prelude TreeModel TreeSpec Coins Group ElGamalModel ElGamalProofs SyncProofs PropsSync WireModel AddModel AddSpec AddProofs AddRun PropsPaillier BigPrime AddStart PropsAdd OrigModel OrigRun.
Local Open Scope Z_scope.

Section Statements.
Variables (Gr : group) (hash : Z -> list bool) (H : Z -> Gr) (dec_string : Z -> string).
Variables (pk0 pk1 : pubkey Gr) (sk0 sk1 : Z).
Variables (csize : og_req Gr -> Z) (ssize : og_reply Gr -> Z).
(** each party has generated its own key pair *)
Definition og_setting : Prop :=
  (forall x, length (hash x) = 256%nat) /\ 2 * 10 ^ 15 <= ord Gr
  /\ (exists t0 t0', gen_key_pair t0 = Ok ((pk0, sk0), t0')) /\ (exists t1 t1', gen_key_pair t1 = Ok ((pk1, sk1), t1')).
(** the points of two different elements of the two parties differ *)
Definition no_collision (d0 d1 : list (list Z)) : Prop :=
  forall x y, In x (concat d0) -> In y (concat d1) -> x <> y -> H x <> H y.
Definition og_run := run_days oc_finished (og_day_run hash H dec_string pk0 pk1 sk0 sk1 csize ssize).
Definition og_initial (stash node : nat) (d0 d1 : list (list Z)) : og_client * og_server Gr :=
  (oc_new stash node (length d0) d1, og_new stash node (length d0) d0).

Theorem C23_original_intersection : forall stash node d0 d1 k coins,
  og_setting -> length d1 = length d0 -> proper (fun x => x) d0 -> proper (fun x => x) d1 -> no_collision d0 d1 ->
  ends_well (fun '((c, s), _) =>
      oc_day c = min k (length d0) /\ og_day s = min k (length d0) /\
      exists found, partly (common (fun x => x) (upto (og_day s) d0) (upto (og_day s) d1)) found (no_overflow (oc_tree c))
                    /\ og_inter s = map dec_string found)
    (og_run k (og_initial stash node d0 d1) coins).
Proof.
  intros stash node d0 d1 k tp (HH & BG & (t0 & t0' & E0) & (t1 & t1' & E1)) L P0 P1 NC.
  unfold og_run. apply gen_key_pair_Ok in E0 as (-> & K0), E1 as (-> & K1).
  assert (INJ : forall x y, In x ([] ++ concat d0) -> In y (concat d1) -> H x = H y -> x = y).
  { intros x y Hx Hy E. destruct (Z.eq_dec x y); auto. exfalso. eapply NC; eauto. }
  apply (og_from hash H dec_string sk0 sk1 csize ssize [] [] d0 d1); auto.
  - apply side_new. - apply mirrors_new.
Qed.
Corollary C23_exact : forall stash node d0 d1 k coins c s coins',
  og_setting -> length d1 = length d0 -> proper (fun x => x) d0 -> proper (fun x => x) d1 -> no_collision d0 d1 ->
  og_run k (og_initial stash node d0 d1) coins = Ok ((c, s), coins') -> no_overflow (oc_tree c) ->
  Permutation (og_inter s) (map dec_string (common (fun x => x) (upto (min k (length d0)) d0) (upto (min k (length d0)) d1))).
Proof.
  intros stash node d0 d1 k tp c s tp' ST L P0 P1 NC E NO. pose proof (C23_original_intersection stash node d0 d1 k tp ST L P0 P1 NC) as X.
  rewrite E in X. cbn [ends_well] in X. destruct X as (_ & DB & found & (mi & PM & M) & ->). rewrite (M NO), app_nil_r in PM. rewrite <- DB. apply Permutation_map; auto.
Qed.
End Statements.

(** ** Non-vacuity: runs in a group of order 2000001980000443, keys 4 and 9 *)
Section Examples.
Definition ex_H (x : Z) : exG := gpow gen (x + 1).
Definition ex_k (x : Z) : pubkey exG := mkPk gen (gpow gen x).
Example ex_og_setting : og_setting exG ex_bits (ex_k 4) (ex_k 9) 4 9.
Proof.
  split; [apply ex_bits_len|]. split; [vm_compute; discriminate|].
  split; [exists (const_tape 3)|exists (const_tape 8)]; eexists; reflexivity.
Qed.
Example ex_no_collision : no_collision exG ex_H ex_d0 ex_d1.
Proof.
  intros x y Hx Hy NE E. apply NE. assert (x + 1 = y + 1); [|lia].
  assert (R : forall z, In z (concat ex_d0) \/ In z (concat ex_d1) -> 0 <= z + 1 < ord exG).
  { intros z Hz. change (ord exG) with big_prime. cbn in Hz. unfold big_prime. lia. }
  apply (gen_pow_inj_small (Gr := exG)); auto.
Qed.
Definition og_result (r : outcome ((og_client * og_server exG) * tape)) : option (list string * nat * bool) :=
  match r with Ok ((c, s), _) => Some (og_inter s, og_day s, no_overflowb (oc_tree c)) | _ => None end.
Fixpoint strings_eqb (a b : list string) : bool :=
  match a, b with [], [] => true | x :: a', y :: b' => String.eqb x y && strings_eqb a' b' | _, _ => false end.
(** the whole run reports 5 on day one (tree), then 3 (map) and 6 (tree) *)
Example ex_C23 :
  match og_result (og_run exG ex_bits ex_H ex_string (ex_k 4) (ex_k 9) 4 9 zero_size zero_size 5 (og_initial exG 2 2 ex_d0 ex_d1) ex_tape) with
  | Some (out, day, ok) => strings_eqb out [ex_string 5; ex_string 3; ex_string 6] && (day =? 2)%nat && ok
  | None => false end = true.
Proof. vm_cast_no_check (eq_refl true). Qed.
(** losses in party one's tree do lose results; an element of party zero is
    recorded in the map too late then *)
Example ex_C23_loss :
  match og_result (og_run exG (fun _ => ex_bits 0) ex_H ex_string (ex_k 4) (ex_k 9) 4 9 zero_size zero_size 1 (og_initial exG 0 1 [[5; 4; 3]] [[3; 4; 5]]) ex_tape) with
  | Some (out, day, ok) => (length out <? 3)%nat && negb ok
  | None => false end = true.
Proof. vm_cast_no_check (eq_refl true). Qed.
(** without [no_collision] the result may be wrong: 3 is reported for 7 *)
Example ex_C23_collision :
  match og_result (og_run exG ex_bits (fun _ => ex_H 0) ex_string (ex_k 4) (ex_k 9) 4 9 zero_size zero_size 2 (og_initial exG 2 2 [[3]; []] [[]; [7]]) ex_tape) with
  | Some (out, day, ok) => strings_eqb out [ex_string 3] && ok
  | None => false end = true.
Proof. vm_cast_no_check (eq_refl true). Qed.
End Examples.

Print Assumptions C23_original_intersection.
Print Assumptions C23_exact.
