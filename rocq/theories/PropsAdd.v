(** * C16-C19: the addition-only protocols, both parties together.

    [run_days ... k] is PartyZero::Run observed after at most [k] days, with
    every request answered by party one (Connection::Send).  Theorems are for
    all coins of both parties, all hash functions with 256 bits, all key
    shares, and all groups of prime order at least 2 * 10^15. *)
Require Import String.
Require Import List Arith Lia ZArith Permutation Bool Znumtheory.
Import ListNotations.
From Verif Require Import Prelude TreeModel TreeSpec TreeHistory Coins Group ElGamalModel ElGamalProofs BytesModel CipherModel PaillierModel PaillierProofs PropsPaillier WireModel SyncModel SyncSpec PropsSync AddModel AddSpec AddProofs AddRun AddStart BigPrime.
Local Open Scope Z_scope.

Section Statements.
Variables (Gr : group) (hash : Z -> list bool) (pk : pubkey Gr) (sk0 sk1 : Z).
Variables (csize : client_msg Gr -> Z) (ssize : server_msg Gr -> Z).   (* message sizes *)
(** the two parties of one functionality, with their key shares *)
Definition setting : Prop :=
  (forall x, length (hash x) = 256%nat) /\ 2 * 10 ^ 15 <= ord Gr
  /\ public_key_from_shares [key_of sk0; key_of sk1] = Ok pk.
Definition initial {A E R} (stash node : nat) (d0 : list (list A)) (d1 : list (list Z)) (out : R) : client Gr A R * server E :=
  (client_new stash node (length d0) d0 out, server_new stash node (length d0) d1).

(** C16.  After any number of days: an error, or the count of common elements. *)
Theorem C16_cardinality : forall stash node d0 d1 k coins,
  setting -> length d1 = length d0 -> proper (fun x => x) d0 -> proper (fun x => x) d1 ->
  ends_well (fun '((c, s), _) =>
      cl_day c = min k (length d0) /\ sv_day s = min k (length d0) /\
      exists found, partly (common (fun x => x) (upto (cl_day c) d0) (upto (cl_day c) d1)) found (no_loss (cl_my c) (sv_my s))
                    /\ cl_out c = Z.of_nat (length found))
    (run_days cl_finished (ca_day hash pk sk0 sk1 csize ssize) k (initial stash node d0 d1 0) coins).
Proof.
  intros stash node d0 d1 k tp (HH & BG & EP) L P0 P1. apply pk_shares in EP. subst pk.
  exact (ca_start Gr hash sk0 sk1 csize ssize HH BG _ _ _ _ (repeat 0 (length d0)) [] [] d0 d1 k tp (agree_new _ _ _ _ _ _ stash node) L P0 P1).
Qed.
(** in particular, without losses the count is right *)
Corollary C16_exact : forall stash node d0 d1 k coins c s coins',
  setting -> length d1 = length d0 -> proper (fun x => x) d0 -> proper (fun x => x) d1 ->
  run_days cl_finished (ca_day hash pk sk0 sk1 csize ssize) k (initial stash node d0 d1 0) coins = Ok ((c, s), coins') ->
  no_loss (cl_my c) (sv_my s) ->
  cl_out c = Z.of_nat (length (common (fun x => x) (upto (min k (length d0)) d0) (upto (min k (length d0)) d1))).
Proof.
  intros stash node d0 d1 k tp c s tp' ST L P0 P1 E NL. pose proof (C16_cardinality stash node d0 d1 k tp ST L P0 P1) as X.
  rewrite E in X. cbn [ends_well] in X. destruct X as (DA & _ & found & (mi & PM & M) & O). rewrite (M NL), app_nil_r in PM. rewrite O, <- DA. f_equal. apply Permutation_length; auto.
Qed.

(** C17.  PSI: the list of decimal strings of the common elements, in some order. *)
Theorem C17_intersection : forall (dec_string : Z -> string) stash node d0 d1 k coins,
  setting -> length d1 = length d0 -> proper (fun x => x) d0 -> proper (fun x => x) d1 ->
  ends_well (fun '((c, s), _) =>
      cl_day c = min k (length d0) /\ sv_day s = min k (length d0) /\
      exists found, partly (common (fun x => x) (upto (cl_day c) d0) (upto (cl_day c) d1)) found (no_loss (cl_my c) (sv_my s))
                    /\ snd (cl_out c) = map dec_string found)
    (run_days cl_finished (psi_day hash pk sk0 sk1 csize ssize dec_string) k (initial stash node d0 d1 (([], []) : psi_out (Gr := Gr))) coins).
Proof.
  intros dec_string stash node d0 d1 k tp (HH & BG & EP) L P0 P1. apply pk_shares in EP. subst pk.
  exact (psi_start Gr hash sk0 sk1 csize ssize HH BG dec_string _ _ _ _ (repeat 0 (length d0)) [] [] d0 d1 k tp (agree_new _ _ _ _ _ _ stash node) L P0 P1).
Qed.
(** C17.  A batch of party zero containing the element 0 always makes the day
    fail: g^0 has no byte representation. *)
Theorem C17_zero_element_fails : forall (dec_string : Z -> string) (c : client Gr Z (psi_out (Gr := Gr))) (s : server (ct Gr)) coins,
  In 0 (nth (cl_day c) (cl_data c) []) ->
  is_ok (psi_day hash pk sk0 sk1 csize ssize dec_string (c, s) coins) = false.
Proof.
  intros dec_string c s tp HI. unfold psi_day, today. set (es := nth _ _ _) in *. clearbody es.
  unfold bind at 1. unfold psi_gen1, generate_message_i.
  destruct (send_update _ _ _ _ es (cl_my c) tp) as [my' o]. unfold bind at 1. destruct o as [[u tp1]| | |]; auto.
  unfold bind at 1.
  assert (F : forall es tp, In 0 es -> is_ok (mapM (candidates_i hash pk (fun x : Z => x) (psi_first pk) ser_elgamal (cl_other c)) es tp) = false).
  { clear. induction es as [|x es IH]; intros tp HI; [inversion HI|]. cbn [mapM]. unfold bind at 1. unfold candidates_i at 1. unfold bind at 1.
    destruct (Z.eq_dec x 0) as [->|NE].
    - unfold psi_first at 1. unfold bind at 1. unfold lift, point_key. rewrite gpow_0, geqb_refl. reflexivity.
    - destruct HI as [HI|HI]; [congruence|]. destruct (psi_first pk x tp) as [[xp tp1]| | |]; auto.
      destruct (mapM _ (get_path (hash x) (cl_other c)) tp1) as [[l tp2]| | |]; auto.
      unfold bind. specialize (IH tp2 HI). destruct (mapM _ es tp2) as [[? ?]| | |]; auto. }
  specialize (F es tp1 HI). destruct (mapM _ es tp1) as [[? ?]| | |]; auto. discriminate.
Qed.

(** C18.  SUM: number of common elements and the sum of their values. *)
Theorem C18_sum : forall stash node d0 d1 k coins,
  setting -> length d1 = length d0 -> proper fst d0 -> proper (fun x => x) d1 ->
  Forall (fun a => 0 <= snd a) (concat d0) -> total (map snd (concat d0)) < ord Gr -> Z.of_nat (length d0) < 2 ^ 31 ->
  ends_well (fun '((c, s), _) =>
      cl_day c = min k (length d0) /\ sv_day s = min k (length d0) /\
      (exists found, partly (common fst (upto (cl_day c) d0) (upto (cl_day c) d1)) found (no_loss (cl_my c) (sv_my s))
                    /\ fst (cl_out c) = Z.of_nat (length found) /\ snd (cl_out c) = total (map snd found))
      (* no day's increase of the sum reached the limit *)
      /\ (no_loss (cl_my c) (sv_my s) -> forall j, (j < min k (length d0))%nat ->
            total (map snd (common fst (upto (S j) d0) (upto (S j) d1))) - total (map snd (common fst (upto j d0) (upto j d1))) < 50000))
    (run_days cl_finished (sum_day hash pk sk0 sk1 csize ssize) k (initial stash node d0 d1 (0, 0)) coins).
Proof.
  intros stash node d0 d1 k tp (HH & BG & EP) L P0 P1 POS SM DR. apply pk_shares in EP. subst pk.
  exact (sum_start Gr hash sk0 sk1 csize ssize HH BG _ _ _ _ (repeat 0 (length d0)) [] [] d0 d1 k tp (agree_new _ _ _ _ _ _ stash node) L P0 P1 POS SM DR).
Qed.
(** C18.  A day on which the values joining the intersection sum up to 50000
    or more does not complete. *)
Corollary C18_too_large : forall stash node d0 d1 k coins j c s coins',
  setting -> length d1 = length d0 -> proper fst d0 -> proper (fun x => x) d1 ->
  Forall (fun a => 0 <= snd a) (concat d0) -> total (map snd (concat d0)) < ord Gr -> Z.of_nat (length d0) < 2 ^ 31 ->
  (j < min k (length d0))%nat ->
  50000 <= total (map snd (common fst (upto (S j) d0) (upto (S j) d1))) - total (map snd (common fst (upto j d0) (upto j d1))) ->
  run_days cl_finished (sum_day hash pk sk0 sk1 csize ssize) k (initial stash node d0 d1 (0, 0)) coins = Ok ((c, s), coins') ->
  ~ no_loss (cl_my c) (sv_my s).
Proof.
  intros stash node d0 d1 k tp j c s tp' ST L P0 P1 POS SM DR Hj TL E NL. pose proof (C18_sum stash node d0 d1 k tp ST L P0 P1 POS SM DR) as X.
  rewrite E in X. cbn [ends_well] in X. destruct X as (_ & _ & _ & X). specialize (X NL j Hj). lia.
Qed.

(** C19.  Secret shares: keys from distinct primes, the parties' Paillier
    objects for the modulus, data loaded by LoadData (each value is the element
    itself). *)
Theorem C19_shares : forall p q bits kt n psk0 psk1 kt' pai0 pai1 stash node raw d1 k coins,
  setting -> prime p -> prime q -> p <> q -> threshold_keygen p q bits kt = Ok ((n, psk0, psk1), kt') ->
  thr_object n pai0 -> thr_object n pai1 ->
  length d1 = length raw -> proper fst raw -> proper (fun x => x) d1 ->
  let d0 := map (map ss_payload) raw in
  ends_well (fun '((c, s), _) =>
      cl_day c = min k (length raw) /\ sv_day s = min k (length raw) /\
      length (cl_out c) = length (sv_shares s) /\
      exists found, partly (map fst (common fst (upto (cl_day c) raw) (upto (cl_day c) d1))) found (no_loss (cl_my c) (sv_my s))
                    /\ map (fun ab => (fst ab + snd ab) mod n) (combine (cl_out c) (sv_shares s)) = found)
    (run_days cl_finished (ss_day hash pk sk0 sk1 csize ssize n pai0 pai1 psk0 psk1) k (initial stash node d0 d1 []) coins).
Proof.
  intros p q bits kt n psk0 psk1 kt' pai0 pai1 stash node raw d1 k tp (HH & BG & EP) Pp Pq NE KG OB0 OB1 L P0 P1 d0.
  apply pk_shares in EP. subst pk.
  assert (1 < p) by (destruct Pp; auto). assert (1 < q) by (destruct Pq; auto).
  apply keygen_spec in KG as (En & S1 & S2 & D1 & D2); auto.
  assert (EC : concat d0 = map ss_payload (concat raw)) by (unfold d0; rewrite concat_map; auto).
  assert (LD : length raw = length d0) by (unfold d0; rewrite map_length; auto). rewrite LD in *.
  assert (P0' : proper fst d0).
  { destruct P0 as (ND0 & EL0 & R0). unfold proper. rewrite EC, map_map, map_length. split; [exact ND0|]. split; auto.
    apply Forall_map. eapply Forall_impl; [|exact EL0]. cbn. auto. }
  pose proof (ss_start Gr hash sk0 sk1 csize ssize HH BG p q n psk0 psk1 pai0 pai1 Pp Pq NE En S1 (Z.lt_le_incl _ _ S2) D1 D2 OB0 OB1
    _ _ _ _ (repeat 0 (length d0)) [] [] d0 d1 k tp (agree_new _ _ _ _ _ _ stash node) L P0' P1) as X.
  fold (initial (E := ct Gr * Z) stash node d0 d1 (@nil Z)) in X. cbn [app] in X.
  change (run_days cl_finished (ss_day hash (key_of (sk0 + sk1)) sk0 sk1 csize ssize n pai0 pai1 psk0 psk1) k (initial stash node d0 d1 []) tp) with
    (run_days cl_finished (ss_day hash (key_of (sk0 + sk1)) sk0 sk1 csize ssize n pai0 pai1 psk0 psk1) k
      (mkClient (tree_new stash node) (tree_new stash node) d0 0 (length d0) [], mkServer (tree_new stash node) (tree_new stash node) d1 0 (length d0) (repeat 0 (length d0)) []) tp).
  destruct (run_days _ _ k _ tp) as [[[c s] tp']| | |]; auto. cbn [ends_well] in *.
  destruct X as (DA & DB & O1 & found & (mi & PM & MI) & O2). split; auto. split; auto. split; auto. exists (map snd found). split; [|exact O2].
  exists (map snd mi). split; [|intros NL; rewrite (MI NL); auto]. change (common fst [] [] ++ found) with found in PM. rewrite <- map_app, PM.
  assert (CE : forall m, common fst (upto m d0) (upto m d1) = map ss_payload (common fst (upto m raw) (upto m d1))).
  { intros m. unfold upto at 1, d0. rewrite firstn_map, <- concat_map. fold (upto m raw). unfold common. rewrite filter_map. reflexivity. }
  rewrite CE, map_map. cbn [ss_payload snd]. reflexivity.
Qed.
End Statements.

(** ** Non-vacuity: complete two-day runs in a group of order 2000001980000443 *)
Section Examples.
Definition exG : group := zmod_group big_prime big_prime_prime.
Definition ex_pk : pubkey exG := mkPk gen (gop (gpow gen 4) (gpow gen 9)).
Definition no_overflowb {A} (t : tree A) : bool := (length (contents t) =? t_actual t)%nat.
Example ex_setting : setting exG ex_bits ex_pk 4 9.
Proof. split; [apply ex_bits_len|]. split; [vm_compute; discriminate|]. reflexivity. Qed.
Definition ex_d0 : list (list Z) := [[3; 8; 5]; [11; 6]].
Definition ex_d1 : list (list Z) := [[7; 5]; [3; 6; 9]].
Definition ex_tape : tape := fun i => let z := Z.of_nat i in 7 * z * z + 3 * z + 2.
Definition zero_size {T} (_ : T) : Z := 0.
Example ex_proper : proper (fun x => x) ex_d0 /\ proper (fun x => x) ex_d1.
Proof.
  assert (G : forall l : list Z, forallb (fun x => (0 <=? x) && (x <? 10 ^ 15)) l = true -> Forall element l).
  { intros l H. apply Forall_forall. rewrite forallb_forall in H. intros x Hx. specialize (H x Hx). unfold element. lia. }
  split; (split; [cbn; repeat constructor; cbn; intuition lia|split; [apply G; vm_compute; reflexivity|vm_compute; reflexivity]]).
Qed.
(** sorted list of the results *)
Fixpoint ins_sorted (x : Z) (l : list Z) : list Z := match l with [] => [x] | y :: r => if x <=? y then x :: l else y :: ins_sorted x r end.
Definition sorted (l : list Z) : list Z := fold_right ins_sorted [] l.
Definition list_eqb (a b : list Z) : bool := (length a =? length b)%nat && forallb (fun p => fst p =? snd p) (combine a b).
(** C16: the whole run succeeds without losses and reports 3 = |{3, 5, 6}| *)
Example ex_C16 :
  match run_days cl_finished (ca_day ex_bits ex_pk 4 9 zero_size zero_size) 5 (initial exG 2 2 ex_d0 ex_d1 0) ex_tape with
  | Ok ((c, s), _) => (cl_out c =? 3) && (cl_day c =? 2)%nat && no_overflowb (cl_my c) && no_overflowb (sv_my s)
  | _ => false end = true.
Proof. vm_cast_no_check (eq_refl true). Qed.
(** after one day: 1 = |{5}| *)
Example ex_C16_day1 :
  match run_days cl_finished (ca_day ex_bits ex_pk 4 9 zero_size zero_size) 1 (initial exG 2 2 ex_d0 ex_d1 0) ex_tape with
  | Ok ((c, s), _) => (cl_out c =? 1) && (cl_day c =? 1)%nat
  | _ => false end = true.
Proof. vm_cast_no_check (eq_refl true). Qed.
(** an overflow really loses a result: no stash, one entry per node *)
Example ex_C16_loss :
  match run_days cl_finished (ca_day (fun _ => ex_bits 0) ex_pk 4 9 zero_size zero_size) 1 (initial exG 0 1 [[3; 4; 5]] [[5; 4; 3]] 0) ex_tape with
  | Ok ((c, s), _) => (cl_out c <? 3) && negb (no_overflowb (cl_my c))
  | _ => false end = true.
Proof. vm_cast_no_check (eq_refl true). Qed.
(** C17: strings 5, 3, 6 in some order *)
Definition ex_string (x : Z) : string := String (Ascii.ascii_of_nat (48 + Z.to_nat x)) EmptyString.
Example ex_C17 :
  match run_days cl_finished (psi_day ex_bits ex_pk 4 9 zero_size zero_size ex_string) 5 (initial exG 2 2 ex_d0 ex_d1 (([], []) : psi_out (Gr := exG))) ex_tape with
  | Ok ((c, s), _) => let out := snd (cl_out c) in (length out =? 3)%nat
      && forallb (fun x => existsb (String.eqb (ex_string x)) out) [3; 5; 6]
  | _ => false end = true.
Proof. vm_cast_no_check (eq_refl true). Qed.
(** C18: three common elements with values 10, 20000, 7; 50000 in one day fails *)
Definition ex_sum0 (v : Z) : list (list (Z * Z)) := [[(3, 10); (8, 1); (5, v)]; [(11, 2); (6, 7)]].
Example ex_C18 :
  match run_days cl_finished (sum_day ex_bits ex_pk 4 9 zero_size zero_size) 5 (initial exG 2 2 (ex_sum0 20000) ex_d1 (0, 0)) ex_tape with
  | Ok ((c, s), _) => (fst (cl_out c) =? 3) && (snd (cl_out c) =? 20017) && no_overflowb (cl_my c) && no_overflowb (sv_my s)
  | _ => false end = true.
Proof. vm_cast_no_check (eq_refl true). Qed.
Example ex_C18_limit :
  match run_days cl_finished (sum_day ex_bits ex_pk 4 9 zero_size zero_size) 5 (initial exG 2 2 (ex_sum0 50000) ex_d1 (0, 0)) ex_tape with
  | Err InvalidArgument => true | _ => false end = true.
Proof. vm_cast_no_check (eq_refl true). Qed.
(** C19: modulus 15 *)
Definition ex_ss_run : bool :=
  match threshold_keygen 3 5 4 (const_tape 2), pub_new false 5 15 1 (const_tape 7), pub_new false 5 15 1 (const_tape 2) with
  | Ok ((n, k0, k1), _), Some (Ok (P0, _)), Some (Ok (P1, _)) =>
    match run_days cl_finished (ss_day ex_bits ex_pk 4 9 zero_size zero_size n P0 P1 k0 k1) 5
            (initial exG 2 2 (map (map ss_payload) (ex_sum0 1)) ex_d1 []) ex_tape with
    | Ok ((c, s), _) => list_eqb (sorted (map (fun ab => (fst ab + snd ab) mod n) (combine (cl_out c) (sv_shares s)))) [3; 5; 6]
        && (length (cl_out c) =? 3)%nat && no_overflowb (cl_my c) && no_overflowb (sv_my s)
    | _ => false end
  | _, _, _ => false end.
Example ex_C19 : ex_ss_run = true.
Proof. vm_cast_no_check (eq_refl true). Qed.
End Examples.

Print Assumptions C16_cardinality.
Print Assumptions C16_exact.
Print Assumptions C17_intersection.
Print Assumptions C17_zero_element_fails.
Print Assumptions C18_sum.
Print Assumptions C18_too_large.
Print Assumptions C19_shares.
