(** The addition-only protocols started from given trees.  [agree] relates the
    four trees of the two parties to what each of them holds; it is met by fresh
    trees ([agree_new]) and by trees prepared by the setup program (SetupProofs). *)
Require Import String.
Require Import List Arith Lia ZArith Permutation Bool Znumtheory.
Import ListNotations.
From Verif Require Import Prelude TreeModel TreeSpec TreeHistory Coins Group ElGamalModel ElGamalProofs BytesModel CipherModel PaillierModel PaillierProofs PropsPaillier WireModel SyncModel SyncSpec PropsSync AddModel AddSpec AddProofs AddRun.
Local Open Scope Z_scope.

Lemma pk_shares {Gr : group} sk0 sk1 pk : public_key_from_shares [@key_of Gr sk0; key_of sk1] = Ok pk -> pk = key_of (sk0 + sk1).
Proof. change [key_of sk0; key_of sk1] with (map (@key_of Gr) [sk0; sk1]). rewrite shares_sum. intros H; inversion H; auto. Qed.
Lemma map_id' {A} (l : list A) : map (fun x => x) l = l.
Proof. apply map_id. Qed.

Section Start.
Variables (Gr : group) (hash : Z -> list bool) (sk0 sk1 : Z).
Variables (csize : client_msg Gr -> Z) (ssize : server_msg Gr -> Z).
Hypothesis HH : forall x, length (hash x) = 256%nat.
Hypothesis BG : 2 * 10 ^ 15 <= ord Gr.
Notation pk := (@key_of Gr (sk0 + sk1)).
Notation RepP := (fun (a : Z) (c : ct Gr) => decrypt (sk0 + sk1) c = gpow gen a).
Notation RepE := (fun (a : Z * Z) (c : ct Gr * ct Gr) => decrypt (sk0 + sk1) (fst c) = gpow gen (fst a) /\ decrypt (sk0 + sk1) (snd c) = gpow gen (snd a)).

Lemma ca_start my0 other0 my1 other1 comm h0 h1 d0 d1 k tp :
  agree hash sk0 sk1 (fun x : Z => x) pad_elem RepP my0 other0 my1 other1 h0 h1 -> length d1 = length d0 ->
  proper (fun x => x) (h0 :: d0) -> proper (fun x => x) (h1 :: d1) ->
  ends_well (fun '((c, s), _) =>
      cl_day c = min k (length d0) /\ sv_day s = min k (length d0) /\
      exists found, partly (common (fun x => x) (h0 ++ upto (cl_day c) d0) (h1 ++ upto (cl_day c) d1)) (common (fun x => x) h0 h1 ++ found) (no_loss (cl_my c) (sv_my s))
        /\ cl_out c = Z.of_nat (length found))
    (run_days cl_finished (ca_day hash pk sk0 sk1 csize ssize) k (mkClient my0 other0 d0 0 (length d0) 0, mkServer my1 other1 d1 0 (length d0) comm []) tp).
Proof.
  intros AG L (ND0 & EL0 & R0) (ND1 & EL1 & R1). rewrite ?map_id' in *. cbn [concat] in *.
  pose proof (run_ind cl_finished (ca_day hash pk sk0 sk1 csize ssize) (ca_inv hash sk0 sk1 h1 d1 (length d0) h0 d0) (length d0)) as X.
  specialize (X (fun k st I => inv_finished _ _ _ _ _ _ _ _ _ _ _ _ _ k st I)).
  specialize (X (ca_step hash sk0 sk1 csize ssize HH BG h1 d1 (length d0) R1 ND1 EL1 h0 d0 R0 EL0) k 0%nat (mkClient my0 other0 d0 0 (length d0) 0, mkServer my1 other1 d1 0 (length d0) comm []) tp ltac:(lia)).
  match type of X with ?P -> _ => assert (I0 : P) end.
  { apply inv_new; [exact AG|exact I|]. intros ok. exists []. split; [apply partly_start|reflexivity]. }
  specialize (X I0). destruct (run_days _ _ k _ tp) as [[[c s] tp']| | |]; auto. cbn [ends_well Nat.add] in *.
  destruct X as [AG' DA DB TA TB VA VB AL OU]. cbn [fst snd] in *. split; auto. split; auto. rewrite DA. exact OU.
Qed.

Lemma psi_start (dec_string : Z -> string) my0 other0 my1 other1 comm h0 h1 d0 d1 k tp :
  agree hash sk0 sk1 (fun x : Z => x) pad_elem RepP my0 other0 my1 other1 h0 h1 -> length d1 = length d0 ->
  proper (fun x => x) (h0 :: d0) -> proper (fun x => x) (h1 :: d1) ->
  ends_well (fun '((c, s), _) =>
      cl_day c = min k (length d0) /\ sv_day s = min k (length d0) /\
      exists found, partly (common (fun x => x) (h0 ++ upto (cl_day c) d0) (h1 ++ upto (cl_day c) d1)) (common (fun x => x) h0 h1 ++ found) (no_loss (cl_my c) (sv_my s))
        /\ snd (cl_out c) = map (fun x => if mem x h0 then EmptyString else dec_string x) found)
    (run_days cl_finished (psi_day hash pk sk0 sk1 csize ssize dec_string) k (mkClient my0 other0 d0 0 (length d0) (([], []) : psi_out (Gr := Gr)), mkServer my1 other1 d1 0 (length d0) comm []) tp).
Proof.
  intros AG L (ND0 & EL0 & R0) (ND1 & EL1 & R1). rewrite ?map_id' in *. cbn [concat] in *.
  pose proof (run_ind cl_finished (psi_day hash pk sk0 sk1 csize ssize dec_string) (psi_inv hash sk0 sk1 h1 d1 (length d0) h0 d0 dec_string) (length d0)) as X.
  specialize (X (fun k st I => inv_finished _ _ _ _ _ _ _ _ _ _ _ _ _ k st I)).
  specialize (X (psi_step hash sk0 sk1 csize ssize HH BG h1 d1 (length d0) R1 ND1 EL1 h0 d0 dec_string R0 ND0 EL0) k 0%nat (mkClient my0 other0 d0 0 (length d0) (([], []) : psi_out (Gr := Gr)), mkServer my1 other1 d1 0 (length d0) comm []) tp ltac:(lia)).
  match type of X with ?P -> _ => assert (I0 : P) end.
  { apply inv_new; [exact AG|reflexivity|]. intros ok. exists []. split; [apply partly_start|reflexivity]. }
  specialize (X I0). destruct (run_days _ _ k _ tp) as [[[c s] tp']| | |]; auto. cbn [ends_well Nat.add] in *.
  destruct X as [AG' DA DB TA TB VA VB AL OU]. cbn [fst snd] in *. split; auto. split; auto. unfold psi_out in *. rewrite DA. exact OU.
Qed.

Lemma sum_start my0 other0 my1 other1 comm h0 h1 d0 d1 k tp :
  agree hash sk0 sk1 (@fst Z Z) pad_entry RepE my0 other0 my1 other1 h0 h1 -> length d1 = length d0 ->
  proper fst (h0 :: d0) -> proper (fun x => x) (h1 :: d1) ->
  Forall (fun a => 0 <= snd a) (h0 ++ concat d0) -> total (map snd (h0 ++ concat d0)) < ord Gr -> Z.of_nat (length d0) < 2 ^ 31 ->
  ends_well (fun '((c, s), _) =>
      cl_day c = min k (length d0) /\ sv_day s = min k (length d0) /\
      (exists found, partly (common fst (h0 ++ upto (cl_day c) d0) (h1 ++ upto (cl_day c) d1)) (common fst h0 h1 ++ found) (no_loss (cl_my c) (sv_my s))
        /\ fst (cl_out c) = Z.of_nat (length found) /\ snd (cl_out c) = total (map snd found))
      /\ (no_loss (cl_my c) (sv_my s) -> forall j, (j < min k (length d0))%nat ->
            total (map snd (common fst (h0 ++ upto (S j) d0) (h1 ++ upto (S j) d1))) - total (map snd (common fst (h0 ++ upto j d0) (h1 ++ upto j d1))) < 50000))
    (run_days cl_finished (sum_day hash pk sk0 sk1 csize ssize) k (mkClient my0 other0 d0 0 (length d0) (0, 0), mkServer my1 other1 d1 0 (length d0) comm []) tp).
Proof.
  intros AG L (ND0 & EL0 & R0) (ND1 & EL1 & R1) POS SM DR. rewrite ?map_id' in *. cbn [concat] in *.
  pose proof (run_ind cl_finished (sum_day hash pk sk0 sk1 csize ssize) (sum_inv hash sk0 sk1 h1 d1 (length d0) h0 d0) (length d0)) as X.
  specialize (X (fun k st I => inv_finished _ _ _ _ _ _ _ _ _ _ _ _ _ k st I)).
  specialize (X (sum_step hash sk0 sk1 csize ssize HH BG h1 d1 (length d0) R1 ND1 EL1 h0 d0 R0 EL0 POS SM DR) k 0%nat (mkClient my0 other0 d0 0 (length d0) (0, 0), mkServer my1 other1 d1 0 (length d0) comm []) tp ltac:(lia)).
  match type of X with ?P -> _ => assert (I0 : P) end.
  { apply inv_new; [exact AG|exact I|]. intros ok. exists []. split; [apply partly_start|]. cbn. split; auto. split; auto. split; [lia|]. intros _ j Hj. inversion Hj. }
  specialize (X I0). destruct (run_days _ _ k _ tp) as [[[c s] tp']| | |]; auto. cbn [ends_well Nat.add] in *.
  destruct X as [AG' DA DB TA TB VA VB AL OU]. cbn [fst snd] in *. split; auto. split; auto. rewrite DA. destruct OU as (found & O1 & O2 & O3 & O4 & O5). split; [eauto|]. intros NL j Hj. apply (O5 NL j Hj).
Qed.

Section SS.
Variables (p q n psk0 psk1 : Z) (pai0 pai1 : pub).
Hypothesis Pp : prime p.
Hypothesis Pq : prime q.
Hypothesis Npq : p <> q.
Hypothesis En : n = p * q.
Hypothesis S0 : 0 <= psk0.
Hypothesis S1 : 0 <= psk1.
Hypothesis DD1 : NumTheory.eqm n (psk0 + psk1) 1.
Hypothesis DD2 : ((p - 1) * (q - 1) | psk0 + psk1).
Hypothesis OB0 : thr_object n pai0.
Hypothesis OB1 : thr_object n pai1.
Notation RepS := (fun (a : Z * Z) (c : ct Gr * Z) => decrypt (sk0 + sk1) (fst c) = gpow gen (fst a) /\ 0 <= snd a < n /\ ct_of n (snd a) (snd c)).
Lemma ss_start my0 other0 my1 other1 comm h0 h1 d0 d1 k tp :
  agree hash sk0 sk1 (@fst Z Z) pad_entry RepS my0 other0 my1 other1 h0 h1 -> length d1 = length d0 ->
  proper fst (h0 :: d0) -> proper (fun x => x) (h1 :: d1) ->
  ends_well (fun '((c, s), _) =>
      cl_day c = min k (length d0) /\ sv_day s = min k (length d0) /\
      length (cl_out c) = length (sv_shares s) /\
      exists found, partly (common fst (h0 ++ upto (cl_day c) d0) (h1 ++ upto (cl_day c) d1)) (common fst h0 h1 ++ found) (no_loss (cl_my c) (sv_my s))
        /\ map (fun ab => (fst ab + snd ab) mod n) (combine (cl_out c) (sv_shares s)) = map snd found)
    (run_days cl_finished (ss_day hash pk sk0 sk1 csize ssize n pai0 pai1 psk0 psk1) k (mkClient my0 other0 d0 0 (length d0) [], mkServer my1 other1 d1 0 (length d0) comm []) tp).
Proof.
  intros AG L (ND0 & EL0 & R0) (ND1 & EL1 & R1). rewrite ?map_id' in *. cbn [concat] in *.
  pose proof (run_ind cl_finished (ss_day hash pk sk0 sk1 csize ssize n pai0 pai1 psk0 psk1) (ss_inv hash sk0 sk1 h1 d1 (length d0) n h0 d0) (length d0)) as X.
  specialize (X (fun k st I => inv_finished _ _ _ _ _ _ _ _ _ _ _ _ _ k st I)).
  specialize (X (ss_step hash sk0 sk1 csize ssize HH BG h1 d1 (length d0) R1 ND1 EL1 p q n psk0 psk1 pai0 pai1 Pp Pq Npq En S0 S1 DD1 DD2 OB0 OB1 h0 d0 R0 EL0) k 0%nat (mkClient my0 other0 d0 0 (length d0) [], mkServer my1 other1 d1 0 (length d0) comm []) tp ltac:(lia)).
  match type of X with ?P -> _ => assert (I0 : P) end.
  { apply inv_new; [exact AG|exact I|]. intros ok. split; [reflexivity|]. split; [|split; constructor]. exists []. split; [apply partly_start|reflexivity]. }
  specialize (X I0). destruct (run_days _ _ k _ tp) as [[[c s] tp']| | |]; auto. cbn [ends_well Nat.add] in *.
  destruct X as [AG' DA DB TA TB VA VB AL OU]. cbn [fst snd] in *. split; auto. split; auto. rewrite DA. destruct OU as (O1 & O2 & _). split; auto.
Qed.

End SS.
End Start.
