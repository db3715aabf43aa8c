(** The four kinds of encrypted trees meet the requirements of SyncProofs. *)
Require Import List Arith Lia ZArith Permutation Bool Znumtheory.
Import ListNotations.
From Verif Require Import Prelude TreeModel TreeSpec TreeHistory TreeDelModel TreeDelProofs Coins Group ElGamalModel ElGamalProofs BytesModel BytesProofs CipherModel CipherProofs PaillierModel PaillierProofs PropsPaillier WireModel WireProofs PropsWire SyncModel SyncSpec SyncProofs.

Lemma ins_like_insert {A} (hash : A -> list bool) : (forall x, length (hash x) = 256%nat) -> ins_like hash (insert hash).
Proof.
  intros HH t n b t' out R V IR E. destruct (reach_step hash t n b t' out HH R V IR E) as (H1 & H2 & H3 & H4 & H5 & _ & H7 & H8 & _).
  auto 10.
Qed.
Lemma ins_like_insert_del (hash : Z -> list bool) : (forall x, length (hash x) = 256%nat) -> ins_like (hash_entry hash) (insert_del hash).
Proof.
  intros HH t n b t' out R V IR E. destruct (reach_step_del hash t n b t' out HH R V IR E) as (H1 & H2 & H3 & H4 & H5 & _ & H7 & H8 & _).
  auto 10.
Qed.
Local Open Scope Z_scope.

Section Kinds.
Context {Gr : group}.
Lemma enc_plain_ok x a tp : match enc_plain (key_of x) a tp with Ok (c, _) => decrypt x c = gpow (@gen Gr) a | Err _ => True | _ => False end.
Proof.
  unfold enc_plain. destruct (@encrypt_total Gr (key_of x) a tp) as (c & t' & E). rewrite E. eapply encrypt_Ok; eauto.
Qed.
Lemma ser_ct_returns (c : ct Gr) : match ser_ct c with Ok w => deser_ct w = Ok c | Err _ => True | _ => False end.
Proof.
  destruct (ser_ct c) as [w| | |] eqn:E; auto.
  - apply ser_ct_inv in E as (F & ->). apply deser_ct_iff. auto.
  - unfold ser_ct, point_to_bytes in E. destruct (geqb (ct_u c) gid), (geqb (ct_e c) gid); discriminate.
  - unfold ser_ct, point_to_bytes in E. destruct (geqb (ct_u c) gid), (geqb (ct_e c) gid); discriminate.
Qed.
Lemma ser_plain_ok (c : ct Gr) : match ser_plain c with Ok w => deser_plain w = Ok c | Err _ => True | _ => False end.
Proof. unfold ser_plain. pose proof (ser_ct_returns c) as H. destruct (ser_ct c); cbn; auto. Qed.
Lemma enc_elgamal_ok x a tp : match enc_elgamal (key_of x) a tp with
  | Ok (c, _) => decrypt x (fst c) = gpow (@gen Gr) (fst a) /\ decrypt x (snd c) = gpow gen (snd a) | Err _ => True | _ => False end.
Proof.
  unfold enc_elgamal, bind, ret. destruct (@encrypt_total Gr (key_of x) (fst a) tp) as (c & t' & E). rewrite E.
  destruct (@encrypt_total Gr (key_of x) (snd a) t') as (c2 & t2 & E2). rewrite E2. cbn.
  split; eapply encrypt_Ok; eauto.
Qed.
Lemma ser_elgamal_ok (c : ct Gr * ct Gr) : match ser_elgamal c with Ok w => deser_elgamal w = Ok c | Err _ => True | _ => False end.
Proof.
  unfold ser_elgamal. pose proof (ser_ct_returns (fst c)) as H. destruct (ser_ct (fst c)); cbn [obind]; auto.
  pose proof (ser_ct_returns (snd c)) as H2. destruct (ser_ct (snd c)); cbn [obind]; auto. cbn. rewrite H. cbn. rewrite H2. destruct c; auto.
Qed.
Lemma enc_paillier_ok x n P a tp : 1 < n -> thr_object n P -> match enc_paillier (key_of x) (pub_encrypt P) a tp with
  | Ok (c, _) => decrypt x (fst c) = gpow (@gen Gr) (fst a) /\ 0 <= snd a < n /\ ct_of n (snd a) (snd c) | Err _ => True | _ => False end.
Proof.
  intros Hn O. unfold enc_paillier, bind, ret. destruct (@encrypt_total Gr (key_of x) (fst a) tp) as (c & t' & E). rewrite E.
  destruct (thr_object_facts _ _ Hn O) as (En & Es & Ep & Em & Ec & Ef).
  destruct (pub_encrypt_spec P n Hn En Es Ep Em Ec Ef (snd a) t') as (B1 & B2).
  destruct (Z.lt_ge_cases (snd a) 0). { rewrite B1 by lia. auto. }
  destruct (Z.lt_ge_cases (snd a) n). 2:{ rewrite B1 by lia. auto. }
  destruct B2 as (p & t2 & E2 & C); [lia|]. rewrite E2. cbn. split; [eapply encrypt_Ok; eauto|]. auto.
Qed.
Lemma ser_paillier_ok (c : ct Gr * Z) : 0 <= snd c -> match ser_paillier c with Ok w => deser_paillier w = Ok c | Err _ => True | _ => False end.
Proof.
  intros P. unfold ser_paillier. pose proof (ser_ct_returns (fst c)) as H. destruct (ser_ct (fst c)); cbn [obind]; auto.
  destruct (to_bytes_of _ P) as (b & E & E'). rewrite E. cbn. rewrite H. cbn. rewrite E'. destruct c; auto.
Qed.
(** the encryption of one entry of a deletion tree *)
Lemma priv_enc_ok V p q fl m tp : priv_new fl p q 1 = Ok V ->
  match priv_encrypt V m tp with Ok (c, _) => 0 <= m < p * q /\ ct_of (p * q) m c | Err _ => ~ 0 <= m < p * q | _ => False end.
Proof.
  intros HV. apply priv_new_spec in HV as (Pp & Pq & N & _ & V1 & V2 & Cp & Cq & Ce & Cd).
  destruct (priv_encrypt_spec V p q Pp Pq V1 Cp Cq Ce Cd m tp) as (B1 & B2).
  destruct (Z.lt_ge_cases m 0). { rewrite B1 by lia. lia. }
  destruct (Z.lt_ge_cases m (p * q)). 2:{ rewrite B1 by lia. lia. }
  destruct B2 as (c & t2 & E2 & C); [lia|]. rewrite E2. auto.
Qed.
Lemma priv_dec_ok V p q fl m c : priv_new fl p q 1 = Ok V -> ct_of (p * q) m c -> priv_decrypt V c = Ok (m mod (p * q)).
Proof.
  intros HV. apply priv_new_spec in HV as (Pp & Pq & N & _ & V1 & V2 & Cp & Cq & Ce & Cd). intros C.
  apply priv_decrypt_spec; auto.
Qed.
Definition del_rep (n : Z) (a c : Z * Z) : Prop :=
  0 <= fst a < n /\ ct_of n (fst a) (fst c) /\ ct_of n (snd a mod n) (snd c).
Lemma priv_new_pos fl p q V : priv_new fl p q 1 = Ok V -> 1 < p * q.
Proof.
  intros HV. apply priv_new_spec in HV as (Pp & Pq & _). assert (1 < p) by (destruct Pp; auto). assert (1 < q) by (destruct Pq; auto). nia.
Qed.
Lemma enc_deletion_ok V p q fl a tp : priv_new fl p q 1 = Ok V ->
  match enc_deletion (p * q) (priv_encrypt V) a tp with
  | Ok (c, _) => del_rep (p * q) a c
  | Err _ => ~ (0 <= fst a < p * q /\ - (p * q) <= snd a < p * q) | _ => False end.
Proof.
  intros HV. pose proof (priv_new_pos _ _ _ _ HV) as Hn. unfold enc_deletion, bind, ret, del_rep.
  pose proof (priv_enc_ok V p q fl (fst a) tp HV) as H. destruct (priv_encrypt V (fst a) tp) as [[c t']| | |]; auto; [|lia].
  set (m := if snd a <? 0 then _ else _).
  pose proof (priv_enc_ok V p q fl m t' HV) as H2. destruct (priv_encrypt V m t') as [[c2 t2]| | |]; auto.
  - cbn. destruct H, H2 as (H2 & H3). split; auto. split; auto.
    replace (snd a mod (p * q)) with m; auto. unfold m in *. destruct (Z.ltb_spec (snd a) 0).
    + rewrite <- (Z_mod_plus_full _ 1). rewrite Z.mod_small; lia.
    + rewrite Z.mod_small; lia.
  - intros (_ & B). apply H2. unfold m. destruct (Z.ltb_spec (snd a) 0); lia.
Qed.
Lemma ser_deletion_ok (c : Z * Z) : 0 <= fst c -> 0 <= snd c -> exists w, @ser_deletion Gr c = Ok w /\ deser_deletion w = Ok c.
Proof.
  intros P Q. destruct (to_bytes_of _ P) as (b & E & E'). destruct (to_bytes_of _ Q) as (b2 & E2 & E2').
  unfold ser_deletion. rewrite E. cbn [obind]. rewrite E2. eexists; split; [reflexivity|]. cbn. rewrite E', E2'. destruct c; auto.
Qed.
End Kinds.
