(** * C70, continued: the key and tree files of the other properties, as bytes.

    C52, C66-C69 speak of "any faithful codec" for each message type.  Here: the
    protobuf messages the programs build for them (ProtoCodec.v) hold everything,
    and there are faithful codecs that are protobuf's for every message up to 2 GB
    with 32-bit integers. *)
Require Import String Ascii.
Require Import List Arith Lia ZArith Bool.
Import ListNotations.
From Verif Require Import Prelude Coins Group ElGamalModel BytesModel CipherModel WireModel FileModel FileSpec FileProofs KeyModel KeyProofs PathModel ProtoModel ProtoProofs PropsProto ProtoCodec.
From Verif Require PropsAdd PropsKeys PropsProg PropsOrigProg.
Local Open Scope Z_scope.

(** ** Specification *)
Definition int32_node (n : pnode) : Prop := int32 (snd n).
Definition int32_tree {N} (f : tree_file N) : Prop := int32 (f_stash f) /\ int32 (f_node f) /\ int32 (f_actual f) /\ int32 (f_depth f).
(** [c] writes what protobuf writes, for every message that [fits] and is small
    enough, and reads as FromString (a byte string starting with 0 is no message) *)
Definition is_protobuf {T P} (c : codec T) (M : msg P) (to : T -> P) (of : P -> T) (junk : bytes -> P) (fits : T -> Prop) : Prop :=
  (forall t, fits t -> small M (to t) -> c_ser c t = serialize M (to t)) /\
  (forall bs, hd 1 bs <> 0 -> c_parse c bs = of (from_string M junk bs)).

(** ** what is written is read *)
Lemma via_back {T P} (M : msg P) (to : T -> P) (of : P -> T) junk t : of_schema P M -> of (to t) = t -> m_fits M (to t) -> small M (to t) -> c_parse (via M to of junk) (c_ser (via M to of junk) t) = t.
Proof. intros IS E F S. unfold via. cbn [c_parse c_ser]. unfold from_string. rewrite C70_roundtrip; auto. Qed.
Lemma string_back s : of_string_bytes (to_string_bytes s) = s.
Proof. induction s as [|a s IH]; [reflexivity|]. cbn [to_string_bytes of_string_bytes]. rewrite N2Z.id, ascii_N_embedding, IH. reflexivity. Qed.
Lemma tree_back {N P} (to : N -> P) (of : P -> N) (f : tree_file N) : (forall n, of (to n) = n) -> of_tree of (to_tree to f) = f.
Proof. intros E. destruct f as [s n a d l]. unfold to_tree, of_tree. cbn [f_nodes f_stash f_node f_actual f_depth geti]. f_equal. rewrite map_map. rewrite (map_ext _ (fun x => x)); [apply map_id|auto]. Qed.
Lemma list_back {A B} (to : A -> B) (of : B -> A) l : (forall a, of (to a) = a) -> map of (map to l) = l.
Proof. intros E. rewrite map_map. rewrite (map_ext _ (fun x => x)); [apply map_id|auto]. Qed.
Lemma pnode_back n : of_pnode (to_pnode n) = n.
Proof. destruct n as [l c]. unfold to_pnode, of_pnode. cbn [fst snd geti]. rewrite list_back; auto. intros [a [|b p]]; reflexivity. Qed.

Section Points.
Context {Gr : group}.
Variables (enc : wpoint Gr -> bytes) (dec : bytes -> wpoint Gr).
Hypothesis enc_dec : forall w, dec (enc w) = w.
Lemma ct_back c : get_ct dec (Some (to_ct enc c)) = c.
Proof. destruct c as [u v]. unfold get_ct, of_ct, to_ct. cbn [fst snd get]. rewrite !enc_dec. reflexivity. Qed.
Lemma welem_back w : of_welem dec (to_welem enc w) = w.
Proof. destruct w; cbn [to_welem of_welem get]; rewrite ?ct_back; reflexivity. Qed.
Lemma kv_back x : of_kv dec (to_kv enc x) = x.
Proof. destruct x as [s w]. unfold of_kv, to_kv. cbn [fst snd get]. rewrite string_back, enc_dec. reflexivity. Qed.
Lemma pub_back m : of_pub dec (to_pub enc m) = m.
Proof. destruct m as [g y]. unfold of_pub, to_pub. cbn [fst snd get]. rewrite !enc_dec. reflexivity. Qed.
Lemma fits_tree_pt f : Forall int32_node (f_nodes f) -> int32_tree f -> m_fits PlaintextTree (to_tree to_pnode f).
Proof.
  intros FN (A & B & C & D). split; [|cbn; auto]. cbn [fst to_tree]. apply Forall_map. eapply Forall_impl; [|exact FN]. intros [es i] X. split; [|exact X]. apply fits_all. intros. split; exact I.
Qed.
Lemma fits_tree_et f : int32_tree f -> m_fits EncryptedTree (to_tree (map (to_welem enc)) f).
Proof. intros (A & B & C & D). split; [|cbn; auto]. cbn [fst to_tree]. apply fits_all. intros. apply fits_all. apply fits_element. Qed.

(** C70.  The files of C52, C66-C69: the message the program builds, written and
    read, gives the same message; whatever the parser leaves behind in a message it
    rejects ([junk]). *)
Theorem C70_codecs :
  (forall junk m, small ElGamalPublicKey (to_pub enc m) -> c_parse (pub_codec enc dec junk) (c_ser (pub_codec enc dec junk) m) = m) /\
  (forall junk m, small ElGamalSecretKey (to_sec m) -> c_parse (sec_codec junk) (c_ser (sec_codec junk) m) = m) /\
  (forall junk m, small ThresholdPaillierKey (to_thr m) -> c_parse (thr_codec junk) (c_ser (thr_codec junk) m) = m) /\
  (forall junk m, int32 (snd m) -> small PaillierPublicKey (to_ppub m) -> c_parse (ppub_codec junk) (c_ser (ppub_codec junk) m) = m) /\
  (forall junk m, int32 (snd m) -> small PaillierPrivateKey (to_psec m) -> c_parse (psec_codec junk) (c_ser (psec_codec junk) m) = m) /\
  (forall junk m, int32 (fst m) -> small EcKeyProto (to_ec m) -> c_parse (ec_codec junk) (c_ser (ec_codec junk) m) = m) /\
  (forall junk f, Forall int32_node (f_nodes f) -> int32_tree f -> small PlaintextTree (to_tree to_pnode f) -> c_parse (plaintext_tree_codec junk) (c_ser (plaintext_tree_codec junk) f) = f) /\
  (forall junk f, int32_tree f -> small EncryptedTree (to_tree (map (to_welem enc)) f) -> c_parse (encrypted_tree_codec enc dec junk) (c_ser (encrypted_tree_codec enc dec junk) f) = f) /\
  (forall junk l, small OPRF (map (to_kv enc) l) -> c_parse (oprf_codec enc dec junk) (c_ser (oprf_codec enc dec junk) l) = l).
Proof.
  split; [|split; [|split; [|split; [|split; [|split; [|split; [|split]]]]]]]; intros; (apply via_back; [constructor| | |assumption]).
  - apply pub_back.
  - cbn. auto.
  - reflexivity.
  - exact I.
  - destruct m; reflexivity.
  - cbn. auto.
  - destruct m; reflexivity.
  - cbn. auto.
  - destruct m as [[? ?] ?]; reflexivity.
  - cbn. auto.
  - destruct m; reflexivity.
  - cbn. auto.
  - apply tree_back. apply pnode_back.
  - apply fits_tree_pt; auto.
  - apply tree_back. intros l. apply list_back. apply welem_back.
  - apply fits_tree_et; auto.
  - apply list_back. apply kv_back.
  - apply fits_all. intros. split; exact I.
Qed.

(** ** codecs without conditions *)
(** a message that does not fit is written in another way, behind a zero, with
    which no protobuf message starts *)
Definition total {T} (c : codec T) (ok : T -> bool) (esc : codec T) : codec T :=
  mkCodec (fun t => if ok t then c_ser c t else 0 :: c_ser esc t) (fun bs => match bs with z :: r => if z =? 0 then c_parse esc r else c_parse c bs | [] => c_parse c bs end).
Lemma varint_head k n : 0 < n -> hd 1 (varint k n) <> 0.
Proof. intros P. destruct k; cbn [varint hd]; [lia|]. destruct (n <? 128); cbn [hd]; [lia|]. pose proof (Z.mod_pos_bound n 128 ltac:(lia)). lia. Qed.
Lemma hd_app (a b : bytes) : (1 <= length a)%nat -> hd 1 (a ++ b) = hd 1 a.
Proof. destruct a; cbn [length]; [lia|reflexivity]. Qed.
Lemma serialize_head {T} (M : msg T) nums t : sound M nums -> hd 1 (serialize M t) <> 0.
Proof.
  intros S. unfold serialize, write_fields. pose proof (so_nums _ _ S t) as FN. destruct (m_fields M t) as [|f l]; [cbn; lia|]. inversion FN as [|? ? F1 _]; subst. apply (so_range _ _ S) in F1.
  cbn [map concat]. rewrite hd_app by apply write_field_nonempty. unfold write_field. destruct (snd f) as [v|b|b]; (rewrite hd_app by apply varint_nonempty); apply varint_head; try lia. destruct (length b =? 8)%nat; lia.
Qed.
Lemma total_ok {T P} (M : msg P) (to : T -> P) (of : P -> T) junk (fits : T -> Prop) (fits_b : T -> bool) (esc : codec T) :
  of_schema P M -> (forall t, fits_b t = true <-> fits t) -> (forall t, fits t -> small M (to t) -> c_parse (via M to of junk) (c_ser (via M to of junk) t) = t) -> faithful esc ->
  exists c : codec T, faithful c /\ is_protobuf c M to of junk fits.
Proof.
  intros IS FB BK FE. destruct (schema_sound P M IS) as (nums & S).
  set (ok := fun t => fits_b t && (Z.of_nat (length (serialize M (to t))) <=? 2 ^ 31 - 17)).
  assert (OK : forall t, ok t = true <-> fits t /\ small M (to t)) by (intros t; unfold ok, small; rewrite andb_true_iff, FB, Z.leb_le; tauto).
  exists (total (via M to of junk) ok esc). split; [|split].
  - intros t. unfold total. cbn [c_ser c_parse]. destruct (ok t) eqn:E; [|apply FE]. apply OK in E as (F & L). specialize (BK t F L).
    unfold via in *. cbn [c_ser c_parse] in *. pose proof (serialize_head M nums (to t) S) as HD. destruct (serialize M (to t)) as [|z r]; [exact BK|]. cbn [hd] in HD. destruct (Z.eqb_spec z 0); [contradiction|exact BK].
  - intros t F L. unfold total. cbn [c_ser]. rewrite (proj2 (OK t)) by auto. reflexivity.
  - intros bs HD. unfold total. cbn [c_parse]. destruct bs as [|z r]; [reflexivity|]. cbn [hd] in HD. destruct (Z.eqb_spec z 0); [contradiction|reflexivity].
Qed.
Definition int32_b (i : Z) : bool := (- 2 ^ 31 <=? i) && (i <? 2 ^ 31).
Lemma int32_b_ok i : int32_b i = true <-> int32 i.
Proof. unfold int32_b, int32. rewrite andb_true_iff, Z.leb_le, Z.ltb_lt. tauto. Qed.
Definition int32_tree_b {N} (f : tree_file N) : bool := int32_b (f_stash f) && (int32_b (f_node f) && (int32_b (f_actual f) && int32_b (f_depth f))).
Lemma int32_tree_b_ok {N} (f : tree_file N) : int32_tree_b f = true <-> int32_tree f.
Proof. unfold int32_tree_b, int32_tree. rewrite !andb_true_iff, !int32_b_ok. tauto. Qed.
(** other faithful codecs *)
Import PropsKeys PropsProg PropsOrigProg.
Definition p_of {T} (c : pcodec T) : codec T := mkCodec (p_enc c) (fun s => fst (p_dec c s)).
Lemma p_of_ok {T} (c : pcodec T) : pgood c -> faithful (p_of c).
Proof. intros G t. unfold p_of. cbn [c_ser c_parse]. rewrite <- (app_nil_r (p_enc c t)). rewrite G. reflexivity. Qed.
Definition p_map {T U} (c : pcodec U) (to : T -> U) (of : U -> T) : pcodec T := mkP (fun t => p_enc c (to t)) (fun s => let '(u, r) := p_dec c s in (of u, r)).
Lemma good_map {T U} (c : pcodec U) (to : T -> U) (of : U -> T) : pgood c -> (forall t, of (to t) = t) -> pgood (p_map c to of).
Proof. intros G E t r. unfold p_map. cbn [p_enc p_dec]. rewrite G, E. reflexivity. Qed.
Definition p_bytes : pcodec bytes := p_list p_z.
Lemma good_bytes : pgood p_bytes. Proof. apply good_list, good_z. Qed.
Definition p_opt {T} (c : pcodec T) : pcodec (option T) := p_map (p_list c) (fun o => match o with Some t => [t] | None => [] end) (fun l => match l with t :: _ => Some t | [] => None end).
Lemma good_opt {T} (c : pcodec T) : pgood c -> pgood (p_opt c).
Proof. intros G. apply good_map; [apply good_list; auto|]. intros [t|]; reflexivity. Qed.
Definition p_sum {T U} (c : pcodec T) (d : pcodec U) : pcodec (T + U) :=
  p_map (p_pair (p_opt c) (p_opt d)) (fun x => match x with inl t => (Some t, None) | inr u => (None, Some u) end)
    (fun x => match x with (Some t, _) => inl t | (_, Some u) => inr u | _ => inl (fst (p_dec c [])) end).
Lemma good_sum {T U} (c : pcodec T) (d : pcodec U) : pgood c -> pgood d -> pgood (p_sum c d).
Proof. intros G H. apply good_map; [apply good_pair; apply good_opt; auto|]. intros [t|u]; reflexivity. Qed.
Definition p_ct := p_pair (p_opt p_bytes) (p_opt p_bytes).
Definition p_we : pcodec (welem Gr) :=
  p_map (p_opt (p_sum (p_opt p_ct) (p_sum (p_pair (p_opt p_ct) (p_opt p_bytes)) (p_sum (p_pair (p_opt p_ct) (p_opt p_ct)) (p_sum (p_pair (p_opt p_bytes) (p_opt p_bytes)) (p_opt p_bytes)))))) (to_welem enc) (of_welem dec).
Lemma good_we : pgood p_we.
Proof. apply good_map; [|apply welem_back]. repeat first [apply good_bytes | apply good_opt | apply good_sum | apply good_pair]. Qed.

(** C70.  The hypotheses "any faithful codec" of C52 and C66-C69 are met by codecs
    that agree with protobuf. *)
Theorem C70_faithful_codecs : forall jpub jsec jthr jppub jpsec jec jpt jet joprf,
  (exists c, faithful c /\ is_protobuf c ElGamalPublicKey (to_pub enc) (of_pub dec) jpub (fun _ => True)) /\
  (exists c, faithful c /\ is_protobuf c ElGamalSecretKey to_sec get jsec (fun _ => True)) /\
  (exists c, faithful c /\ is_protobuf c ThresholdPaillierKey to_thr of_thr jthr (fun _ => True)) /\
  (exists c, faithful c /\ is_protobuf c PaillierPublicKey to_ppub of_ppub jppub (fun m => int32 (snd m))) /\
  (exists c, faithful c /\ is_protobuf c PaillierPrivateKey to_psec of_psec jpsec (fun m => int32 (snd m))) /\
  (exists c, faithful c /\ is_protobuf c EcKeyProto to_ec of_ec jec (fun m => int32 (fst m))) /\
  (exists c, faithful c /\ is_protobuf c PlaintextTree (to_tree to_pnode) (of_tree of_pnode) jpt (fun f => Forall int32_node (f_nodes f) /\ int32_tree f)) /\
  (exists c, faithful c /\ is_protobuf c EncryptedTree (to_tree (map (to_welem enc))) (of_tree (map (of_welem dec))) jet int32_tree) /\
  (exists c, faithful c /\ is_protobuf c OPRF (map (to_kv enc)) (map (of_kv dec)) joprf (fun _ => True)).
Proof.
  intros. destruct C70_codecs as (B1 & B2 & B3 & B4 & B5 & B6 & B7 & B8 & B9).
  assert (TR : forall T, forall t : T, true = true <-> True) by (split; auto).
  split; [|split; [|split; [|split; [|split; [|split; [|split; [|split]]]]]]].
  - apply (total_ok _ _ _ _ _ (fun _ => true) (p_of (p_map (p_pair p_bytes p_bytes) (fun m => (enc (fst m), enc (snd m))) (fun m => (dec (fst m), dec (snd m)))))); [constructor|intros t; split; auto|intros t _; apply B1|].
    refine (p_of_ok _ (good_map _ _ _ (good_pair _ _ good_bytes good_bytes) _)). intros [g y]. cbn [fst snd]. rewrite !enc_dec. reflexivity.
  - apply (total_ok _ _ _ _ _ (fun _ => true) (p_of p_bytes)); [constructor|intros t; split; auto|intros t _; apply B2|exact (p_of_ok _ good_bytes)].
  - apply (total_ok _ _ _ _ _ (fun _ => true) (p_of (p_pair p_bytes p_bytes))); [constructor|intros t; split; auto|intros t _; apply B3|exact (p_of_ok _ (good_pair _ _ good_bytes good_bytes))].
  - apply (total_ok _ _ _ _ _ (fun m => int32_b (snd m)) (p_of (p_pair p_bytes p_z))); [constructor|intros; apply int32_b_ok|apply B4|exact (p_of_ok _ (good_pair _ _ good_bytes good_z))].
  - apply (total_ok _ _ _ _ _ (fun m => int32_b (snd m)) (p_of (p_pair (p_pair p_bytes p_bytes) p_z))); [constructor|intros; apply int32_b_ok|apply B5|exact (p_of_ok _ (good_pair _ _ (good_pair _ _ good_bytes good_bytes) good_z))].
  - apply (total_ok _ _ _ _ _ (fun m => int32_b (fst m)) (p_of (p_pair p_z p_bytes))); [constructor|intros; apply int32_b_ok|apply B6|exact (p_of_ok _ (good_pair _ _ good_z good_bytes))].
  - apply (total_ok _ _ _ _ _ (fun f => forallb (fun n => int32_b (snd n)) (f_nodes f) && int32_tree_b f) (p_file (p_pair (p_list (p_pair p_bytes p_bytes)) p_z))); [constructor| |intros t (X & Y); apply B7; auto|].
    + intros f. rewrite andb_true_iff, forallb_forall, int32_tree_b_ok, Forall_forall. split; intros (X & Y); (split; [|auto]); intros n I; apply int32_b_ok, X; auto.
    + exact (good_file _ (good_pair _ _ (good_list _ (good_pair _ _ good_bytes good_bytes)) good_z)).
  - apply (total_ok _ _ _ _ _ int32_tree_b (p_file (p_list p_we))); [constructor|apply int32_tree_b_ok|apply B8|exact (good_file _ (good_list _ good_we))].
  - apply (total_ok _ _ _ _ _ (fun _ => true) (p_of (p_list (p_map (p_pair p_bytes p_bytes) (fun x => (to_string_bytes (fst x), enc (snd x))) (fun x => (of_string_bytes (fst x), dec (snd x))))))); [constructor|intros t; split; auto|intros t _; apply B9|].
    refine (p_of_ok _ (good_list _ (good_map _ _ _ (good_pair _ _ good_bytes good_bytes) _))). intros [s w]. cbn [fst snd]. rewrite string_back, enc_dec. reflexivity.
Qed.
End Points.

(** ** Examples: points as one number, the keys and a tree of the example group *)
Definition ex_enc (w : wpoint PropsAdd.exG) : bytes := [PropsKeys.point_code w].
Definition ex_dec (b : bytes) : wpoint PropsAdd.exG := PropsKeys.point_of (nth 0 b 0).
Example ex_enc_dec : forall w, ex_dec (ex_enc w) = w.
Proof. intros w. unfold ex_dec, ex_enc. cbn [nth]. apply PropsKeys.point_of_code. Qed.
Example ex_C70_small : small ElGamalPublicKey (to_pub ex_enc (WPt gen, WBad)) /\ small PlaintextTree (to_tree to_pnode (mkFile 89 4 1 0 [([([9], [])], 4)])) /\
  int32_tree (mkFile 89 4 1 0 [([([9], [] : bytes)], 4)]) /\ Forall int32_node [([([9], [])], 4)].
Proof. split; [vm_compute; discriminate|]. split; [vm_compute; discriminate|]. split; [|repeat constructor; cbn; lia]. unfold int32_tree, int32. cbn. lia. Qed.
(** the faithful codecs exist, with protobuf's bytes *)
Example ex_C70_exists : exists c : codec ppub_msg, faithful c /\ c_ser c ([3; 7], 300) = [10; 2; 3; 7; 16; 172; 2] /\ c_parse c [10; 2; 3; 7; 16; 172; 2] = ([3; 7], 300).
Proof.
  destruct (C70_faithful_codecs ex_enc ex_dec ex_enc_dec (fun _ => (None, (None, None))) (fun _ => None) (fun _ => (None, None)) (fun _ => (None, None)) (fun _ => (None, (None, None))) (fun _ => (None, None)) (fun _ => ([], (None, (None, (None, None))))) (fun _ => ([], (None, (None, (None, None))))) (fun _ => [])) as (_ & _ & _ & (c & F & W & R) & _).
  exists c. split; [exact F|]. split.
  - rewrite W; [vm_compute; reflexivity|unfold int32; cbn; lia|vm_compute; discriminate].
  - rewrite R; [vm_compute; reflexivity|cbn; lia].
Qed.

Print Assumptions C70_codecs.
Print Assumptions C70_faithful_codecs.
