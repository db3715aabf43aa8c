(** * C70: the bytes of the messages.

    Model: ProtoModel.v (the protobuf format of the four .proto files and the
    functions of proto_util.h). *)
Require Import List Arith Lia ZArith Bool.
Import ListNotations.
From Verif Require Import Prelude BytesModel FileModel FileSpec FileProofs PropsFile ProtoModel ProtoProofs.
Local Open Scope Z_scope.

(** ** Specification *)
(** the message types of elgamal.proto, paillier.proto, ec_key.proto, upsi.proto *)
Inductive of_schema : forall T : Type, msg T -> Prop :=
| In_ElGamalPublicKey : of_schema _ ElGamalPublicKey
| In_ElGamalSecretKey : of_schema _ ElGamalSecretKey
| In_ElGamalCiphertext : of_schema _ ElGamalCiphertext
| In_PaillierPublicKey : of_schema _ PaillierPublicKey
| In_PaillierPrivateKey : of_schema _ PaillierPrivateKey
| In_ThresholdPaillierKey : of_schema _ ThresholdPaillierKey
| In_EcKeyProto : of_schema _ EcKeyProto
| In_EncryptedElement : of_schema _ EncryptedElement
| In_NoPayload : of_schema _ NoPayload
| In_PaillierPayload : of_schema _ PaillierPayload
| In_ElGamalPayload : of_schema _ ElGamalPayload
| In_DeletionElement : of_schema _ DeletionElement
| In_OnlyPaillier : of_schema _ OnlyPaillier
| In_EncryptedSet : of_schema _ EncryptedSet
| In_EncryptedSetVector : of_schema _ EncryptedSetVector
| In_TreeNode : of_schema _ TreeNode
| In_TreeUpdates : of_schema _ TreeUpdates
| In_PaillierCiphertext : of_schema _ PaillierCiphertext
| In_PlaintextElement : of_schema _ PlaintextElement
| In_PlaintextNode : of_schema _ PlaintextNode
| In_PlaintextTree : of_schema _ PlaintextTree
| In_EncryptedTree : of_schema _ EncryptedTree
| In_OPRF_KV : of_schema _ OPRF_KV
| In_OPRF : of_schema _ OPRF
| In_og_MessageI : of_schema _ og_MessageI
| In_og_MessageII : of_schema _ og_MessageII
| In_og_MessageIII : of_schema _ og_MessageIII
| In_og_MessageIV : of_schema _ og_MessageIV
| In_og_MessageV : of_schema _ og_MessageV
| In_OriginalMessage : of_schema _ OriginalMessage
| In_MessageI : of_schema _ MessageI
| In_MessageIII_SUM : of_schema _ MessageIII_SUM
| In_MessageIII_SS : of_schema _ MessageIII_SS
| In_PartyZeroMessage : of_schema _ PartyZeroMessage
| In_ClientMessage : of_schema _ ClientMessage
| In_MessageII : of_schema _ MessageII
| In_MessageIV : of_schema _ MessageIV
| In_PartyOneMessage : of_schema _ PartyOneMessage
| In_ServerMessage : of_schema _ ServerMessage.
(** not more than 2 GB, nearly *)
Definition small {T} (M : msg T) (t : T) : Prop := Z.of_nat (length (serialize M t)) <= 2 ^ 31 - 17.
Definition int32 (i : Z) : Prop := - 2 ^ 31 <= i < 2 ^ 31.
Definition known {T} (M : msg T) (n : Z) : Prop := exists w t, m_put M n w t <> Skip.

(** ** every message type keeps its values *)
Ltac apart := let k := fresh in let H := fresh in let H' := fresh in intros k H H'; cbn [In app] in H, H'; lia.
Ltac sounds := first
  [ (apply sound_opt_bytes; lia) | (apply sound_opt_int32; lia) | (apply sound_rep_bytes; lia)
  | (eapply sound_opt_msg; [lia|sounds]) | (eapply sound_rep_msg; [lia|sounds])
  | (eapply sound_both; [sounds|sounds|apart]) | (eapply sound_oneof; sounds) | (eapply sound_orelse; [sounds|sounds|apart]) | (eapply sound_alt; [lia|sounds]) ].
Lemma schema_sound T (M : msg T) : of_schema T M -> exists nums, sound M nums.
Proof. intros []; eexists; sounds. Qed.
Lemma parse_fields {T} (M : msg T) l : Forall field_ok l -> parse M (write_fields l) = puts M l (m_empty M).
Proof.
  intros F. unfold parse, merge. rewrite tokens_written by auto. pose proof (feed_fields M l [] (m_empty M)) as X. rewrite app_nil_r in X. rewrite X. destruct (puts M l (m_empty M)); reflexivity.
Qed.

(** C70.  Reading a message that was written gives the message back: for every
    message type, every value its class can hold, up to 2 GB. *)
Theorem C70_roundtrip : forall T (M : msg T) t, of_schema T M -> m_fits M t -> small M t -> parse M (serialize M t) = Some t.
Proof. intros T M t IS F L. destruct (schema_sound T M IS) as (nums & S). eapply merge_back; eauto. Qed.

(** For the messages between the parties there is no condition but the size. *)
Lemma fits_element : forall t, m_fits EncryptedElement t.
Proof. assert (C : forall c : option (option bytes * option bytes), match c with Some a => True /\ True | None => True end) by (intros [?|]; auto). intros [[x|[[x y]|[[x y]|[x|x]]]]|]; cbn; auto; try apply C; split; auto; apply C. Qed.
Lemma fits_all {A} (M : msg A) n : (forall a, m_fits M a) -> forall l, m_fits (rep_msg n M) l.
Proof. intros H l. apply Forall_forall. auto. Qed.
Lemma fits_opt {A} (M : msg A) n : (forall a, m_fits M a) -> forall o, m_fits (opt_msg n M) o.
Proof. intros H [a|]; cbn; auto. Qed.
Lemma fits_both {A B} (M : msg A) (N : msg B) : (forall a, m_fits M a) -> (forall b, m_fits N b) -> forall t, m_fits (both M N) t.
Proof. intros H1 H2 [a b]. split; auto. Qed.
Lemma fits_oneof {A} (a : alts A) : (forall x, a_fits a x) -> forall t, m_fits (oneof a) t.
Proof. intros H [x|]; cbn; auto. Qed.
Lemma fits_orelse {A B} (a : alts A) (b : alts B) : (forall x, a_fits a x) -> (forall y, a_fits b y) -> forall t, a_fits (orelse a b) t.
Proof. intros H1 H2 [x|y]; cbn; auto. Qed.
Ltac fits := first [ apply fits_element | exact I | (apply fits_all; intros; fits) | (apply fits_opt; intros; fits) | (apply fits_both; intros; fits)
  | (apply fits_oneof; intros; fits) | (apply fits_orelse; intros; fits) | (match goal with |- a_fits (alt _ ?M) ?x => change (m_fits M x); fits end) ].
Theorem C70_network :
  (forall m, small ClientMessage m -> parse ClientMessage (serialize ClientMessage m) = Some m) /\
  (forall m, small ServerMessage m -> parse ServerMessage (serialize ServerMessage m) = Some m).
Proof. split; intros m S; apply C70_roundtrip; auto; try constructor; fits. Qed.

(** For keys and trees the integers have to be 32-bit ones. *)
Theorem C70_keys :
  (forall p g y, small ElGamalPublicKey (p, (g, y)) -> parse ElGamalPublicKey (serialize ElGamalPublicKey (p, (g, y))) = Some (p, (g, y))) /\
  (forall x, small ElGamalSecretKey x -> parse ElGamalSecretKey (serialize ElGamalSecretKey x) = Some x) /\
  (forall n s, int32 s -> small PaillierPublicKey (n, Some s) -> parse PaillierPublicKey (serialize PaillierPublicKey (n, Some s)) = Some (n, Some s)) /\
  (forall p q s, int32 s -> small PaillierPrivateKey (p, (q, Some s)) -> parse PaillierPrivateKey (serialize PaillierPrivateKey (p, (q, Some s))) = Some (p, (q, Some s))) /\
  (forall n share, small ThresholdPaillierKey (n, share) -> parse ThresholdPaillierKey (serialize ThresholdPaillierKey (n, share)) = Some (n, share)) /\
  (forall id key, int32 id -> small EcKeyProto (Some id, key) -> parse EcKeyProto (serialize EcKeyProto (Some id, key)) = Some (Some id, key)).
Proof.
  split; [|split; [|split; [|split; [|split]]]]; intros; (apply C70_roundtrip; [constructor| |assumption]); cbn; auto.
Qed.
Theorem C70_trees :
  (forall nodes s n a d, Forall (fun p => match snd p with Some i => int32 i | None => True end) nodes -> int32 s -> int32 n -> int32 a -> int32 d ->
     let t := (nodes, (Some s, (Some n, (Some a, Some d)))) in small PlaintextTree t -> parse PlaintextTree (serialize PlaintextTree t) = Some t) /\
  (forall nodes s n a d, int32 s -> int32 n -> int32 a -> int32 d ->
     let t := (nodes, (Some s, (Some n, (Some a, Some d)))) in small EncryptedTree t -> parse EncryptedTree (serialize EncryptedTree t) = Some t) /\
  (forall kv, small OPRF kv -> parse OPRF (serialize OPRF kv) = Some kv).
Proof.
  split; [|split]; intros; (apply C70_roundtrip; [constructor| |assumption]).
  - subst t. split; [|cbn; auto]. cbn [fst]. eapply Forall_impl; [|eassumption]. intros [es [i|]] X; (split; [|exact X]); apply fits_all; intros; fits.
  - subst t. split; [|cbn; auto]. fits.
  - fits.
Qed.

(** A field the message type does not know is ignored, wherever it stands. *)
Theorem C70_unknown_field : forall T (M : msg T) t before after f, of_schema T M -> m_fits M t -> small M t -> m_fields M t = before ++ after ->
  ~ known M (fst f) -> field_ok f -> parse M (write_fields before ++ write_field f ++ write_fields after) = Some t.
Proof.
  intros T M t l1 l2 f IS F L E NK FO. destruct (schema_sound T M IS) as (nums & S). pose proof (so_short _ _ S t F L) as OK. pose proof (so_back _ _ S t F L) as BK. rewrite E in OK, BK. apply Forall_app in OK as (OK1 & OK2).
  replace (write_fields l1 ++ write_field f ++ write_fields l2) with (write_fields (l1 ++ [f] ++ l2)).
  2:{ rewrite !write_fields_app. f_equal. f_equal. unfold write_fields. cbn [map concat]. apply app_nil_r. }
  rewrite parse_fields by (apply Forall_app; split; auto; constructor; auto). rewrite puts_app in *. destruct (puts M l1 (m_empty M)) as [t1|]; [|discriminate].
  cbn [app puts]. destruct (m_put M (fst f) (snd f) t1) eqn:P; auto; exfalso; apply NK; exists (snd f), t1; rewrite P; discriminate.
Qed.

(** Files.  Whatever happened during writing and reading: if both report success
    and the file was not changed in between, the message read is the one written. *)
Theorem C70_file : forall T (M : msg T) junk e1 e2 name t w w1 w1' w2 out, of_schema T M -> m_fits M t -> small M t ->
  write_proto_to_file e1 (serialize M) t name w = (w1, Ok tt) -> files w1' name = files w1 name ->
  read_proto_from_file e2 (from_string M junk) name w1' = (w2, Ok out) -> out = t.
Proof.
  intros T M junk e1 e2 name t w w1 w1' w2 out IS F L W E R. destruct (C44_single _ _ _ _ _ _ _ _ _ _ _ W E R) as (-> & _). unfold from_string. rewrite C70_roundtrip; auto.
Qed.
(** But a file whose record is not a message of the type is read without an
    error: FromString ignores what ParseFromArray returns. *)
Theorem C70_garbage_accepted : forall T (M : msg T) junk e name bs rest w, reliable e -> short bs -> files w name = Some (frame bs ++ rest) -> parse M bs = None ->
  exists w', read_proto_from_file e (from_string M junk) name w = (w', Ok (junk bs)).
Proof.
  intros T M junk e name bs rest w RE S F P. destruct (read_proto_frame e (from_string M junk) name bs rest w RE S F) as (k & R). exists (mkWorld (files w) k). rewrite R. unfold from_string. rewrite P. reflexivity.
Qed.
(** And a key file is accepted as one of another kind: a public key as a private
    one without its second prime, a secret ElGamal key out of a public one (the
    number is not set, which reads as zero), shares out of a private key ... *)
Theorem C70_wrong_kind : forall a b c s, Z.of_nat (length a) <= max_length -> Z.of_nat (length b) <= max_length -> Z.of_nat (length c) <= max_length ->
  parse PaillierPrivateKey (serialize PaillierPublicKey (Some a, Some s)) = Some (Some a, (None, None)) /\
  parse PaillierPublicKey (serialize PaillierPrivateKey (Some a, (Some b, Some s))) = Some (Some a, None) /\
  parse ThresholdPaillierKey (serialize PaillierPrivateKey (Some a, (Some b, Some s))) = Some (Some a, Some b) /\
  parse ElGamalSecretKey (serialize ElGamalPublicKey (None, (Some b, Some c))) = Some None /\
  parse ElGamalPublicKey (serialize ElGamalSecretKey (Some a)) = Some (Some a, (None, None)).
Proof.
  intros a b c s LA LB LC.
  assert (FL : forall n x, 0 < n < 2 ^ 29 -> Z.of_nat (length x) <= max_length -> field_ok (n, Len x)) by (intros; split; auto).
  assert (FV : forall n v, 0 < n < 2 ^ 29 -> field_ok (n, Varint (v mod 2 ^ 64))) by (intros; split; auto; apply Z.mod_pos_bound; reflexivity).
  split; [|split; [|split; [|split]]]; unfold serialize; (rewrite parse_fields; [reflexivity|]); cbn [m_fields PaillierPublicKey PaillierPrivateKey ElGamalPublicKey ElGamalSecretKey both opt_bytes opt_int32 fst snd app];
    repeat (constructor; [first [apply FL; [lia|assumption]|apply FV; lia]|]); constructor.
Qed.

(** The layout.  A length-delimited field of number n is the byte 8n + 2, the length
    and the contents; an int32 is the byte 8n and the 64-bit two's complement in
    groups of seven bits.  A number below 128 is one byte.  These are the numbers of
    the .proto files, so that other programs can read the files and messages. *)
Definition blob (n : Z) (b : bytes) : bytes := (8 * n + 2) :: varint 4 (Z.of_nat (length b)) ++ b.
Definition num (n : Z) (i : Z) : bytes := 8 * n :: varint 9 (i mod 2 ^ 64).
Definition sub {T} (n : Z) (M : msg T) (t : T) : bytes := blob n (serialize M t).
Definition maybe {T} (f : T -> bytes) (o : option T) : bytes := match o with Some t => f t | None => [] end.
Definition all {T} (f : T -> bytes) (l : list T) : bytes := concat (map f l).

Lemma write_len n b : 0 < n < 16 -> write_field (n, Len b) = blob n b.
Proof. intros H. unfold write_field, blob. cbn [snd fst varint]. destruct (Z.ltb_spec (n * 8 + 2) 128); [|lia]. rewrite Z.mul_comm. reflexivity. Qed.
Lemma write_num n i : 0 < n < 16 -> write_field (n, Varint (i mod 2 ^ 64)) = num n i.
Proof. intros H. unfold write_field, num. cbn [snd fst]. unfold varint at 1. destruct (Z.ltb_spec (n * 8) 128); [|lia]. rewrite Z.mul_comm. reflexivity. Qed.
Lemma write_one f : write_fields [f] = write_field f.
Proof. unfold write_fields. cbn [map concat]. apply app_nil_r. Qed.
Lemma ser_both {A B} (M : msg A) (N : msg B) a b : serialize (both M N) (a, b) = serialize M a ++ serialize N b.
Proof. unfold serialize. cbn [m_fields both fst snd]. apply write_fields_app. Qed.
Lemma ser_opt_bytes n o : 0 < n < 16 -> serialize (opt_bytes n) o = maybe (blob n) o.
Proof. intros H. destruct o as [b|]; [|reflexivity]. unfold serialize. cbn [m_fields opt_bytes maybe]. rewrite write_one, write_len; auto. Qed.
Lemma ser_opt_int32 n o : 0 < n < 16 -> serialize (opt_int32 n) o = maybe (num n) o.
Proof. intros H. destruct o as [i|]; [|reflexivity]. unfold serialize. cbn [m_fields opt_int32 maybe]. rewrite write_one, write_num; auto. Qed.
Lemma ser_opt_msg {A} n (M : msg A) o : 0 < n < 16 -> serialize (opt_msg n M) o = maybe (sub n M) o.
Proof. intros H. destruct o as [b|]; [|reflexivity]. unfold serialize at 1. cbn [m_fields opt_msg maybe]. rewrite write_one, write_len; auto. Qed.
Lemma ser_rep_bytes n l : 0 < n < 16 -> serialize (rep_bytes n) l = all (blob n) l.
Proof. intros H. unfold serialize, write_fields, all. cbn [m_fields rep_bytes]. rewrite map_map. f_equal. apply map_ext. intros b. apply write_len; auto. Qed.
Lemma ser_rep_msg {A} n (M : msg A) l : 0 < n < 16 -> serialize (rep_msg n M) l = all (sub n M) l.
Proof. intros H. unfold serialize at 1. unfold write_fields, all. cbn [m_fields rep_msg]. rewrite map_map. f_equal. apply map_ext. intros b. apply write_len; auto. Qed.
Lemma ser_oneof {A} (a : alts A) x : serialize (oneof a) (Some x) = write_field (a_field a x).
Proof. unfold serialize. cbn [m_fields oneof]. apply write_one. Qed.
Lemma ser_none {A} (a : alts A) : serialize (oneof a) None = []. Proof. reflexivity. Qed.
Ltac layout := repeat (first [rewrite ser_both | rewrite ser_opt_bytes by lia | rewrite ser_opt_int32 by lia | rewrite ser_opt_msg by lia | rewrite ser_rep_bytes by lia | rewrite ser_rep_msg by lia]); reflexivity.
Ltac layout1 := rewrite ser_oneof; cbn [a_field orelse alt]; apply write_len; lia.

Theorem C70_layout_keys :
  (forall p g y, serialize ElGamalPublicKey (p, (g, y)) = maybe (blob 1) p ++ maybe (blob 2) g ++ maybe (blob 3) y) /\
  (forall x, serialize ElGamalSecretKey x = maybe (blob 1) x) /\
  (forall u e, serialize ElGamalCiphertext (u, e) = maybe (blob 1) u ++ maybe (blob 2) e) /\
  (forall n s, serialize PaillierPublicKey (n, s) = maybe (blob 1) n ++ maybe (num 2) s) /\
  (forall p q s, serialize PaillierPrivateKey (p, (q, s)) = maybe (blob 1) p ++ maybe (blob 2) q ++ maybe (num 3) s) /\
  (forall n share, serialize ThresholdPaillierKey (n, share) = maybe (blob 1) n ++ maybe (blob 2) share) /\
  (forall id key, serialize EcKeyProto (id, key) = maybe (num 1) id ++ maybe (blob 2) key).
Proof. split; [|split; [|split; [|split; [|split; [|split]]]]]; intros; [unfold ElGamalPublicKey|unfold ElGamalSecretKey|unfold ElGamalCiphertext|unfold PaillierPublicKey|unfold PaillierPrivateKey|unfold ThresholdPaillierKey|unfold EcKeyProto]; layout. Qed.

Theorem C70_layout_elements :
  (forall e, serialize NoPayload e = maybe (sub 1 ElGamalCiphertext) e) /\
  (forall e p, serialize PaillierPayload (e, p) = maybe (sub 1 ElGamalCiphertext) e ++ maybe (blob 2) p) /\
  (forall e p, serialize ElGamalPayload (e, p) = maybe (sub 1 ElGamalCiphertext) e ++ maybe (sub 2 ElGamalCiphertext) p) /\
  (forall e p, serialize DeletionElement (e, p) = maybe (blob 1) e ++ maybe (blob 2) p) /\
  (forall e, serialize OnlyPaillier e = maybe (blob 1) e) /\
  (forall x, serialize EncryptedElement (Some (inl x)) = sub 1 NoPayload x) /\
  (forall x, serialize EncryptedElement (Some (inr (inl x))) = sub 2 PaillierPayload x) /\
  (forall x, serialize EncryptedElement (Some (inr (inr (inl x)))) = sub 3 ElGamalPayload x) /\
  (forall x, serialize EncryptedElement (Some (inr (inr (inr (inl x))))) = sub 4 DeletionElement x) /\
  (forall x, serialize EncryptedElement (Some (inr (inr (inr (inr x))))) = sub 5 OnlyPaillier x) /\
  (forall l, serialize EncryptedSet l = all (sub 1 EncryptedElement) l) /\
  (forall l, serialize EncryptedSetVector l = all (sub 1 EncryptedSet) l) /\
  (forall l, serialize TreeNode l = all (sub 2 EncryptedElement) l) /\
  (forall h n, serialize TreeUpdates (h, n) = all (blob 1) h ++ all (sub 2 TreeNode) n) /\
  (forall c, serialize PaillierCiphertext c = maybe (blob 1) c).
Proof.
  do 5 (split; [intros; unfold NoPayload, PaillierPayload, ElGamalPayload, DeletionElement, OnlyPaillier; layout|]).
  do 5 (split; [intros; unfold EncryptedElement; layout1|]).
  split; [intros; unfold EncryptedSet; layout|]. split; [intros; unfold EncryptedSetVector; layout|]. split; [intros; unfold TreeNode; layout|]. split; intros; [unfold TreeUpdates|unfold PaillierCiphertext]; layout.
Qed.

Theorem C70_layout_files :
  (forall e p, serialize PlaintextElement (e, p) = maybe (blob 1) e ++ maybe (blob 2) p) /\
  (forall l n, serialize PlaintextNode (l, n) = all (sub 1 PlaintextElement) l ++ maybe (num 2) n) /\
  (forall l stash node actual depth, serialize PlaintextTree (l, (stash, (node, (actual, depth)))) =
     all (sub 1 PlaintextNode) l ++ maybe (num 2) stash ++ maybe (num 3) node ++ maybe (num 4) actual ++ maybe (num 5) depth) /\
  (forall l stash node actual depth, serialize EncryptedTree (l, (stash, (node, (actual, depth)))) =
     all (sub 1 TreeNode) l ++ maybe (num 2) stash ++ maybe (num 3) node ++ maybe (num 4) actual ++ maybe (num 5) depth) /\
  (forall e o, serialize OPRF_KV (e, o) = maybe (blob 1) e ++ maybe (blob 2) o) /\
  (forall l, serialize OPRF l = all (sub 1 OPRF_KV) l).
Proof. split; [|split; [|split; [|split; [|split]]]]; intros; [unfold PlaintextElement|unfold PlaintextNode|unfold PlaintextTree, tree_sizes|unfold EncryptedTree, tree_sizes|unfold OPRF_KV|unfold OPRF]; layout. Qed.

Theorem C70_layout_network :
  (forall u c, serialize og_MessageI (u, c) = maybe (sub 1 TreeUpdates) u ++ all (blob 2) c) /\
  (forall a c, serialize og_MessageII (a, c) = maybe (sub 1 ElGamalCiphertext) a ++ all (sub 2 EncryptedSet) c) /\
  (forall c, serialize og_MessageIII c = all (sub 1 EncryptedSet) c) /\
  (forall c, serialize og_MessageIV c = all (blob 1) c) /\
  (forall c, serialize og_MessageV c = all (blob 1) c) /\
  (forall x, serialize OriginalMessage (Some (inl x)) = sub 1 og_MessageI x) /\
  (forall x, serialize OriginalMessage (Some (inr (inl x))) = sub 2 og_MessageII x) /\
  (forall x, serialize OriginalMessage (Some (inr (inr (inl x)))) = sub 3 og_MessageIII x) /\
  (forall x, serialize OriginalMessage (Some (inr (inr (inr (inl x))))) = sub 4 og_MessageIV x) /\
  (forall x, serialize OriginalMessage (Some (inr (inr (inr (inr x))))) = sub 5 og_MessageV x) /\
  (forall u c v, serialize MessageI (u, (c, v)) = maybe (sub 1 TreeUpdates) u ++ maybe (sub 2 EncryptedSet) c ++ maybe (sub 3 EncryptedSetVector) v) /\
  (forall s, serialize MessageIII_SUM s = maybe (sub 1 ElGamalCiphertext) s) /\
  (forall l, serialize MessageIII_SS l = all (sub 1 PaillierCiphertext) l) /\
  (forall x, serialize PartyZeroMessage (Some (inl x)) = sub 1 MessageI x) /\
  (forall x, serialize PartyZeroMessage (Some (inr (inl x))) = sub 2 MessageIII_SUM x) /\
  (forall x, serialize PartyZeroMessage (Some (inr (inr x))) = sub 3 MessageIII_SS x) /\
  (forall x, serialize ClientMessage (Some (inl x)) = sub 1 PartyZeroMessage x) /\
  (forall x, serialize ClientMessage (Some (inr x)) = sub 2 OriginalMessage x) /\
  (forall u c v, serialize MessageII (u, (c, v)) = maybe (sub 1 TreeUpdates) u ++ maybe (sub 2 EncryptedSet) c ++ maybe (sub 3 EncryptedSetVector) v) /\
  (forall s, serialize MessageIV s = maybe (sub 1 ElGamalCiphertext) s) /\
  (forall x, serialize PartyOneMessage (Some (inl x)) = sub 1 MessageII x) /\
  (forall x, serialize PartyOneMessage (Some (inr x)) = sub 2 MessageIV x) /\
  (forall x, serialize ServerMessage (Some (inl x)) = sub 1 PartyOneMessage x) /\
  (forall x, serialize ServerMessage (Some (inr x)) = sub 2 OriginalMessage x) /\
  serialize EncryptedElement None = [] /\ serialize OriginalMessage None = [] /\ serialize PartyZeroMessage None = [] /\ serialize ClientMessage None = [] /\
  serialize PartyOneMessage None = [] /\ serialize ServerMessage None = [].
Proof.
  split; [intros; unfold og_MessageI; layout|]. split; [intros; unfold og_MessageII; layout|]. split; [intros; unfold og_MessageIII; layout|]. split; [intros; unfold og_MessageIV; layout|]. split; [intros; unfold og_MessageV; layout|].
  do 5 (split; [intros; unfold OriginalMessage; layout1|]).
  split; [intros; unfold MessageI; layout|]. split; [intros; unfold MessageIII_SUM; layout|]. split; [intros; unfold MessageIII_SS; layout|].
  do 3 (split; [intros; unfold PartyZeroMessage; layout1|]). do 2 (split; [intros; unfold ClientMessage; layout1|]).
  split; [intros; unfold MessageII; layout|]. split; [intros; unfold MessageIV; layout|].
  do 2 (split; [intros; unfold PartyOneMessage; layout1|]). do 2 (split; [intros; unfold ServerMessage; layout1|]). repeat split; reflexivity.
Qed.

(** Merging.  The runtime concatenates what it is given: the fields of two messages,
    one behind the other, are the second merged into the first; a bytes field is the
    last one, a repeated field both. *)
Theorem C70_last_wins : forall a b, Z.of_nat (length a) <= max_length -> Z.of_nat (length b) <= max_length ->
  parse ElGamalSecretKey (serialize ElGamalSecretKey (Some a) ++ serialize ElGamalSecretKey (Some b)) = Some (Some b) /\
  parse og_MessageIV (serialize og_MessageIV [a] ++ serialize og_MessageIV [b]) = Some [a; b].
Proof.
  intros a b LA LB. assert (FL : forall n x, 0 < n < 2 ^ 29 -> Z.of_nat (length x) <= max_length -> field_ok (n, Len x)) by (intros; split; auto).
  split; unfold serialize; rewrite <- write_fields_app; (rewrite parse_fields; [reflexivity|]); cbn [m_fields ElGamalSecretKey og_MessageIV opt_bytes rep_bytes map app];
    repeat (constructor; [apply FL; [lia|assumption]|]); constructor.
Qed.

(** ** Examples *)
(** 300 is AC 02 in groups of seven bits; -1 takes ten bytes *)
Example ex_C70_bytes :
  serialize PaillierPublicKey (Some [3; 7], Some 300) = [10; 2; 3; 7; 16; 172; 2] /\
  serialize EcKeyProto (Some (-1), Some []) = [8; 255; 255; 255; 255; 255; 255; 255; 255; 255; 1; 18; 0] /\
  parse EcKeyProto [8; 255; 255; 255; 255; 255; 255; 255; 255; 255; 1; 18; 0] = Some (Some (-1), Some []).
Proof. split; [|split]; vm_compute; reflexivity. Qed.
(** a message of party zero with updates (one hash, one node of one element) and a
    candidate *)
Definition ex_elem : option (option (option bytes * option bytes) + (option (option bytes * option bytes) * option bytes + (option (option bytes * option bytes) * option (option bytes * option bytes) + (option bytes * option bytes + option bytes)))) :=
  Some (inr (inl (Some (Some [2; 1], Some [3; 9]), Some [5]))).
Definition ex_client := serialize ClientMessage (Some (inl (Some (inl (Some ([[171]], [[ex_elem]]), (Some [ex_elem; None], None)))))).
Example ex_C70_client :
  parse ClientMessage ex_client = Some (Some (inl (Some (inl (Some ([[171]], [[ex_elem]]), (Some [ex_elem; None], None)))))) /\ length ex_client = 49%nat /\
  parse ServerMessage ex_client <> None /\ parse ClientMessage (removelast ex_client) = None.
Proof. split; [|split; [|split]]; vm_compute; try discriminate; reflexivity. Qed.
(** an unknown field 7, also an unknown group, in front of a tree; a wrong wire type
    is an unknown field *)
Definition ex_ptree : list (list (option bytes * option bytes) * option Z) * (option Z * (option Z * (option Z * option Z))) :=
  ([([(Some [9; 9], None)], Some 4)], (Some 89, (Some 4, (Some 1, Some 0)))).
Example ex_C70_unknown :
  parse PlaintextTree ([58; 1; 0] ++ [59; 8; 1; 60] ++ [18; 1; 0] ++ serialize PlaintextTree ex_ptree) = Some ex_ptree /\ ~ known PlaintextTree 7 /\ known PlaintextTree 5 /\ field_ok (7, Len [0]).
Proof.
  split; [vm_compute; reflexivity|]. split; [|split].
  - intros (w & t & H). apply H. reflexivity.
  - exists (Varint 0), ([], (None, (None, (None, None)))). discriminate.
  - split; [cbn [fst]; lia|]. vm_compute. discriminate.
Qed.
(** no messages: a field 0, a length beyond the end, a varint that does not end, an
    open group *)
Example ex_C70_garbage :
  forallb (fun bs => match parse PaillierPublicKey bs with None => true | Some _ => false end) [[2; 0]; [10; 3; 0; 0]; [16; 128]; [11]; [255]; [12]; [14]] = true.
Proof. vm_compute. reflexivity. Qed.

Print Assumptions C70_roundtrip.
Print Assumptions C70_network.
Print Assumptions C70_keys.
Print Assumptions C70_trees.
Print Assumptions C70_unknown_field.
Print Assumptions C70_file.
Print Assumptions C70_garbage_accepted.
Print Assumptions C70_wrong_kind.
Print Assumptions C70_layout_keys.
Print Assumptions C70_layout_elements.
Print Assumptions C70_layout_files.
Print Assumptions C70_layout_network.
Print Assumptions C70_last_wins.
