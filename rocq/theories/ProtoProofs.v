(** * Proofs about the protobuf wire format (ProtoModel) *)
Require Import List Arith Lia ZArith Bool.
Import ListNotations.
From Verif Require Import Prelude BytesModel FileModel FileProofs ProtoModel.
Local Open Scope Z_scope.

Lemma read_varint_ok : forall fuel n r, 0 <= n < 128 ^ (Z.of_nat fuel + 1) -> read_varint (S fuel) (varint fuel n ++ r) = Some (n, r).
Proof.
  induction fuel as [|f IH]; intros n r B; cbn [varint].
  - change (128 ^ (Z.of_nat 0 + 1)) with 128 in B. cbn [app read_varint]. destruct (Z.ltb_spec n 128); auto; lia.
  - destruct (Z.ltb_spec n 128) as [L|L]. { cbn [app read_varint]. destruct (Z.ltb_spec n 128); auto; lia. }
    pose proof (Z.mod_pos_bound n 128 ltac:(lia)) as MB. rewrite <- app_comm_cons.
    assert (R : forall k b l, read_varint (S k) (b :: l) = if b <? 128 then Some (b, l) else match read_varint k l with Some (v, r') => Some (b - 128 + 128 * v, r') | None => None end) by reflexivity.
    rewrite R. destruct (Z.ltb_spec (n mod 128 + 128) 128); [lia|]. rewrite IH.
    + f_equal. f_equal. pose proof (Z.div_mod n 128 ltac:(lia)). lia.
    + split. apply Z.div_pos; lia. replace (Z.of_nat (S f) + 1) with (Z.of_nat f + 1 + 1) in B by lia.
      rewrite Z.pow_add_r in B by lia. change (128 ^ 1) with 128 in B. apply Z.div_lt_upper_bound; lia.
Qed.
Lemma read_varint32_ok n r : 0 <= n < 2 ^ 32 -> read_varint 5 (varint 4 n ++ r) = Some (n, r).
Proof. intros B. apply read_varint_ok. change (128 ^ (Z.of_nat 4 + 1)) with (2 ^ 35). lia. Qed.
Lemma read_varint64_ok n r : 0 <= n < 2 ^ 64 -> read_varint 10 (varint 9 n ++ r) = Some (n, r).
Proof. intros B. apply read_varint_ok. change (128 ^ (Z.of_nat 9 + 1)) with (2 ^ 70). lia. Qed.
Lemma take_ok b r : take (length b) (b ++ r) = Some (b, r).
Proof.
  unfold take. rewrite app_length. destruct (Nat.leb_spec (length b) (length b + length r)); [|lia].
  rewrite firstn_app, firstn_all, Nat.sub_diag, app_nil_r, skipn_app, skipn_all, Nat.sub_diag. reflexivity.
Qed.
Lemma varint_nonempty k n : (1 <= length (varint k n))%nat.
Proof. destruct k; cbn [varint]; [auto|]. destruct (n <? 128); cbn [length]; lia. Qed.

(** a field that can be written *)
Definition field_ok (f : Z * wire) : Prop :=
  0 < fst f < 2 ^ 29 /\ match snd f with Varint v => 0 <= v < 2 ^ 64 | Len b => Z.of_nat (length b) <= max_length | Fixed b => length b = 4%nat \/ length b = 8%nat end.
Lemma tag_split n k : 0 < n < 2 ^ 29 -> 0 <= k < 8 -> (n * 8 + k) mod 2 ^ 32 = n * 8 + k /\ (n * 8 + k) / 8 = n /\ (n * 8 + k) mod 8 = k.
Proof.
  intros N K. split; [apply Z.mod_small; lia|]. split.
  - rewrite Z.div_add_l by lia. rewrite Z.div_small by lia. lia.
  - rewrite Z.add_comm, Z.mod_add by lia. apply Z.mod_small. lia.
Qed.
Lemma read_written f r : field_ok f -> read_token (write_field f ++ r) = Some (Field (fst f) (snd f), r).
Proof.
  intros (N & W). destruct f as [n w]. cbn [fst snd] in *. unfold write_field. cbn [fst snd]. unfold read_token. destruct w as [v|b|b].
  - replace (n * 8) with (n * 8 + 0) by lia. destruct (tag_split n 0 N ltac:(lia)) as (A & B & C). rewrite <- app_assoc, read_varint32_ok by lia. cbv zeta. rewrite A, B, C.
    destruct (Z.eqb_spec n 0); [lia|]. rewrite read_varint64_ok by lia. rewrite Z.mod_small by lia. reflexivity.
  - destruct (tag_split n 2 N ltac:(lia)) as (A & B & C). rewrite <- app_assoc, read_varint32_ok by lia. cbv zeta. rewrite A, B, C. destruct (Z.eqb_spec n 0); [lia|].
    unfold max_length in *. rewrite <- app_assoc, read_varint32_ok by lia. destruct (Z.ltb_spec (2 ^ 31 - 1 - 16) (Z.of_nat (length b))); [lia|]. rewrite Nat2Z.id, take_ok. reflexivity.
  - destruct W as [W|W]; rewrite W; cbn [Nat.eqb]; [destruct (tag_split n 5 N ltac:(lia)) as (A & B & C)|destruct (tag_split n 1 N ltac:(lia)) as (A & B & C)];
      rewrite <- app_assoc, read_varint32_ok by lia; cbv zeta; rewrite A, B, C; (destruct (Z.eqb_spec n 0); [lia|]); rewrite <- W, take_ok; reflexivity.
Qed.
Lemma write_field_nonempty f : (1 <= length (write_field f))%nat.
Proof.
  unfold write_field. destruct (snd f); rewrite app_length; match goal with |- context [length (varint 4 ?x)] => pose proof (varint_nonempty 4 x) end; lia.
Qed.
Definition as_token (f : Z * wire) : token := Field (fst f) (snd f).
Lemma tokens_more : forall k k' bs l, (k <= k')%nat -> tokens k bs = Some l -> tokens k' bs = Some l.
Proof.
  induction k as [|k IH]; intros k' bs l L E.
  - destruct bs; [destruct k'; exact E|discriminate].
  - destruct bs as [|b bs]; [destruct k'; exact E|]. destruct k' as [|k']; [lia|]. cbn [tokens] in *. destruct (read_token (b :: bs)) as [[t r]|]; [|discriminate].
    destruct (tokens k r) as [l'|] eqn:X; [|discriminate]. rewrite (IH k' r l' ltac:(lia) X). exact E.
Qed.
Lemma tokens_step k t bs r : (0 < length bs)%nat -> read_token bs = Some (t, r) -> tokens (S k) bs = match tokens k r with Some l => Some (t :: l) | None => None end.
Proof. intros L E. destruct bs; [cbn in L; lia|]. cbn [tokens]. rewrite E. reflexivity. Qed.
Lemma tokens_app : forall l r k tl, Forall field_ok l -> tokens k r = Some tl -> tokens (length (write_fields l) + k) (write_fields l ++ r) = Some (map as_token l ++ tl).
Proof.
  induction l as [|f l IH]; intros r k tl F E; [exact E|]. inversion F as [|? ? F1 F2]; subst. unfold write_fields in *. cbn [map concat app]. rewrite <- app_assoc.
  pose proof (write_field_nonempty f) as NE. rewrite app_length. apply (tokens_more (S (length (concat (map write_field l)) + k))); [lia|].
  erewrite tokens_step; [|rewrite !app_length; lia|apply read_written; auto]. rewrite (IH r k tl F2 E). reflexivity.
Qed.
Lemma tokens_written l : Forall field_ok l -> tokens (length (write_fields l)) (write_fields l) = Some (map as_token l).
Proof. intros F. pose proof (tokens_app l [] 0 [] F eq_refl) as X. rewrite !app_nil_r, Nat.add_0_r in X. exact X. Qed.

(** ** fields into a message *)
Fixpoint puts {T} (M : msg T) (l : list (Z * wire)) (t : T) : option T :=
  match l with
  | [] => Some t
  | f :: r => match m_put M (fst f) (snd f) t with Skip => puts M r t | Put t' => puts M r t' | Bad => None end
  end.
Lemma feed_fields {T} (M : msg T) l tl : forall t, feed M [] (map as_token l ++ tl) t = match puts M l t with Some t' => feed M [] tl t' | None => None end.
Proof.
  induction l as [|f l IH]; intros t; [reflexivity|]. cbn [map app as_token feed puts]. destruct (m_put M (fst f) (snd f) t); auto.
Qed.
Lemma puts_app {T} (M : msg T) l l' : forall t, puts M (l ++ l') t = match puts M l t with Some t' => puts M l' t' | None => None end.
Proof. induction l as [|f l IH]; intros t; [reflexivity|]. cbn [app puts]. destruct (m_put M (fst f) (snd f) t); auto. Qed.

(** what a message type keeps: its fields have the numbers [nums], any other field
    is skipped, and what is written is put back if it fits *)
Record sound {T} (M : msg T) (nums : list Z) : Prop := mkSound {
  so_nums : forall t, Forall (fun f => In (fst f) nums) (m_fields M t);
  so_range : forall n, In n nums -> 0 < n < 2 ^ 29;
  so_skip : forall n w t, ~ In n nums -> m_put M n w t = Skip;
  so_short : forall t, m_fits M t -> Z.of_nat (length (serialize M t)) <= max_length -> Forall field_ok (m_fields M t);
  so_back : forall t, m_fits M t -> Z.of_nat (length (serialize M t)) <= max_length -> puts M (m_fields M t) (m_empty M) = Some t }.
Lemma len_short n b r : (length b < length (write_field (n, Len b) ++ r))%nat.
Proof. unfold write_field. cbn [fst snd]. rewrite !app_length. pose proof (varint_nonempty 4 (n * 8 + 2)). lia. Qed.
Lemma merge_back {T} (M : msg T) nums t : sound M nums -> m_fits M t -> Z.of_nat (length (serialize M t)) <= max_length -> merge M (serialize M t) (m_empty M) = Some t.
Proof.
  intros S F L. unfold merge. replace (tokens (length (serialize M t)) (serialize M t)) with (Some (map as_token (m_fields M t))) by (symmetry; apply tokens_written; eapply so_short; eauto).
  pose proof (feed_fields M (m_fields M t) [] (m_empty M)) as X. rewrite app_nil_r in X. rewrite X, (so_back _ _ S t F L). reflexivity.
Qed.
Lemma write_fields_app l l' : write_fields (l ++ l') = write_fields l ++ write_fields l'.
Proof. unfold write_fields. rewrite map_app, concat_app. reflexivity. Qed.

Section Combinators.
Variable n : Z.
Hypothesis N : 0 < n < 2 ^ 29.
Ltac other := intros k w t NI; cbn [In] in NI; cbn [m_put a_put opt_bytes opt_int32 rep_bytes opt_msg rep_msg alt]; destruct (Z.eqb_spec k n); [subst; tauto|reflexivity].
Lemma nums1 : forall k, In k [n] -> 0 < k < 2 ^ 29.
Proof. intros k [<-|[]]. exact N. Qed.
Lemma short1 b : Z.of_nat (length (write_fields [(n, Len b)])) <= max_length -> field_ok (n, Len b).
Proof. intros L. split; [exact N|]. cbn [snd]. unfold write_fields in L. cbn [map concat] in L. rewrite app_nil_r in L. pose proof (len_short n b []) as X. rewrite app_nil_r in X. lia. Qed.
Lemma sound_opt_bytes : sound (opt_bytes n) [n].
Proof.
  constructor; [intros [b|]; cbn; auto|apply nums1|other| |].
  - intros [b|] _ L; cbn [m_fields opt_bytes] in *; [constructor; [apply short1; exact L|]|]; constructor.
  - intros [b|] _ _; [|reflexivity]. cbn [m_fields opt_bytes m_empty puts m_put fst snd]. rewrite Z.eqb_refl. reflexivity.
Qed.
Lemma int32_back i : - 2 ^ 31 <= i < 2 ^ 31 -> int32_of (i mod 2 ^ 64) = i.
Proof.
  intros B. unfold int32_of. assert (X : (i mod 2 ^ 64 + 2 ^ 31) mod 2 ^ 32 = i + 2 ^ 31); [|lia].
  assert (Y : exists k, i mod 2 ^ 64 = i + k * 2 ^ 32).
  { destruct (Z.leb_spec 0 i).
    - exists 0. rewrite Z.mod_small by lia. lia.
    - exists (2 ^ 32). rewrite <- (Z.mod_add i 1 (2 ^ 64)) by lia. rewrite Z.mod_small by lia. lia. }
  destruct Y as (k & ->). replace (i + k * 2 ^ 32 + 2 ^ 31) with (i + 2 ^ 31 + k * 2 ^ 32) by lia. rewrite Z.mod_add by lia. apply Z.mod_small. lia.
Qed.
Lemma sound_opt_int32 : sound (opt_int32 n) [n].
Proof.
  constructor; [intros [b|]; cbn; auto|apply nums1|other| |].
  - intros [i|] _ _; cbn [m_fields opt_int32]; constructor; [|constructor]. split; [exact N|]. cbn [snd]. apply Z.mod_pos_bound. lia.
  - intros [i|] F _; [|reflexivity]. cbn [m_fields opt_int32 m_empty puts m_put fst snd m_fits] in *. rewrite Z.eqb_refl, int32_back by auto. reflexivity.
Qed.
Lemma lens_short (l : list bytes) : Z.of_nat (length (write_fields (map (fun b => (n, Len b)) l))) <= max_length -> Forall field_ok (map (fun b => (n, Len b)) l).
Proof.
  induction l as [|b l IH]; intros L; [constructor|]. cbn [map] in *. change ((n, Len b) :: map (fun b => (n, Len b)) l) with ([(n, Len b)] ++ map (fun b => (n, Len b)) l) in L.
  rewrite write_fields_app, app_length in L. constructor; [apply short1; lia|apply IH; lia].
Qed.
Lemma sound_rep_bytes : sound (rep_bytes n) [n].
Proof.
  constructor; [|apply nums1|other| |].
  - intros l. apply Forall_map, Forall_forall. cbn. auto.
  - intros l _ L. apply lens_short. exact L.
  - intros l _ _. cbn [m_empty m_fields rep_bytes]. assert (G : forall l a, puts (rep_bytes n) (map (fun b => (n, Len b)) l) a = Some (a ++ l)).
    { clear l. induction l as [|b l IH]; intros a; [cbn; rewrite app_nil_r; auto|]. cbn [map puts m_put rep_bytes fst snd]. rewrite Z.eqb_refl. change (mkMsg _ _ _ _) with (rep_bytes n). rewrite IH, <- app_assoc. reflexivity. }
    apply (G l []).
Qed.
Section Nested.
Context {A : Type} (M : msg A) (nums : list Z).
Hypothesis S : sound M nums.
Lemma sound_opt_msg : sound (opt_msg n M) [n].
Proof.
  constructor; [intros [b|]; cbn; auto|apply nums1|other| |].
  - intros [a|] _ L; cbn [m_fields opt_msg] in *; [constructor; [apply short1; exact L|]|]; constructor.
  - intros [a|] F L; [|reflexivity]. cbn [m_fields opt_msg m_empty puts m_put fst snd m_fits] in *. rewrite Z.eqb_refl.
    erewrite merge_back; eauto. apply short1 in L. apply L.
Qed.
Lemma sound_rep_msg : sound (rep_msg n M) [n].
Proof.
  constructor; [|apply nums1|other| |].
  - intros l. apply Forall_map, Forall_forall. cbn. auto.
  - intros l _ L. cbn [m_fields rep_msg]. rewrite <- (map_map (serialize M) (fun b => (n, Len b))). apply lens_short. rewrite map_map. exact L.
  - intros l F L. cbn [m_empty m_fields rep_msg].
    assert (G : forall l a, Forall (m_fits M) l -> Forall field_ok (map (fun a => (n, Len (serialize M a))) l) -> puts (rep_msg n M) (map (fun a => (n, Len (serialize M a))) l) a = Some (a ++ l)).
    { clear l F L. induction l as [|b l IH]; intros a F L; [cbn; rewrite app_nil_r; auto|]. inversion F; subst. cbn [map] in L. inversion L as [|? ? L1 L2]; subst.
      cbn [map puts m_put rep_msg fst snd]. rewrite Z.eqb_refl. unfold parse. erewrite merge_back by (eauto; apply L1). change (mkMsg _ _ _ _) with (rep_msg n M). rewrite IH, <- app_assoc by auto. reflexivity. }
    apply (G l []); auto. rewrite <- (map_map (serialize M) (fun b => (n, Len b))). apply lens_short. rewrite map_map. exact L.
Qed.
End Nested.
End Combinators.

Lemma sound_both {A B} (M : msg A) (M' : msg B) l l' : sound M l -> sound M' l' -> (forall k, In k l -> ~ In k l') -> sound (both M M') (l ++ l').
Proof.
  intros S S' D.
  assert (SH : forall t, Z.of_nat (length (serialize (both M M') t)) <= max_length -> Z.of_nat (length (serialize M (fst t))) <= max_length /\ Z.of_nat (length (serialize M' (snd t))) <= max_length).
  { intros t L. unfold serialize in *. cbn [m_fields both] in L. rewrite write_fields_app, app_length in L. lia. }
  constructor.
  - intros t. cbn [m_fields both]. apply Forall_app. split; eapply Forall_impl; [|apply (so_nums _ _ S)| |apply (so_nums _ _ S')]; intros f I; apply in_or_app; auto.
  - intros n I. apply in_app_or in I as [I|I]; [apply (so_range _ _ S)|apply (so_range _ _ S')]; auto.
  - intros n w t NI. rewrite in_app_iff in NI. cbn [m_put both]. rewrite (so_skip _ _ S), (so_skip _ _ S') by tauto. reflexivity.
  - intros t (F1 & F2) L. apply SH in L as (L1 & L2). cbn [m_fields both]. apply Forall_app. split; [apply (so_short _ _ S)|apply (so_short _ _ S')]; auto.
  - intros [a b] (F1 & F2) L. apply SH in L as (L1 & L2). cbn [fst snd m_fields both] in *. change (m_fits M a) in F1. change (m_fits M' b) in F2.
    assert (P1 : forall fs a0 b0, Forall (fun f => In (fst f) l) fs -> puts (both M M') fs (a0, b0) = match puts M fs a0 with Some a1 => Some (a1, b0) | None => None end).
    { induction fs as [|f fs IH]; intros a0 b0 F; [reflexivity|]. inversion F; subst. cbn [puts m_put both fst snd]. change (mkMsg _ _ _ _) with (both M M').
      destruct (m_put M (fst f) (snd f) a0); auto. rewrite (so_skip _ _ S') by auto. auto. }
    assert (P2 : forall fs a0 b0, Forall (fun f => In (fst f) l') fs -> puts (both M M') fs (a0, b0) = match puts M' fs b0 with Some b1 => Some (a0, b1) | None => None end).
    { induction fs as [|f fs IH]; intros a0 b0 F; [reflexivity|]. inversion F; subst. cbn [puts m_put both fst snd]. change (mkMsg _ _ _ _) with (both M M').
      rewrite (so_skip _ _ S) by (intros I; apply (D _ I); auto). destruct (m_put M' (fst f) (snd f) b0); auto. }
    change (m_empty (both M M')) with (m_empty M, m_empty M'). rewrite puts_app, P1 by apply (so_nums _ _ S). rewrite (so_back _ _ S a F1 L1), P2 by apply (so_nums _ _ S'). rewrite (so_back _ _ S' b F2 L2). reflexivity.
Qed.

(** ** oneof *)
Record sound_alts {T} (a : alts T) (nums : list Z) : Prop := mkSoundA {
  sa_nums : forall t, In (fst (a_field a t)) nums;
  sa_range : forall n, In n nums -> 0 < n < 2 ^ 29;
  sa_skip : forall n w t, ~ In n nums -> a_put a n w t = Skip;
  sa_short : forall t, a_fits a t -> Z.of_nat (length (write_field (a_field a t))) <= max_length -> field_ok (a_field a t);
  sa_back : forall t, a_fits a t -> Z.of_nat (length (write_field (a_field a t))) <= max_length -> a_put a (fst (a_field a t)) (snd (a_field a t)) None = Put t }.
Lemma sound_alt {A} n (M : msg A) nums : 0 < n < 2 ^ 29 -> sound M nums -> sound_alts (alt n M) [n].
Proof.
  intros N S.
  assert (L1 : forall a, Z.of_nat (length (write_field (n, Len (serialize M a)))) <= max_length -> Z.of_nat (length (serialize M a)) <= max_length).
  { intros a L. pose proof (len_short n (serialize M a) []) as X. rewrite app_nil_r in X. lia. }
  constructor.
  - intros a. cbn. auto.
  - apply nums1; auto.
  - intros k w t NI. cbn [In] in NI. cbn [a_put alt]. destruct (Z.eqb_spec k n); [subst; tauto|reflexivity].
  - intros a F L. cbn [a_field alt] in *. apply L1 in L. split; auto.
  - intros a F L. cbn [a_field alt a_put fst snd a_fits] in *. apply L1 in L. rewrite Z.eqb_refl. erewrite merge_back; eauto.
Qed.
Lemma sound_orelse {A B} (a : alts A) (b : alts B) l l' : sound_alts a l -> sound_alts b l' -> (forall k, In k l -> ~ In k l') -> sound_alts (orelse a b) (l ++ l').
Proof.
  intros S S' D. constructor.
  - intros [x|y]; cbn [a_field orelse]; apply in_or_app; [left; apply (sa_nums _ _ S)|right; apply (sa_nums _ _ S')].
  - intros n I. apply in_app_or in I as [I|I]; [apply (sa_range _ _ S)|apply (sa_range _ _ S')]; auto.
  - intros n w t NI. rewrite in_app_iff in NI. cbn [a_put orelse]. rewrite (sa_skip _ _ S), (sa_skip _ _ S') by tauto. reflexivity.
  - intros [x|y] F L; cbn [a_field orelse a_fits] in *; [apply (sa_short _ _ S)|apply (sa_short _ _ S')]; auto.
  - intros [x|y] F L; cbn [a_field orelse a_fits a_put] in *.
    + rewrite (sa_back _ _ S) by auto. reflexivity.
    + rewrite (sa_skip _ _ S), (sa_back _ _ S') by (auto; intros I; apply (D _ I); apply (sa_nums _ _ S')). reflexivity.
Qed.
Lemma sound_oneof {A} (a : alts A) l : sound_alts a l -> sound (oneof a) l.
Proof.
  intros S.
  assert (E : forall x, write_fields [a_field a x] = write_field (a_field a x)) by (intros; unfold write_fields; cbn [map concat]; apply app_nil_r).
  constructor.
  - intros [x|]; cbn [m_fields oneof]; constructor; [apply (sa_nums _ _ S)|constructor].
  - apply (sa_range _ _ S).
  - intros n w t NI. cbn [m_put oneof]. rewrite (sa_skip _ _ S) by auto. reflexivity.
  - intros [x|] F L; cbn [m_fields oneof] in *; constructor; [|constructor]. unfold serialize in L. cbn [m_fields oneof] in L. rewrite E in L. apply (sa_short _ _ S); auto.
  - intros [x|] F L; [|reflexivity]. unfold serialize in L. cbn [m_fields oneof m_empty puts m_put m_fits] in *. rewrite E in L. rewrite (sa_back _ _ S) by auto. reflexivity.
Qed.
