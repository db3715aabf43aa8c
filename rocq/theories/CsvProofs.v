(** Proofs about dataset files. *)
Require Import List Arith Lia ZArith Bool.
Import ListNotations.
From Verif Require Import Prelude BytesModel CsvModel CsvSpec.
Local Open Scope Z_scope.

Definition nz (l : bytes) : Prop := ~ In 0 l.
Lemma nz_cons c l : nz (c :: l) <-> c <> 0 /\ nz l.
Proof. unfold nz. cbn. split; [intros H; split; [intros ->; apply H; auto|auto]|intros (H1 & H2) [E|E]; auto]. Qed.
Lemma nz_app a b : nz (a ++ b) <-> nz a /\ nz b.
Proof. unfold nz. rewrite in_app_iff. tauto. Qed.
Lemma nz_nil : nz []. Proof. intros []. Qed.

Lemma rd_mid A c B : rd (A ++ c :: B) (length A) = Ok c.
Proof. unfold rd. rewrite nth_error_app2, Nat.sub_diag by lia. reflexivity. Qed.
Lemma rd_at A c B i : i = length A -> rd (A ++ c :: B) i = Ok c.
Proof. intros ->. apply rd_mid. Qed.
Lemma set_nth_mid {T} (A : list T) c B x : set_nth (length A) x (A ++ c :: B) = A ++ x :: B.
Proof. induction A; cbn; congruence. Qed.
Lemma wr_at A c B i x : i = length A -> wr (A ++ c :: B) i x = Ok (A ++ x :: B).
Proof. intros ->. unfold wr. rewrite app_length. cbn [length]. rewrite (proj2 (Nat.ltb_lt _ _)) by lia. rewrite set_nth_mid. auto. Qed.
Lemma skipn_mid {T} (A B : list T) i : i = length A -> skipn i (A ++ B) = B.
Proof. intros ->. rewrite skipn_app, skipn_all, Nat.sub_diag. reflexivity. Qed.
Lemma c_string_nz l B : nz l -> c_string (l ++ 0 :: B) = Ok l.
Proof. induction l as [|c l IH]; cbn; auto. rewrite nz_cons. intros (H1 & H2). destruct (Z.eqb_spec c 0); [lia|]. rewrite IH; auto. Qed.
Lemma string_at_mid A f B i : i = length A -> nz f -> string_at (A ++ f ++ 0 :: B) i = Ok f.
Proof. intros E N. unfold string_at. rewrite skipn_mid by auto. apply c_string_nz; auto. Qed.

(** ** white space *)
Lemma drop_spaces_split l : exists sp, l = sp ++ drop_spaces l.
Proof. induction l as [|c l (sp & IH)]; [exists []; auto|]. cbn. destruct (is_space c); [exists (c :: sp); cbn; congruence|exists []; auto]. Qed.
Lemma drop_spaces_nz l : nz l -> nz (drop_spaces l).
Proof. destruct (drop_spaces_split l) as (sp & E). intros H. rewrite E in H. apply nz_app in H. tauto. Qed.
Lemma skip_spaces_ok B : forall l A fuel, nz l -> (length l < fuel)%nat -> exists sp, l = sp ++ drop_spaces l /\
  skip_spaces fuel (A ++ l ++ 0 :: B) comma (length A) = Ok (length (A ++ sp)).
Proof.
  induction l as [|c l IH]; intros A fuel N L; (destruct fuel as [|f]; [cbn in L; lia|]); cbn [skip_spaces].
  - exists []. split; auto. cbn [app]. rewrite rd_mid. cbn. rewrite app_nil_r. auto.
  - cbn [app]. rewrite rd_mid. cbn [obind drop_spaces]. apply nz_cons in N as (N1 & N2). cbn in L.
    destruct (is_space c) eqn:ES; cbn [andb].
    + assert (NC : (c =? comma) = false). { unfold comma, is_space in *. apply Z.eqb_neq. intros ->. discriminate. }
      rewrite NC. cbn [negb]. destruct (IH (A ++ [c]) f N2 ltac:(lia)) as (sp & E & R).
      exists (c :: sp). split; [cbn; congruence|]. rewrite <- app_assoc in R. cbn [app] in R. rewrite app_length, Nat.add_comm in R. cbn [length Nat.add] in R. rewrite R.
      f_equal. rewrite !app_length. cbn. lia.
    + exists []. rewrite app_nil_r. auto.
Qed.

(** ** quoted columns *)
Lemma quoted_ok B : forall n l A G fuel, (length l <= n)%nat -> (n < fuel)%nat -> nz l ->
  let '(v, t) := unquote l in
  exists G', quoted_loop fuel (A ++ G ++ l ++ 0 :: B) (length A + length G) (length A)
             = Ok (A ++ v ++ G' ++ t ++ 0 :: B, (length A + length v + length G')%nat, (length A + length v)%nat)
    /\ (G' <> [] \/ t = []) /\ (length v + length G' + length t = length G + length l)%nat /\ nz v /\ nz t.
Proof.
  induction n as [|n IH]; intros l A G fuel L F N; (destruct fuel as [|f]; [lia|]).
  { destruct l; [|cbn in L; lia]. cbn [unquote quoted_loop app]. exists G. rewrite (app_assoc A G), (rd_at (A ++ G)) by (rewrite app_length; auto).
    cbn. rewrite <- app_assoc, !Nat.add_0_r. repeat split; auto using nz_nil. }
  destruct l as [|c l].
  { cbn [unquote quoted_loop app]. exists G. rewrite (app_assoc A G), (rd_at (A ++ G)) by (rewrite app_length; auto).
    cbn. rewrite <- app_assoc, !Nat.add_0_r. repeat split; auto using nz_nil. }
  apply nz_cons in N as (N1 & N2). cbn [length] in L.
  (* writing the character [x] at [fin] and going on with [l'] *)
  assert (GO : forall x l' K, nz l' -> x <> 0 -> (length l' <= n)%nat -> K <> [] ->
     let '(v, t) := unquote l' in
     exists G', obind (wr (A ++ G ++ K ++ l' ++ 0 :: B) (length A) x) (fun buf' => quoted_loop f buf' (length A + length G + length K) (S (length A)))
             = Ok (A ++ (x :: v) ++ G' ++ t ++ 0 :: B, (length A + length (x :: v) + length G')%nat, (length A + length (x :: v))%nat)
    /\ (G' <> [] \/ t = []) /\ (length (x :: v) + length G' + length t = length G + length K + length l')%nat /\ nz (x :: v) /\ nz t).
  { intros x l' K NL NX LL NK. specialize (IH l' (A ++ [x]) (tl (G ++ K)) f LL ltac:(lia) NL).
    destruct (unquote l') as [v t]. destruct IH as (G' & E & C & LE & NV & NT).
    destruct (G ++ K) as [|g GK] eqn:EG. { destruct G; [|discriminate]. cbn in EG. congruence. }
    assert (LG : (length G + length K = S (length GK))%nat) by (rewrite <- app_length, EG; reflexivity).
    rewrite (app_assoc G), EG. cbn [app tl] in *. rewrite wr_at by auto. cbn [obind].
    rewrite <- !app_assoc in E. cbn [app] in E. rewrite app_length in E. cbn [length] in E.
    replace (length A + length G + length K)%nat with (length A + 1 + length GK)%nat by lia. replace (S (length A)) with (length A + 1)%nat by lia.
    rewrite E. exists G'. cbn [length]. split; [f_equal; f_equal; [f_equal|]; lia|]. split; auto. split; [lia|]. split; auto. apply nz_cons; auto. }
  cbn [unquote quoted_loop]. rewrite (app_assoc A G). cbn [app]. rewrite (rd_at (A ++ G)) by (rewrite app_length; auto). cbn [obind].
  destruct (Z.eqb_spec c 0) as [|_]; [lia|]. unfold quote. destruct (Z.eqb_spec c 34) as [->|NQ].
  - replace (rd ((A ++ G) ++ 34 :: l ++ 0 :: B) (S (length A + length G))) with (rd ((A ++ G ++ [34]) ++ l ++ 0 :: B) (length (A ++ G ++ [34])))
      by (rewrite !app_length; cbn [length]; rewrite <- !app_assoc; cbn [app]; f_equal; lia).
    destruct l as [|d l].
    + cbn [app]. rewrite rd_mid. cbn. exists (G ++ [34]). rewrite <- !app_assoc, app_length. cbn.
      split; [f_equal; f_equal; [f_equal; lia|lia]|]. repeat split; auto using nz_nil; try lia.
    + cbn [app]. rewrite rd_mid. cbn [obind]. destruct (Z.eqb_spec d 34) as [->|ND]; cbn [negb].
      * apply nz_cons in N2 as (_ & N2). specialize (GO 34 l [34; 34] N2 ltac:(lia) ltac:(cbn in L; lia) ltac:(discriminate)).
        destruct (unquote l) as [v t]. destruct GO as (G' & E & C & LE & NV & NT). exists G'. rewrite <- app_assoc. cbn [app length] in E |- *.
        replace (S (S (length A + length G)))%nat with (length A + length G + 2)%nat by lia. rewrite E. cbn [length] in *. repeat split; auto. lia.
      * exists (G ++ [34]). rewrite <- !app_assoc, !app_length. cbn. split; [f_equal; f_equal; [f_equal; lia|lia]|].
        split; [left; destruct G; discriminate|]. split; [lia|]. split; [apply nz_nil|auto].
  - specialize (GO c l [c] N2 N1 ltac:(lia) ltac:(discriminate)).
    destruct (unquote l) as [v t]. destruct GO as (G' & E & C & LE & NV & NT). exists G'. rewrite <- app_assoc. cbn [app length] in E |- *.
    replace (S (length A + length G))%nat with (length A + length G + 1)%nat by lia. rewrite E. cbn [length] in *. repeat split; auto. lia.
Qed.

(** ** commas *)
Lemma comma_split l : l = before_comma l ++ from_comma l.
Proof. induction l as [|c l IH]; auto. cbn. destruct (c =? 44); cbn; congruence. Qed.
Lemma from_comma_head l : from_comma l = [] \/ exists r, from_comma l = 44 :: r.
Proof. induction l as [|c l IH]; auto. cbn. destruct (Z.eqb_spec c 44); [subst; eauto|auto]. Qed.
Lemma before_no_comma l : ~ In 44 (before_comma l).
Proof. induction l as [|c l IH]; cbn; auto. destruct (Z.eqb_spec c 44); cbn; intuition. Qed.
Lemma find_comma B l : nz l -> find_char (l ++ 0 :: B) comma = Ok (match from_comma l with [] => None | _ => Some (length (before_comma l)) end).
Proof.
  induction l as [|c l IH]; cbn; auto. rewrite nz_cons. intros (H1 & H2). unfold comma in *. destruct (Z.eqb_spec c 44); auto.
  destruct (Z.eqb_spec c 0); [lia|]. rewrite IH by auto. cbn. destruct (from_comma l); auto.
Qed.
Lemma strchr_ok A B l i : i = length A -> nz l -> strchr (A ++ l ++ 0 :: B) i comma =
  Ok (match from_comma l with [] => None | _ => Some (length A + length (before_comma l))%nat end).
Proof. intros E N. unfold strchr. rewrite skipn_mid by auto. rewrite find_comma by auto. cbn. destruct (from_comma l); cbn; subst; auto. Qed.

(** ** trailing white space *)
Lemma trim_ok A : forall l R fuel, (length l < fuel)%nat -> ~ In 44 l ->
  trim_loop fuel (A ++ l ++ R) comma (length A) (length A + length l) = Ok (length A + length (rtrim l))%nat.
Proof.
  induction l as [|c l IH] using rev_ind; intros R fuel L N; (destruct fuel as [|f]; [lia|]); cbn [trim_loop].
  { cbn [length]. rewrite Nat.add_0_r, Nat.ltb_irrefl. unfold rtrim. cbn. rewrite Nat.add_0_r. auto. }
  rewrite app_length in *. cbn [length] in *. rewrite (proj2 (Nat.ltb_lt _ _)) by lia.
  rewrite <- app_assoc, (app_assoc A). cbn [app]. rewrite (rd_at (A ++ l)) by (rewrite app_length; lia). cbn [obind].
  unfold rtrim. rewrite rev_app_distr. cbn [rev app drop_spaces].
  destruct (Z.eqb_spec c comma) as [->|NC]. { exfalso. apply N. apply in_app_iff. right. left. reflexivity. }
  destruct (is_space c); cbn [negb orb].
  - rewrite <- app_assoc. replace (length A + (length l + 1) - 1)%nat with (length A + length l)%nat by lia.
    change (A ++ l ++ c :: R) with (A ++ l ++ ([c] ++ R)). apply (IH ([c] ++ R) f); [lia|]. intros Hin. apply N, in_app_iff; auto.
  - f_equal. cbn [rev]. rewrite app_length, !rev_length. cbn. lia.
Qed.
Lemma rtrim_prefix l : exists sp, l = rtrim l ++ sp.
Proof.
  unfold rtrim. destruct (drop_spaces_split (rev l)) as (sp & E). exists (rev sp). rewrite <- rev_app_distr, <- E, rev_involutive. auto.
Qed.

Ltac apps := repeat (progress (cbn [app]; rewrite <- ?app_assoc)); auto.
(** ** one column *)
Definition rest_of {T} (l : list T) : list T := tl l.
Lemma unquote_nz l : nz l -> nz (fst (unquote l)) /\ nz (snd (unquote l)).
Proof.
  intros N. pose proof (quoted_ok [] (length l) l [] [] (S (length l)) ltac:(lia) ltac:(lia) N) as X.
  destruct (unquote l) as [v t]. destruct X as (_ & _ & _ & _ & X). exact X.
Qed.
Lemma step_ok A B l : nz l -> l <> [] ->
  let '(f, rest) := column l in
  exists X line cols, split_step (A ++ l ++ 0 :: B) comma (length A + length l) (length A)
                      = Ok (A ++ X ++ match rest with [] => [] | _ :: more => more ++ 0 :: B end, line, cols)
    /\ match rest with [] => line = (length A + length l)%nat | _ :: more => S line = length (A ++ X) /\ (length X + length more = length l)%nat /\ (length more < length l)%nat /\ nz more end
    /\ forall T, omap (string_at (A ++ X ++ T)) cols = Ok (f :: match rest with [_] => [[]] | _ => [] end).
Proof.
  intros N NE. unfold column, split_step.
  destruct (skip_spaces_ok B l A (S (length (A ++ l ++ 0 :: B))) N ltac:(rewrite !app_length; cbn; lia)) as (sp & EL & ES).
  set (fuel := S (length (A ++ l ++ 0 :: B))) in *.
  assert (FU : forall k : list Z, (length k <= length l)%nat -> (length k < fuel)%nat) by (intros k; subst fuel; rewrite !app_length; cbn; lia).
  rewrite ES. cbn [obind]. clear ES.
  set (l1 := drop_spaces l) in *. assert (N1 : nz l1) by (apply drop_spaces_nz; auto).
  assert (LL : (length l = length sp + length l1)%nat) by (rewrite EL, app_length; auto).
  assert (EB : A ++ l ++ 0 :: B = (A ++ sp) ++ l1 ++ 0 :: B) by (rewrite EL, <- !app_assoc; auto).
  rewrite EB. clearbody l1. clear EL EB N NE. destruct l1 as [|c r].
  - cbn [app]. rewrite rd_mid. cbn [obind]. unfold quote. cbn [Z.eqb andb].
    pose proof (strchr_ok (A ++ sp) B [] (length (A ++ sp)) eq_refl nz_nil) as SC. cbn [app from_comma] in SC. rewrite SC. cbn [obind].
    pose proof (trim_ok (A ++ sp) [] (0 :: B) fuel ltac:(apply FU; cbn; lia) ltac:(intros [])) as TR. cbn [app length] in TR. rewrite Nat.add_0_r in TR.
    cbn [length] in LL. rewrite Nat.add_0_r in LL. replace (length A + length l)%nat with (length (A ++ sp)) by (rewrite app_length; lia).
    rewrite TR. cbn [obind rtrim rev drop_spaces length]. rewrite Nat.add_0_r. rewrite rd_mid. cbn [obind]. rewrite wr_at by auto. cbn [obind].
    exists (sp ++ 0 :: B), (length (A ++ sp)), [length (A ++ sp)]. rewrite app_nil_r, <- app_assoc. split; [reflexivity|]. split; [reflexivity|].
    intros T. cbn [omap]. rewrite <- app_assoc. rewrite (app_assoc A sp). cbn [app].
    pose proof (string_at_mid (A ++ sp) [] (B ++ T) (length (A ++ sp)) eq_refl nz_nil) as SA. cbn [app] in SA. rewrite SA. reflexivity.
  - cbn [app]. rewrite rd_mid. cbn [obind]. unfold quote. change (comma =? comma) with true. rewrite andb_true_r. apply nz_cons in N1 as (NC & NR).
    destruct (Z.eqb_spec c 34) as [->|NQ].
    + (* quoted *)
      replace ((A ++ sp) ++ 34 :: r ++ 0 :: B) with ((A ++ sp ++ [34]) ++ [] ++ r ++ 0 :: B) by (rewrite <- !app_assoc; reflexivity).
      replace (S (length (A ++ sp))) with (length (A ++ sp ++ [34%Z]) + length (@nil Z))%nat by (rewrite !app_length; cbn; lia).
      pose proof (quoted_ok B (length r) r (A ++ sp ++ [34]) [] fuel ltac:(lia) ltac:(apply FU; cbn in LL; lia) NR) as Q.
      set (A1 := A ++ sp ++ [34]) in *. destruct (unquote r) as [v t]. destruct Q as (G & Q & C & LE & NV & NT).
      replace (length A1 + length (@nil Z))%nat with (length A1) in * by (cbn; lia). rewrite Q. cbn [obind].
      assert (LA : length A1 = (length A + length sp + 1)%nat) by (subst A1; rewrite !app_length; cbn; lia).
      pose proof (strchr_ok (A1 ++ v ++ G) B t (length A1 + length v + length G) ltac:(rewrite !app_length; lia) NT) as SC.
      rewrite <- !app_assoc in SC. rewrite SC. cbn [obind]. cbn [length] in LL, LE.
      pose proof (comma_split t) as ET. destruct (from_comma_head t) as [EF|(more & EF)]; rewrite EF in *.
      * rewrite app_nil_r in ET.
        replace (A1 ++ v ++ G ++ t ++ 0 :: B) with ((A1 ++ v ++ G ++ t) ++ 0 :: B) by (rewrite <- !app_assoc; auto).
        rewrite (rd_at (A1 ++ v ++ G ++ t)) by (rewrite !app_length; lia). cbn [obind]. change (0 =? comma) with false. cbn [andb].
        assert (W : exists Y, wr ((A1 ++ v ++ G ++ t) ++ 0 :: B) (length A1 + length v) 0 = Ok (A1 ++ v ++ 0 :: Y)).
        { destruct G as [|g G].
          - destruct C as [C| ->]; [congruence|]. rewrite !app_nil_r. rewrite wr_at by (rewrite app_length; auto). exists B. rewrite <- app_assoc. auto.
          - exists (G ++ t ++ 0 :: B). replace ((A1 ++ v ++ (g :: G) ++ t) ++ 0 :: B) with ((A1 ++ v) ++ g :: G ++ t ++ 0 :: B) by (cbn [app]; rewrite <- !app_assoc; cbn [app]; rewrite <- ?app_assoc; reflexivity).
            rewrite wr_at by (rewrite app_length; auto). rewrite <- app_assoc. reflexivity. }
        destruct W as (Y & W). rewrite W. cbn [obind]. exists (sp ++ [34] ++ v ++ 0 :: Y), (length A + length l)%nat, [length A1].
        subst A1. rewrite <- !app_assoc, app_nil_r. split; [reflexivity|]. split; [reflexivity|]. intros T. cbn [omap].
        rewrite <- !app_assoc. cbn [app]. replace (A ++ sp ++ 34 :: v ++ 0 :: Y ++ T) with ((A ++ sp ++ [34]) ++ v ++ 0 :: (Y ++ T)) by (rewrite <- !app_assoc; auto).
        rewrite string_at_mid by auto. reflexivity.
      * destruct G as [|g G].
        { destruct C as [C| ->]; [congruence|]. discriminate EF. }
        set (b := before_comma t) in *.
        replace (A1 ++ v ++ (g :: G) ++ t ++ 0 :: B) with ((A1 ++ v ++ (g :: G) ++ b) ++ 44 :: more ++ 0 :: B)
          by (rewrite ET, <- !app_assoc; cbn [app]; rewrite <- ?app_assoc; auto).
        rewrite (rd_at (A1 ++ v ++ (g :: G) ++ b)) by (rewrite !app_length; lia). cbn [obind]. change (44 =? comma) with true. cbn [andb].
        replace ((A1 ++ v ++ (g :: G) ++ b) ++ 44 :: more ++ 0 :: B) with ((A1 ++ v) ++ g :: G ++ b ++ 44 :: more ++ 0 :: B)
          by (cbn [app]; rewrite <- !app_assoc; cbn [app]; rewrite <- ?app_assoc; auto).
        rewrite wr_at by (rewrite app_length; auto). cbn [obind].
        assert (LT : (length t = length b + S (length more))%nat) by (rewrite ET, app_length; auto).
        apply (f_equal (@length Z)) in ET. rewrite app_length in ET. cbn [length] in *.
        exists (sp ++ [34] ++ v ++ 0 :: G ++ b ++ [44]). eexists _, _. split.
        { f_equal. f_equal. f_equal. subst A1. apps. }
        split. { rewrite !app_length. cbn [length]. rewrite !app_length. cbn [length]. rewrite LA. repeat split; try lia.
                 assert (X : nz (b ++ 44 :: more)) by (rewrite <- EF; subst b; rewrite <- comma_split; auto). apply nz_app in X as (_ & X). apply nz_cons in X. tauto. }
        intros T. set (S0 := A ++ (sp ++ [34] ++ v ++ 0 :: G ++ b ++ [44]) ++ T).
        assert (E1 : S0 = A1 ++ v ++ 0 :: G ++ b ++ 44 :: T) by (subst S0 A1; apps).
        assert (E2 : S0 = (A1 ++ v) ++ [] ++ 0 :: G ++ b ++ 44 :: T) by (rewrite E1, <- app_assoc; reflexivity).
        match goal with |- context [(?x =? ?y)%nat] => assert (EA : (x =? y)%nat = match more with [] => true | _ => false end) end.
        { rewrite !app_length. destruct more; cbn [length] in *; [apply Nat.eqb_eq|apply Nat.eqb_neq]; lia. }
        rewrite EA. destruct more as [|m more]; cbn [omap]; rewrite E1 at 1; rewrite string_at_mid by auto; cbn [obind]; auto.
        rewrite E2, string_at_mid by (auto using nz_nil; rewrite app_length; auto). reflexivity.
    + (* plain *)
      set (A1 := A ++ sp) in *. assert (LA : length A1 = (length A + length sp)%nat) by (subst A1; rewrite app_length; auto).
      set (k := c :: r) in *. assert (NK : nz k) by (apply nz_cons; auto). cbn [length] in LL. change (S (length r)) with (length k) in LL.
      change (A1 ++ c :: r ++ 0 :: B) with (A1 ++ k ++ 0 :: B).
      rewrite strchr_ok by auto. cbn [obind]. pose proof (comma_split k) as EK. pose proof (before_no_comma k) as NB.
      destruct (rtrim_prefix (before_comma k)) as (ws & EW). set (b := before_comma k) in *. set (f := rtrim b) in *.
      pose proof (from_comma_head k) as FH. set (rest := from_comma k) in *. clearbody rest b k. subst k.
      assert (NF : nz f). { rewrite EW in NK. rewrite !nz_app in NK. tauto. }
      destruct FH as [->|(more & ->)].
      * rewrite app_nil_r in *.
        replace (length A + length l)%nat with (length A1 + length b)%nat by lia.
        rewrite trim_ok; [|apply FU; lia|auto]. cbn [obind].
        rewrite (app_assoc A1 b), (rd_at (A1 ++ b)) by (rewrite app_length; auto). cbn [obind]. change (0 =? comma) with false. cbn [andb].
        assert (W : exists Y, wr ((A1 ++ b) ++ 0 :: B) (length A1 + length f) 0 = Ok (A1 ++ f ++ 0 :: Y)).
        { rewrite EW. fold f. destruct ws as [|w ws].
          - rewrite !app_nil_r. rewrite wr_at by (rewrite app_length; auto). exists B. rewrite <- app_assoc. auto.
          - exists (ws ++ 0 :: B). rewrite (app_assoc A1), <- app_assoc. cbn [app]. rewrite wr_at by (rewrite app_length; auto). rewrite <- app_assoc. auto. }
        destruct W as (Y & W). fold f. rewrite W. cbn [obind]. exists (sp ++ f ++ 0 :: Y), (length A1 + length b)%nat, [length A1].
        subst A1. rewrite <- !app_assoc, app_nil_r. split; [reflexivity|]. split; [reflexivity|]. intros T. cbn [omap].
        replace (A ++ (sp ++ f ++ 0 :: Y) ++ T) with ((A ++ sp) ++ f ++ 0 :: (Y ++ T)) by (rewrite <- !app_assoc; auto).
        rewrite string_at_mid by auto. reflexivity.
      * rewrite app_length in LL. cbn [length] in LL. rewrite <- app_assoc. cbn [app].
        rewrite trim_ok; [|apply FU; lia|auto]. cbn [obind].
        rewrite (app_assoc A1 b), (rd_at (A1 ++ b)) by (rewrite app_length; auto). cbn [obind]. change (44 =? comma) with true. cbn [andb]. fold f.
        assert (W : exists Y, wr ((A1 ++ b) ++ 44 :: more ++ 0 :: B) (length A1 + length f) 0 = Ok ((A1 ++ f ++ 0 :: Y) ++ more ++ 0 :: B) /\ length (f ++ 0 :: Y) = S (length b)).
        { rewrite EW. fold f. destruct ws as [|w ws].
          - rewrite !app_nil_r. rewrite wr_at by (rewrite app_length; auto). exists []. rewrite <- !app_assoc, !app_length. cbn. split; [auto|lia].
          - exists (ws ++ [44]). rewrite (app_assoc A1), <- app_assoc. cbn [app]. rewrite wr_at by (rewrite app_length; auto). split; [apps|]. rewrite !app_length. cbn. rewrite !app_length. cbn. lia. }
        destruct W as (Y & W & LY). rewrite W. cbn [obind].
        exists (sp ++ f ++ 0 :: Y). eexists _, _. split. { subst A1. rewrite <- !app_assoc. reflexivity. }
        split. { rewrite !app_length in *. cbn [length] in *. repeat split; try lia. apply nz_app in NK as (_ & NK). apply nz_cons in NK. tauto. }
        intros T. set (S0 := A ++ (sp ++ f ++ 0 :: Y) ++ T).
        assert (E1 : S0 = A1 ++ f ++ 0 :: Y ++ T) by (subst S0 A1; rewrite <- !app_assoc; cbn [app]; auto).
        assert (E2 : S0 = (A1 ++ f) ++ [] ++ 0 :: Y ++ T) by (rewrite E1, <- app_assoc; reflexivity).
        match goal with |- context [(?x =? ?y)%nat] => assert (EA : (x =? y)%nat = match more with [] => true | _ => false end) end.
        { rewrite ?app_length. destruct more; cbn [length] in *; [apply Nat.eqb_eq|apply Nat.eqb_neq]; lia. }
        rewrite EA. destruct more as [|m more]; cbn [omap]; rewrite E1 at 1; rewrite string_at_mid by auto; cbn [obind]; auto.
        rewrite E2, string_at_mid; [reflexivity| |apply nz_nil]. subst A1 f. rewrite !app_length. lia.
Qed.

(** ** a whole line *)
Lemma omap_app_ok {T U} (g : T -> outcome U) a b x y : omap g a = Ok x -> omap g b = Ok y -> omap g (a ++ b) = Ok (x ++ y).
Proof.
  revert x. induction a as [|c a IH]; intros x; cbn; [intros H; inversion H; auto|].
  intros H1 H2. apply obind_Ok in H1 as (u & E1 & H1). apply obind_Ok in H1 as (us & E2 & H1). inversion H1; subst.
  rewrite E1. cbn. rewrite (IH us); auto.
Qed.
Lemma loop_ok B : forall n l A cols fuel, (length l <= n)%nat -> (n < fuel)%nat -> nz l ->
  exists Y new, split_loop fuel (A ++ l ++ 0 :: B) comma (length A + length l) (length A) cols = Ok (A ++ Y, cols ++ new)
    /\ forall k, (length l <= k)%nat -> omap (string_at (A ++ Y)) new = Ok (columns k l).
Proof.
  induction n as [|n IH]; intros l A cols fuel L F N; (destruct fuel as [|fuel]; [lia|]).
  { destruct l; [|cbn in L; lia]. cbn [split_loop]. rewrite Nat.add_0_r, Nat.ltb_irrefl. exists ([] ++ 0 :: B), []. rewrite app_nil_r. split; auto. intros [|k] _; reflexivity. }
  destruct l as [|c l]. { cbn [split_loop]. rewrite Nat.add_0_r, Nat.ltb_irrefl. exists ([] ++ 0 :: B), []. rewrite app_nil_r. split; auto. intros [|k] _; reflexivity. }
  cbn [split_loop]. rewrite (proj2 (Nat.ltb_lt _ _)) by (cbn; lia).
  pose proof (step_ok A B (c :: l) N ltac:(discriminate)) as X. destruct (column (c :: l)) as [f rest] eqn:EC.
  destruct X as (X & line & new & ES & LI & ST). rewrite ES. cbn [obind].
  destruct rest as [|c' more].
  - subst line. destruct fuel as [|fuel]; [cbn in L; lia|]. cbn [split_loop]. rewrite (proj2 (Nat.ltb_ge _ _)) by lia.
    exists X, new. rewrite app_nil_r. split; auto. intros [|k] LK; [cbn in LK; lia|]. specialize (ST []). rewrite app_nil_r in ST. rewrite ST. cbn [columns]. rewrite EC. auto.
  - destruct LI as (LI & LM & LT & NM). specialize (IH more (A ++ X) (cols ++ new) fuel ltac:(cbn [length] in LT, L; lia) ltac:(lia) NM).
    destruct IH as (Y & new' & E & IH). exists (X ++ Y), (new ++ new').
    replace (length A + length (c :: l))%nat with (length (A ++ X) + length more)%nat by (rewrite app_length; lia). rewrite <- LI in E |- *.
    rewrite <- !app_assoc in E. rewrite E. rewrite <- ?app_assoc. split; auto. intros [|k] LK; [cbn in LK; lia|].
    cbn [columns]. rewrite EC. destruct more as [|m more].
    + erewrite omap_app_ok; [|apply ST|rewrite app_assoc; apply (IH O); cbn; lia]. reflexivity.
    + assert (LK' : (length (m :: more) <= k)%nat) by (cbn [length] in *; lia).
      erewrite omap_app_ok; [|apply ST|rewrite app_assoc; apply (IH k LK')]. reflexivity.
Qed.
Lemma until_nul_nz l : nz (until_nul l).
Proof. induction l as [|c l IH]; cbn; [apply nz_nil|]. destruct (Z.eqb_spec c 0); [apply nz_nil|]. apply nz_cons; auto. Qed.
Lemma until_nul_id l : nz l -> until_nul l = l.
Proof. induction l as [|c l IH]; cbn; auto. rewrite nz_cons. intros (H1 & H2). destruct (Z.eqb_spec c 0); [lia|]. rewrite IH; auto. Qed.
Lemma until_nul_length l : (length (until_nul l) <= length l)%nat.
Proof. induction l as [|c l IH]; cbn; auto. destruct (c =? 0); cbn; lia. Qed.
Lemma columns_fuel : forall n l k k', (length l <= n)%nat -> (length l <= k)%nat -> (length l <= k')%nat -> nz l -> columns k l = columns k' l.
Proof.
  intros n l k k' _ L1 L2 N. destruct (loop_ok [] (length l) l [] [] (S (length l)) ltac:(lia) ltac:(lia) N) as (Y & new & _ & H).
  pose proof (H k L1) as H1. rewrite (H k' L2) in H1. congruence.
Qed.
Lemma split_ok s : split_csv_line s = Ok (csv_columns s).
Proof.
  unfold split_csv_line, split_with, strndup, csv_columns. set (l := until_nul s). cbn [repeat].
  pose proof (until_nul_nz s) as N. pose proof (until_nul_length s) as LL. fold l in N, LL. set (B := repeat 0 (length s - length l)).
  rewrite c_string_nz by auto. cbn [obind].
  destruct (loop_ok B (length l) l [] [] (S (length (l ++ 0 :: B))) ltac:(lia) ltac:(rewrite app_length; lia) N) as (Y & new & E & H).
  cbn [app length Nat.add] in E, H. rewrite E. cbn [obind app]. apply H. auto.
Qed.

(** ** written rows *)
Definition esc (c : Z) : bytes := if c =? quote then [quote; quote] else [c].
Lemma unquote_esc e T : match T with 34 :: _ => False | _ => True end -> unquote (flat_map esc e ++ quote :: T) = (e, T).
Proof.
  intros HT. induction e as [|c e IH]; cbn [flat_map app].
  - cbn. destruct T as [|d T]; auto. destruct (Z.eqb_spec d 34); [subst; tauto|auto].
  - rewrite <- app_assoc. unfold esc at 1, quote at 1. destruct (Z.eqb_spec c 34) as [->|NC]; unfold quote; cbn [app unquote]; cbn [Z.eqb Pos.eqb].
    + change 34 with quote at 2 3. fold quote. rewrite IH. auto.
    + apply Z.eqb_neq in NC. rewrite NC. fold quote. rewrite IH. auto.
Qed.
Lemma escape_shape e T : escape_for_csv e ++ T = quote :: flat_map esc e ++ quote :: T.
Proof. unfold escape_for_csv. cbn [app]. rewrite <- app_assoc. reflexivity. Qed.
Lemma in_flat_esc x e : In x (flat_map esc e) <-> In x e.
Proof.
  rewrite in_flat_map. unfold esc. split.
  - intros (c & H1 & H2). destruct (Z.eqb_spec c quote); cbn in H2; intuition congruence.
  - intros H. exists x. split; auto. destruct (Z.eqb_spec x quote); cbn; auto.
Qed.
Lemma columns_escaped e : nz e -> csv_columns (escape_for_csv e) = [e].
Proof.
  intros N. unfold csv_columns. rewrite <- (app_nil_r (escape_for_csv e)), escape_shape. cbn [length].
  rewrite until_nul_id. 2:{ apply nz_cons. split; [discriminate|]. apply nz_app. split; [intros H; apply N; apply in_flat_esc; auto|]. apply nz_cons. split; [discriminate|apply nz_nil]. }
  cbn [columns]. unfold column. cbn [drop_spaces]. change (is_space quote) with false. cbn iota. change (quote =? 34) with true. cbn iota. rewrite unquote_esc by auto. reflexivity.
Qed.
(** text without spaces, commas and quotes *)
Definition plain (l : bytes) : Prop := l <> [] /\ Forall (fun c => is_space c = false /\ c <> 34 /\ c <> 44 /\ c <> 0 /\ c <> 10) l.
Lemma plain_columns l k : plain l -> (length l <= k)%nat -> columns k l = [l].
Proof.
  intros (NE & F) L. destruct l as [|c l]; [congruence|]. destruct k as [|k]; [cbn in L; lia|]. cbn [columns].
  unfold column. pose proof F as F0. apply Forall_cons_iff in F as ((S1 & Q & C & Z0 & _) & F). cbn [drop_spaces]. rewrite S1.
  apply Z.eqb_neq in Q. rewrite Q.
  assert (BC : forall l, Forall (fun c => is_space c = false /\ c <> 34 /\ c <> 44 /\ c <> 0 /\ c <> 10) l -> before_comma l = l /\ from_comma l = []).
  { clear. induction l as [|c l IH]; intros F; auto. apply Forall_cons_iff in F as ((S1 & Q & C & _) & F). cbn. apply Z.eqb_neq in C. rewrite C. destruct (IH F) as (-> & ->). auto. }
  destruct (BC (c :: l) F0) as (-> & ->). f_equal. unfold rtrim.
  assert (D : drop_spaces (rev (c :: l)) = rev (c :: l)).
  { destruct (rev (c :: l)) as [|d r] eqn:E; auto. cbn. apply Forall_rev in F0. rewrite E in F0. apply Forall_cons_iff in F0 as ((-> & _) & _). auto. }
  rewrite D, rev_involutive. auto.
Qed.
Lemma plain_nz l : plain l -> nz l.
Proof. intros (_ & F) H. rewrite Forall_forall in F. specialize (F 0 H). tauto. Qed.
Lemma columns_escaped_value e v : nz e -> plain v -> csv_columns (escape_for_csv e ++ comma :: v) = [e; v].
Proof.
  intros N PV. unfold csv_columns. rewrite escape_shape. cbn [length].
  rewrite until_nul_id. 2:{ apply nz_cons. split; [discriminate|]. apply nz_app. split; [intros H; apply N; apply in_flat_esc; auto|]. apply nz_cons. split; [discriminate|].
    apply nz_cons. split; [discriminate|apply plain_nz; auto]. }
  cbn [columns]. unfold column. cbn [drop_spaces]. change (is_space quote) with false. cbn iota. change (quote =? 34) with true. cbn iota. rewrite unquote_esc by exact I.
  cbn [from_comma]. change (comma =? 44) with true. cbn iota. destruct v as [|c v]; [destruct PV; congruence|].
  rewrite plain_columns; auto. rewrite !app_length. cbn [length]. lia.
Qed.

(** ** numbers *)
Lemma digits_value_app a : forall acc b, Forall (fun c => is_digit c = true) a -> digits_value (a ++ b) acc = digits_value b (digits_value a acc).
Proof. induction a as [|c a IH]; intros acc b F; cbn; auto. apply Forall_cons_iff in F as (F1 & F2). rewrite F1. auto. Qed.
Lemma digits_value_acc l : forall acc, Forall (fun c => is_digit c = true) l -> digits_value l acc = acc * 10 ^ Z.of_nat (length l) + digits_value l 0.
Proof.
  induction l as [|c l IH]; intros acc F; cbn [digits_value length]; [cbn; lia|]. apply Forall_cons_iff in F as (F1 & F2). rewrite F1, IH by auto. rewrite (IH (0 * 10 + (c - 48))) by auto.
  rewrite Nat2Z.inj_succ, Z.pow_succ_r by lia. lia.
Qed.
Lemma is_digit_range x : 0 <= x < 10 -> is_digit (48 + x) = true.
Proof. intros H. unfold is_digit. apply andb_true_iff. split; apply Z.leb_le; lia. Qed.
Lemma dec_digits_ok : forall fuel x acc, 0 <= x < 2 ^ Z.of_nat fuel -> (0 < fuel)%nat -> Forall (fun c => is_digit c = true) acc ->
  Forall (fun c => is_digit c = true) (dec_digits fuel x acc) /\ dec_digits fuel x acc <> [] /\
  digits_value (dec_digits fuel x acc) 0 = x * 10 ^ Z.of_nat (length acc) + digits_value acc 0.
Proof.
  induction fuel as [|f IH]; intros x acc R PF F; [lia|]. cbn [dec_digits]. destruct (Z.ltb_spec x 10).
  - split; [constructor; auto; apply is_digit_range; lia|]. split; [discriminate|]. cbn [digits_value]. rewrite is_digit_range by lia. rewrite digits_value_acc by auto. lia.
  - assert (M : 0 <= x mod 10 < 10) by (apply Z.mod_pos_bound; lia). pose proof (Z.div_mod x 10 ltac:(lia)) as DM.
    assert (D : 0 <= x / 10 < 2 ^ Z.of_nat f).
    { split; [apply Z.div_pos; lia|]. rewrite Nat2Z.inj_succ, Z.pow_succ_r in R by lia. apply Z.div_lt_upper_bound; lia. }
    assert (PF' : (0 < f)%nat). { destruct f; [|lia]. cbn in D. assert (x / 10 <> 0); [|lia]. intros E. rewrite E in DM. lia. }
    destruct (IH (x / 10) ((48 + x mod 10) :: acc) D PF' ltac:(constructor; auto; apply is_digit_range; lia)) as (I1 & I2 & I3).
    split; auto. split; auto. rewrite I3. cbn [length digits_value]. rewrite is_digit_range by lia. rewrite (digits_value_acc acc (0 * 10 + _)) by auto.
    rewrite Nat2Z.inj_succ, Z.pow_succ_r by lia. nia.
Qed.
Lemma dec_nat_ok x : 0 <= x -> Forall (fun c => is_digit c = true) (dec_nat x) /\ dec_nat x <> [] /\ digits_value (dec_nat x) 0 = x.
Proof.
  intros H. unfold dec_nat. destruct (dec_digits_ok (S (Z.to_nat (Z.log2 x))) x []) as (A & B & C); auto; try lia.
  - split; auto. rewrite Nat2Z.inj_succ, Z2Nat.id by apply Z.log2_nonneg. destruct (Z.eq_dec x 0) as [->|]; [cbn; lia|]. apply Z.log2_spec; lia.
  - split; auto. split; auto. rewrite C. cbn. lia.
Qed.
Lemma digit_facts c : is_digit c = true -> is_space c = false /\ c <> 34 /\ c <> 44 /\ c <> 0 /\ c <> 10 /\ c <> 45 /\ c <> 43.
Proof.
  unfold is_digit, is_space. rewrite andb_true_iff, !Z.leb_le. intros (H1 & H2). repeat split; try lia.
Qed.
Lemma dec_nat_parse x : 0 <= x -> parse_number (dec_nat x) = Some (false, x).
Proof.
  intros H. destruct (dec_nat_ok x H) as (F & NE & V). unfold parse_number. destruct (dec_nat x) as [|c l]; [congruence|].
  apply Forall_cons_iff in F as (F1 & F2). destruct (digit_facts c F1) as (S1 & _ & _ & _ & _ & M & P). cbn [drop_spaces]. rewrite S1. cbn [parse_sign].
  apply Z.eqb_neq in M, P. rewrite M, P, F1, V. auto.
Qed.
Lemma dec_int_parse x : parse_number (dec_int x) = Some (x <? 0, Z.abs x).
Proof.
  unfold dec_int. destruct (Z.ltb_spec x 0).
  - destruct (dec_nat_ok (- x) ltac:(lia)) as (F & NE & V). unfold parse_number. cbn [drop_spaces]. change (is_space 45) with false. cbn iota. cbn [parse_sign]. cbn [Z.eqb Pos.eqb].
    destruct (dec_nat (- x)) as [|c l]; [congruence|]. apply Forall_cons_iff in F as (F1 & F2). rewrite F1, V. f_equal. f_equal. lia.
  - rewrite dec_nat_parse by auto. f_equal. f_equal. lia.
Qed.
Lemma dec_int_plain x : plain (dec_int x).
Proof.
  assert (D : forall y, 0 <= y -> Forall (fun c => is_space c = false /\ c <> 34 /\ c <> 44 /\ c <> 0 /\ c <> 10) (dec_nat y)).
  { intros y H. destruct (dec_nat_ok y H) as (F & _). eapply Forall_impl; [|exact F]. intros c HC. apply digit_facts in HC. tauto. }
  unfold dec_int. destruct (Z.ltb_spec x 0); split.
  - discriminate.
  - constructor; [repeat split; auto; discriminate|]. apply D. lia.
  - apply dec_nat_ok; auto.
  - apply D; auto.
Qed.
Lemma stoll_dec x : - 2 ^ 63 <= x < 2 ^ 63 -> stoll (dec_int x) = Ok x.
Proof.
  intros H. unfold stoll. rewrite dec_int_parse. destruct (Z.ltb_spec x 0).
  - rewrite (proj2 (andb_true_iff _ _)); [f_equal; lia|]. split; [apply Z.leb_le|apply Z.ltb_lt]; lia.
  - rewrite (proj2 (andb_true_iff _ _)); [f_equal; lia|]. split; [apply Z.leb_le|apply Z.ltb_lt]; lia.
Qed.

(** ** files *)
Lemma get_lines_line l : forall cur r, ~ In newline l -> get_lines (l ++ newline :: r) cur = (cur ++ l) :: get_lines r [].
Proof.
  induction l as [|c l IH]; intros cur r N; cbn [get_lines app].
  - change (newline =? newline) with true. cbn iota. rewrite app_nil_r. auto.
  - destruct (Z.eqb_spec c newline) as [->|NC]; [exfalso; apply N; left; auto|]. rewrite IH by (intros H; apply N; right; auto). rewrite <- app_assoc. auto.
Qed.
Lemma escape_no_newline e : ~ In newline e -> ~ In newline (escape_for_csv e).
Proof.
  intros N H. unfold escape_for_csv in H. destruct H as [H|H]; [discriminate|]. apply in_app_iff in H as [H|[H|[]]]; [|discriminate]. apply N, in_flat_esc; auto.
Qed.
Definition int64 (x : Z) : Prop := - 2 ^ 63 <= x < 2 ^ 63.
Lemma rows_roundtrip_plain es : Forall clean es -> forall vs, exists file, write_rows es false vs = Ok file /\ read_rows (get_lines file []) = Ok (mkDataset es []).
Proof.
  induction es as [|e es IH]; intros F vs; cbn [write_rows]; [eexists; split; reflexivity|].
  apply Forall_cons_iff in F as ((N0 & N10) & F). destruct (IH F vs) as (file & -> & R). cbn [obind]. eexists. split; [reflexivity|].
  rewrite get_lines_line by (apply escape_no_newline; auto). cbn [app read_rows]. rewrite split_ok, columns_escaped by auto. cbn [obind]. rewrite R. reflexivity.
Qed.
Lemma rows_roundtrip_values es : Forall clean es -> forall vs, length vs = length es -> Forall int64 vs ->
  exists file, write_rows es true vs = Ok file /\ read_rows (get_lines file []) = Ok (mkDataset es vs).
Proof.
  induction es as [|e es IH]; intros F vs L I; (destruct vs as [|v vs]; cbn in L; try lia); cbn [write_rows]; [eexists; split; reflexivity|].
  apply Forall_cons_iff in F as ((N0 & N10) & F). apply Forall_cons_iff in I as (I1 & I). destruct (IH F vs ltac:(lia) I) as (file & -> & R). cbn [obind]. eexists. split; [reflexivity|].
  replace (escape_for_csv e ++ comma :: dec_int v ++ newline :: file) with ((escape_for_csv e ++ comma :: dec_int v) ++ newline :: file) by (rewrite <- app_assoc; reflexivity).
  pose proof (dec_int_plain v) as PV. rewrite get_lines_line.
  - cbn [app read_rows]. rewrite split_ok, columns_escaped_value by auto. cbn [obind]. rewrite stoll_dec by auto. cbn [obind]. rewrite R. reflexivity.
  - intros H. apply in_app_iff in H as [H|[H|H]]; [eapply escape_no_newline; eauto|discriminate|]. destruct PV as (_ & PV). rewrite Forall_forall in PV. specialize (PV _ H). tauto.
Qed.
