(** * C41: dataset files *)
Require Import List Arith Lia ZArith Bool.
Import ListNotations.
From Verif Require Import Prelude BytesModel WireModel CsvModel CsvSpec CsvProofs.
Local Open Scope Z_scope.

(** Splitting a line never touches memory outside the copy of the line, always
    ends, and gives the columns as specified; for every byte string. *)
Theorem C41_splitting : forall line, split_csv_line line = Ok (csv_columns line).
Proof. exact split_ok. Qed.

Theorem C41_roundtrip : forall d,
  Forall clean (d_elements d) -> Forall int64 (d_values d) ->
  d_values d = [] \/ length (d_values d) = length (d_elements d) ->
  exists file, dataset_write d = Ok file /\ dataset_read file = Ok d.
Proof.
  intros [es vs] C I L. cbn [d_elements d_values] in *. unfold dataset_write, dataset_read. cbn [d_elements d_values].
  destruct vs as [|v vs].
  - destruct (rows_roundtrip_plain es C []) as (file & W & R). exists file. cbn [length Nat.eqb negb]. split; auto. rewrite R. reflexivity.
  - destruct L as [L|L]; [discriminate|]. destruct (rows_roundtrip_values es C (v :: vs) L I) as (file & W & R). exists file. cbn [length Nat.eqb negb]. split; auto.
    rewrite R. cbn [obind d_elements d_values]. rewrite L, Nat.eqb_refl, andb_false_r. reflexivity.
Qed.

(** ... and nothing else survives. *)
Lemma Ok_inj {A} (a b : A) : Ok a = Ok b -> b = a. Proof. congruence. Qed.
Definition newlines (l : bytes) : nat := length (filter (fun c => c =? newline) l).
Lemma get_lines_length l : forall cur r, length (get_lines (l ++ newline :: r) cur) = (newlines l + 1 + length (get_lines r []))%nat.
Proof.
  induction l as [|c l IH]; intros cur r; unfold newlines in *; cbn [app get_lines filter].
  - change (newline =? newline) with true. cbn. lia.
  - destruct (c =? newline); cbn [length]; rewrite IH; auto.
Qed.
Lemma newlines_app a b : newlines (a ++ b) = (newlines a + newlines b)%nat.
Proof. unfold newlines. rewrite filter_app, app_length. auto. Qed.
Lemma newlines_cons c b : (newlines b <= newlines (c :: b))%nat.
Proof. unfold newlines. cbn. destruct (c =? newline); cbn; lia. Qed.
Lemma newlines_flat e : (newlines (flat_map esc e) >= newlines e)%nat.
Proof.
  induction e as [|c e IH]; auto. cbn [flat_map]. rewrite newlines_app. change (c :: e) with ([c] ++ e). rewrite newlines_app.
  assert (newlines (esc c) >= newlines [c])%nat; [|lia]. unfold esc. destruct (Z.eqb_spec c quote) as [->|]; cbn; auto.
Qed.
Lemma newlines_escape e : (newlines (escape_for_csv e) >= newlines e)%nat.
Proof. unfold escape_for_csv. fold esc. pose proof (newlines_flat e). pose proof (newlines_cons quote (flat_map esc e ++ [quote])) as C. rewrite newlines_app in C. change (flat_map (fun c => if c =? quote then [quote; quote] else [c]) e) with (flat_map esc e). lia. Qed.
Lemma write_lines es : forall b vs file, write_rows es b vs = Ok file ->
  (length (get_lines file []) >= list_sum (map (fun e => 1 + newlines e) es))%nat.
Proof.
  induction es as [|e es IH]; intros b vs file W; cbn [write_rows] in W; [cbn; lia|].
  change (list_sum (map (fun e0 => 1 + newlines e0) (e :: es)))%nat with (1 + newlines e + list_sum (map (fun e => 1 + newlines e) es))%nat.
  pose proof (newlines_escape e) as NE. destruct b.
  - destruct vs as [|v vs]; [discriminate|]. apply obind_Ok in W as (r & W & E). apply Ok_inj in E; subst file. apply IH in W.
    replace (escape_for_csv e ++ comma :: dec_int v ++ newline :: r) with ((escape_for_csv e ++ comma :: dec_int v) ++ newline :: r) by (rewrite <- app_assoc; reflexivity).
    rewrite get_lines_length, newlines_app. lia.
  - apply obind_Ok in W as (r & W & E). apply Ok_inj in E; subst file. apply IH in W. rewrite get_lines_length. lia.
Qed.
Lemma read_rows_length ls : forall d, read_rows ls = Ok d -> length (d_elements d) = length ls.
Proof.
  induction ls as [|l ls IH]; intros d H; cbn in H; [inversion H; auto|]. apply obind_Ok in H as (cols & _ & H). destruct cols as [|e more]; [discriminate|].
  apply obind_Ok in H as (vs & _ & H). apply obind_Ok in H as (d' & R & H). inversion H; subst. cbn. f_equal. auto.
Qed.
Lemma c_string_result l : forall s, c_string l = Ok s -> nz s.
Proof.
  induction l as [|c l IH]; intros s H; cbn in H; [discriminate|]. destruct (Z.eqb_spec c 0); [inversion H; apply nz_nil|].
  apply obind_Ok in H as (r & E & H). inversion H; subst. apply nz_cons; auto.
Qed.
Lemma columns_nz l : Forall nz (csv_columns l).
Proof.
  pose proof (split_ok l) as H. unfold split_csv_line, split_with in H. apply obind_Ok in H as (len & _ & H). apply obind_Ok in H as ([buf cols] & _ & H).
  apply omap_Ok_Forall2 in H. induction H; constructor; auto. eapply c_string_result; eauto.
Qed.
Lemma read_rows_nz ls : forall d, read_rows ls = Ok d -> Forall nz (d_elements d).
Proof.
  induction ls as [|l ls IH]; intros d H; cbn in H; [inversion H; constructor|]. rewrite split_ok in H. cbn [obind] in H. pose proof (columns_nz l) as N. destruct (csv_columns l) as [|e more]; [discriminate|].
  apply obind_Ok in H as (vs & _ & H). apply obind_Ok in H as (d' & R & H). inversion H; subst. cbn. inversion N; auto.
Qed.
Lemma list_sum_cons a l : list_sum (a :: l) = (a + list_sum l)%nat. Proof. reflexivity. Qed.
Lemma no_newlines es : (list_sum (map (fun e => 1 + newlines e) es) <= length es)%nat -> Forall (fun e => ~ In newline e) es.
Proof.
  assert (G : forall es, (length es <= list_sum (map (fun e => 1 + newlines e) es))%nat) by (clear; induction es as [|e es IH]; auto; cbn [map length]; rewrite list_sum_cons; lia).
  induction es as [|e es IH]; intros H; constructor.
  - intros Hin. assert (newlines e > 0)%nat; [|specialize (G es); cbn [map length] in H; rewrite list_sum_cons in H; lia].
    unfold newlines. assert (X : In newline (filter (fun c => c =? newline) e)) by (apply filter_In; auto). destruct (filter _ e); [destruct X|cbn; lia].
  - apply IH. cbn [map length] in H; rewrite list_sum_cons in H; lia.
Qed.
Theorem C41_only_clean : forall d file, dataset_write d = Ok file -> dataset_read file = Ok d ->
  Forall clean (d_elements d) /\ (d_values d = [] \/ length (d_values d) = length (d_elements d)).
Proof.
  intros d file W R. unfold dataset_write in W. unfold dataset_read in R. apply obind_Ok in R as (d' & R & E).
  destruct (negb (length (d_values d') =? 0)%nat && negb (length (d_elements d') =? length (d_values d'))%nat) eqn:B; [discriminate|]. inversion E; subst d'. split.
  - pose proof (read_rows_nz _ _ R) as N. pose proof (write_lines _ _ _ _ W) as L. apply read_rows_length in R. rewrite <- R in L. apply no_newlines in L.
    clear - N L. induction (d_elements d); constructor; inversion N; inversion L; subst; auto. split; auto.
  - destruct (d_values d) as [|v vs] eqn:EV; auto. right. cbn [length Nat.eqb negb andb] in B. apply negb_false_iff, Nat.eqb_eq in B. auto.
Qed.

(** A file with an empty line makes the reader access a column that is not there. *)
Lemma empty_line_rows es : Forall clean es -> forall b vs file rest, (b = true -> Forall int64 vs) -> write_rows es b vs = Ok file ->
  read_rows (get_lines (file ++ newline :: rest) []) = UB.
Proof.
  induction es as [|e es IH]; intros C b vs file rest I W; cbn [write_rows] in W.
  { inversion W; subst. reflexivity. }
  apply Forall_cons_iff in C as ((N0 & N10) & C). destruct b.
  - destruct vs as [|v vs]; [discriminate|]. apply obind_Ok in W as (r & W & E). apply Ok_inj in E; subst file. specialize (I eq_refl). apply Forall_cons_iff in I as (I1 & I2).
    replace ((escape_for_csv e ++ comma :: dec_int v ++ newline :: r) ++ newline :: rest) with ((escape_for_csv e ++ comma :: dec_int v) ++ newline :: (r ++ newline :: rest)) by (repeat (rewrite <- app_assoc; cbn [app]); reflexivity).
    pose proof (dec_int_plain v) as PV. rewrite get_lines_line.
    + cbn [app read_rows]. rewrite split_ok, columns_escaped_value by auto. cbn [obind]. rewrite stoll_dec by auto. cbn [obind]. rewrite (IH C true vs r rest); auto.
    + intros H. apply in_app_iff in H as [H|[H|H]]; [eapply escape_no_newline; eauto|discriminate|]. destruct PV as (_ & PV). rewrite Forall_forall in PV. specialize (PV _ H). tauto.
  - apply obind_Ok in W as (r & W & E). apply Ok_inj in E; subst file. rewrite <- app_assoc. cbn [app]. rewrite get_lines_line by (apply escape_no_newline; auto).
    cbn [app read_rows]. rewrite split_ok, columns_escaped by auto. cbn [obind]. rewrite (IH C false vs r rest); auto.
Qed.
Theorem C41_empty_line : forall d file rest, Forall clean (d_elements d) -> Forall int64 (d_values d) ->
  dataset_write d = Ok file -> dataset_read (file ++ newline :: rest) = UB.
Proof. intros d file rest C I W. unfold dataset_read. rewrite (empty_line_rows _ C _ _ _ rest (fun _ => I) W). reflexivity. Qed.
(** Writing fewer values than elements (but at least one) reads past the vector. *)
Theorem C41_missing_value : forall d, d_values d <> [] -> (length (d_values d) < length (d_elements d))%nat -> dataset_write d = UB.
Proof.
  intros [es vs]. cbn [d_elements d_values]. unfold dataset_write. cbn [d_elements d_values]. intros NE L. destruct vs as [|v vs]; [congruence|]. cbn [length Nat.eqb negb].
  clear NE. revert es L. generalize (v :: vs). clear. induction l as [|v vs IH]; intros es L; (destruct es as [|e es]; [cbn in L; lia|]); cbn [write_rows]; auto. rewrite IH; auto. cbn in L. lia.
Qed.

(** ** numbers *)
Definition digits (s : bytes) : Prop := s <> [] /\ Forall (fun c => 48 <= c <= 57) s.
Lemma digits_value_numeric s : Forall (fun c => 48 <= c <= 57) s -> forall acc, digits_value s acc = fold_left (fun x c => x * 10 + c - 48) s acc.
Proof.
  induction 1 as [|c s H F IH]; intros acc; cbn [digits_value fold_left]; auto.
  assert (is_digit c = true) as -> by (unfold is_digit; apply andb_true_iff; split; apply Z.leb_le; lia). rewrite IH. f_equal. lia.
Qed.
Lemma parse_digits s : digits s -> parse_number s = Some (false, numeric_string2uint s).
Proof.
  intros (NE & F). unfold parse_number, numeric_string2uint. rewrite <- digits_value_numeric by auto. destruct s as [|c s]; [congruence|].
  assert (D : is_digit c = true) by (inversion F; subst; unfold is_digit; apply andb_true_iff; split; apply Z.leb_le; lia).
  destruct (digit_facts c D) as (S1 & _ & _ & _ & _ & M & P). cbn [drop_spaces]. rewrite S1. cbn [parse_sign]. apply Z.eqb_neq in M, P. rewrite M, P, D. auto.
Qed.
(** What the parties load: strings of digits below 2^64 become these numbers,
    values above -2^63 are kept; -2^63 itself is undefined. *)
Theorem C41_numbers : forall d, Forall digits (d_elements d) -> Forall (fun s => numeric_string2uint s < 2 ^ 64) (d_elements d) ->
  dataset_elements d = Ok (map numeric_string2uint (d_elements d)) /\
  (length (d_values d) = length (d_elements d) -> Forall (fun v => v <> - 2 ^ 63) (d_values d) ->
   dataset_pairs d = Ok (combine (map numeric_string2uint (d_elements d)) (d_values d))) /\
  (forall e v r w, d_elements d = e :: r -> d_values d = v :: w -> v = - 2 ^ 63 -> dataset_pairs d = UB).
Proof.
  intros [es vs] D B. cbn [d_elements d_values] in *. unfold dataset_elements, dataset_pairs. cbn [d_elements d_values].
  assert (S1 : forall s, digits s -> numeric_string2uint s < 2 ^ 64 -> stoull s = Ok (numeric_string2uint s)).
  { intros s H1 H2. unfold stoull. rewrite parse_digits by auto. apply Z.ltb_lt in H2. rewrite H2. auto. }
  split; [|split].
  - clear - D B S1. induction es as [|e es IH]; auto. apply Forall_cons_iff in D as (D1 & D). apply Forall_cons_iff in B as (B1 & B). cbn. rewrite S1, IH by auto. auto.
  - revert vs. induction es as [|e es IH]; intros [|v vs] L NM; cbn in L; try lia; auto. apply Forall_cons_iff in D as (D1 & D). apply Forall_cons_iff in B as (B1 & B). apply Forall_cons_iff in NM as (N1 & NM).
    cbn [pairs map combine]. rewrite S1 by auto. cbn [obind]. apply Z.eqb_neq in N1. rewrite N1, IH by (auto; lia). cbn [obind]. do 3 f_equal. destruct (v <? 0); lia.
  - intros e v r w -> -> ->. apply Forall_cons_iff in D as (D1 & D). apply Forall_cons_iff in B as (B1 & B). cbn [pairs]. rewrite S1 by auto. reflexivity.
Qed.

(** ** concrete cases *)
(** fields with a comma, a quote and a space inside, and an empty field *)
Definition ex_dataset : dataset := mkDataset [[97; 44; 34; 98; 32]; []] [-5; 7].
Example ex_C41 : dataset_write ex_dataset = Ok [34; 97; 44; 34; 34; 98; 32; 34; 44; 45; 53; 10; 34; 34; 44; 55; 10]
  /\ dataset_read [34; 97; 44; 34; 34; 98; 32; 34; 44; 45; 53; 10; 34; 34; 44; 55; 10] = Ok ex_dataset.
Proof. split; reflexivity. Qed.
Example ex_C41_hyps : Forall clean (d_elements ex_dataset) /\ Forall int64 (d_values ex_dataset).
Proof. unfold clean, int64. cbn. repeat constructor; cbn; intuition (lia || discriminate). Qed.
(** a field with a newline is read as two rows, one with a NUL is cut *)
Example ex_C41_newline : exists file, dataset_write (mkDataset [[97; 10; 98]] []) = Ok file /\ dataset_read file = Ok (mkDataset [[97]; [98; 34]] []).
Proof. eexists. split; reflexivity. Qed.
Example ex_C41_nul : exists file, dataset_write (mkDataset [[97; 0; 98]] []) = Ok file /\ dataset_read file = Ok (mkDataset [[97]] []).
Proof. eexists. split; reflexivity. Qed.
(** odd lines: [ x , "y"z,] has the columns x, y and the empty one *)
Example ex_C41_line : csv_columns [32; 120; 32; 44; 32; 34; 121; 34; 122; 44] = [[120]; [121]; []].
Proof. reflexivity. Qed.
Example ex_C41_numbers : digits [48; 48; 49; 50] /\ numeric_string2uint [48; 48; 49; 50] = 12.
Proof. split; [split; [discriminate|repeat constructor; lia]|reflexivity]. Qed.

Print Assumptions C41_splitting.
Print Assumptions C41_roundtrip.
Print Assumptions C41_only_clean.
Print Assumptions C41_empty_line.
Print Assumptions C41_missing_value.
Print Assumptions C41_numbers.
