(** * C65: joining paths; C66: EC key files (PathModel). *)
Require Import List Arith Lia ZArith Bool.
Import ListNotations.
From Verif Require Import Prelude Coins Group ElGamalModel ElGamalProofs BytesModel BytesProofs CipherModel FileModel FileSpec FileProofs PropsFile KeyModel KeyProofs BigPrime PropsAdd PropsKeys PathModel PathSpec.
Local Open Scope Z_scope.

Lemma ends_last p x : ends_with_slash (p ++ [x]) = (x =? slash).
Proof.
  unfold ends_with_slash. rewrite app_length. cbn [length]. replace (length p + 1 - 1)%nat with (length p) by lia.
  rewrite app_nth2, Nat.sub_diag by lia. destruct p; reflexivity.
Qed.
Lemma drop_trail_last p x : drop_trail (p ++ [x]) = if x =? slash then p else p ++ [x].
Proof. unfold drop_trail. rewrite rev_app_distr. cbn [rev app drop_lead]. change slash with 47. destruct (x =? 47); [apply rev_involutive|]. cbn [rev]. rewrite rev_involutive. auto. Qed.
(** file.cc:55-68 takes one slash off at each end *)
Lemma part_trim (p : bytes) : p <> [] -> Z.of_nat (length p) < 2 ^ 64 -> p <> [] /\
  (if ends_with_slash p then
     if is_absolute p then substr p 1 (Z.of_nat (length p) - 2) else substr p 0 (Z.of_nat (length p) - 1)
   else if is_absolute p then substr p 1 (-1) else Ok p) = Ok (trim p : bytes).
Proof.
  intros NE SH. split; auto. destruct (exists_last NE) as (q & x & ->). rewrite ends_last, app_length in *. cbn [length] in *.
  destruct q as [|c q].
  - cbn [app is_absolute]. unfold trim. cbn [drop_lead]. change slash with 47. destruct (Z.eqb_spec x 47) as [->|N].
    + vm_compute. reflexivity.
    + unfold drop_trail. cbn [rev app drop_lead]. apply Z.eqb_neq in N. rewrite N. reflexivity.
  - cbn [app is_absolute]. unfold trim. cbn [drop_lead]. change slash with 47. cbn [length] in *.
    destruct (Z.eqb_spec c 47) as [->|NC].
    + rewrite drop_trail_last. change slash with 47. unfold substr. cbn [length skipn]. rewrite app_length. cbn [length]. cbn [Nat.ltb Nat.leb].
      destruct (Z.eqb_spec x 47) as [->|NX].
      * rewrite Z.mod_small by lia. destruct (Z.leb_spec (Z.of_nat (length q + 1)) (Z.of_nat (S (length q) + 1) - 2)); [lia|].
        replace (Z.to_nat (Z.of_nat (S (length q) + 1) - 2)) with (length q) by lia. rewrite firstn_app, Nat.sub_diag, firstn_all. cbn. rewrite app_nil_r. auto.
      * change ((-1) mod 2 ^ 64) with (2 ^ 64 - 1). destruct (Z.leb_spec (Z.of_nat (length q + 1)) (2 ^ 64 - 1)); [auto|lia].
    + change (c :: q ++ [x]) with ((c :: q) ++ [x]). rewrite (drop_trail_last (c :: q)). change slash with 47. destruct (Z.eqb_spec x 47) as [->|NX]; auto.
      unfold substr. cbn [skipn]. rewrite app_length. cbn [length]. cbn [Nat.ltb Nat.leb].
      rewrite Z.mod_small by lia. match goal with |- context [?a <=? ?b] => destruct (Z.leb_spec a b); [lia|] end.
      replace (Z.to_nat (Z.of_nat (S (length q) + 1) - 1)) with (length (c :: q)) by (cbn [length]; lia).
      rewrite firstn_app, Nat.sub_diag, firstn_all. cbn [firstn]. rewrite app_nil_r. auto.
Qed.
Lemma first_directory p : p <> [] -> p ++ (if ends_with_slash p then [] else [slash]) = directory p.
Proof.
  intros NE. destruct (exists_last NE) as (q & x & ->). rewrite ends_last. unfold directory. rewrite drop_trail_last.
  destruct (Z.eqb_spec x slash) as [->|N]; [rewrite app_nil_r; auto|auto].
Qed.
(** what the components after the first contribute, whatever they are *)
Fixpoint tail_of (l : list bytes) : bytes :=
  match l with
  | [] => []
  | p :: r => (match p with [] => [] | _ => trim p ++ (match r with [] => [] | _ => [dot] end) end) ++ tail_of r
  end.
Definition shorts (l : list bytes) : Prop := Forall (fun p => Z.of_nat (length p) < 2 ^ 64) l.
Lemma join_rest size l : shorts l -> forall counter acc, (counter + length l = S size)%nat ->
  join_loop size counter false acc l = Ok (acc ++ tail_of l).
Proof.
  induction 1 as [|p l SP SL IH]; intros counter acc HC; [cbn; rewrite app_nil_r; auto|]. cbn [join_loop tail_of length] in *.
  destruct p as [|c p].
  - cbn [length Nat.eqb]. rewrite IH by lia. auto.
  - replace (length (c :: p) =? 0)%nat with false by reflexivity.
    pose proof (proj2 (part_trim (c :: p) ltac:(discriminate) SP)) as X. unfold bytes in X |- *. rewrite X. cbn [obind]. rewrite IH by lia.
    rewrite !app_assoc. change dot with 46. destruct (Nat.eqb_spec counter size).
    + destruct l; [auto|cbn in HC; lia].
    + destruct l; [cbn in HC; lia|auto].
Qed.
Lemma join_closed d l : shorts l -> join_path (d :: l) = Ok ((match d with [] => [] | _ => directory d end) ++ tail_of l).
Proof.
  intros SL. unfold join_path. cbn [join_loop length]. destruct d as [|c d].
  - cbn [length Nat.eqb]. rewrite join_rest by (auto; lia). auto.
  - cbn [length Nat.eqb]. cbn [app]. rewrite join_rest by (auto; lia). rewrite <- (first_directory (c :: d)) by discriminate. auto.
Qed.
Lemma tail_dotted l : Forall (fun p => p <> []) l -> tail_of l = dotted (map trim l).
Proof.
  induction 1 as [|p l NP F IH]; auto. cbn [tail_of map dotted]. destruct p; [congruence|]. destruct l as [|p' l].
  - rewrite IH, app_nil_r. cbn [dotted map]. apply app_nil_r.
  - rewrite IH. cbn [map]. rewrite <- app_assoc. auto.
Qed.

(** C65.  Non-empty components: the first as a directory, the others with one
    slash taken off at each end and dots between them; the string functions it
    uses never throw. *)
Theorem C65_join :
  forall dir cs, dir <> [] -> Forall (fun p => p <> []) cs -> Forall (fun p => Z.of_nat (length p) < 2 ^ 64) cs ->
  join_path (dir :: cs) = Ok (directory dir ++ dotted (map trim cs)).
Proof. intros dir cs ND NC SL. rewrite join_closed by auto. destruct dir; [congruence|]. rewrite tail_dotted; auto. Qed.

(** C65.  Empty components (findings): an empty first component leaves no slash,
    and an empty last one leaves a dot at the end of the name. *)
Theorem C65_empty :
  forall dir cs, Forall (fun p => p <> []) cs -> Forall (fun p => Z.of_nat (length p) < 2 ^ 64) cs ->
  join_path ([] :: cs) = Ok (dotted (map trim cs)) /\
  join_path [] = Ok [] /\
  (dir <> [] -> cs <> [] -> join_path (dir :: cs ++ [[]]) = Ok (directory dir ++ dotted (map trim cs) ++ [dot])).
Proof.
  intros dir cs NC SL. split; [rewrite join_closed, tail_dotted; auto|]. split; auto.
  intros ND NE. rewrite join_closed by (apply Forall_app; split; auto; repeat constructor). destruct dir; [congruence|]. do 2 f_equal.
  clear SL ND. induction NC as [|p l NP F IH]; [congruence|]. cbn [app tail_of map]. destruct p; [congruence|]. destruct l as [|p' l].
  - cbn [app tail_of map dotted]. rewrite !app_nil_r. auto.
  - cbn [app map] in IH |- *. rewrite IH by discriminate. cbn [map dotted]. rewrite <- !app_assoc. auto.
Qed.

(** C65.  "No level of directory after the first argument": true exactly when no
    component has a slash left after its ends are trimmed. *)
Lemma in_dotted x l : x <> dot -> In x (dotted l) <-> exists p, In p l /\ In x p.
Proof.
  intros ND. induction l as [|p l IH].
  { cbn. split; [tauto|]. intros (p & [] & _). }
  destruct l as [|p' l]; cbn [dotted].
  - split; [intros H; exists p; cbn; auto|]. intros (p0 & [->|[]] & H). auto.
  - rewrite !in_app_iff, IH. cbn [In]. split.
    + intros [H|[[H|[]]|(p0 & H & H')]]; [exists p; auto|congruence|exists p0; auto].
    + intros (p0 & [->|H] & H'); auto. right. right. exists p0. auto.
Qed.
Theorem C65_one_level :
  forall dir cs, dir <> [] -> Forall (fun p => p <> []) cs -> Forall (fun p => Z.of_nat (length p) < 2 ^ 64) cs ->
  exists name, join_path (dir :: cs) = Ok (directory dir ++ name) /\ (In slash name <-> exists p, In p cs /\ In slash (trim p)).
Proof.
  intros dir cs ND NC SL. exists (dotted (map trim cs)). split; [apply C65_join; auto|]. rewrite in_dotted by discriminate. split.
  - intros (p & H & H'). apply in_map_iff in H as (p0 & <- & H). eauto.
  - intros (p & H & H'). exists (trim p). split; auto. apply in_map. auto.
Qed.

(** C65.  Different names do not collide as long as they have no slashes and no
    dots and no component is empty; with dots in them they do. *)
Lemma trim_plain p : ~ In slash p -> trim p = p.
Proof.
  intros N. assert (L : forall q, ~ In slash q -> drop_lead q = q).
  { intros q NQ. destruct q as [|c q]; auto. cbn [drop_lead]. destruct (Z.eqb_spec c 47) as [->|]; auto. exfalso. apply NQ. left. reflexivity. }
  unfold trim, drop_trail. rewrite (L p N), L, rev_involutive; auto. intros H. apply in_rev in H. auto.
Qed.
Lemma dotted_inj l : forall l', Forall (fun p => p <> [] /\ ~ In dot p) l -> Forall (fun p => p <> [] /\ ~ In dot p) l' -> dotted l = dotted l' -> l = l'.
Proof.
  assert (HD : forall a b r r', ~ In dot a -> ~ In dot b -> a ++ dot :: r = b ++ dot :: r' -> a = b /\ r = r').
  { induction a as [|x a IH]; intros b r r' NA NB E; destruct b as [|y b]; cbn [app] in E.
    - injection E as ->. auto.
    - injection E as <- _. exfalso. apply NB. left. auto.
    - injection E as -> _. exfalso. apply NA. left. auto.
    - injection E as -> E. apply IH in E as (-> & ->); auto; intros H; [apply NA|apply NB]; right; auto. }
  induction l as [|a l IH]; intros l' F F' E.
  - destruct l' as [|b l']; auto. inversion F' as [|? ? (NE & _)]; subst. destruct l'; cbn [dotted] in E; [congruence|]. destruct b; [congruence|discriminate].
  - inversion F as [|? ? (NA & DA) FL]; subst. destruct l' as [|b l'].
    { destruct l; cbn [dotted] in E; [congruence|]. destruct a; [congruence|discriminate]. }
    inversion F' as [|? ? (NB & DB) FL']; subst.
    destruct l as [|a2 l]; destruct l' as [|b2 l'].
    + cbn [dotted] in E. congruence.
    + exfalso. cbn [dotted] in E. apply DA. rewrite E. apply in_or_app. right. left. auto.
    + exfalso. cbn [dotted] in E. apply DB. rewrite <- E. apply in_or_app. right. left. auto.
    + change (dotted (a :: a2 :: l)) with (a ++ dot :: dotted (a2 :: l)) in E. change (dotted (b :: b2 :: l')) with (b ++ dot :: dotted (b2 :: l')) in E.
      apply HD in E as (-> & E); auto. f_equal. apply IH; auto.
Qed.
Theorem C65_no_collision :
  forall dir cs cs' r, dir <> [] ->
  Forall (fun p => p <> [] /\ ~ In slash p /\ ~ In dot p /\ Z.of_nat (length p) < 2 ^ 64) cs ->
  Forall (fun p => p <> [] /\ ~ In slash p /\ ~ In dot p /\ Z.of_nat (length p) < 2 ^ 64) cs' ->
  join_path (dir :: cs) = Ok r -> join_path (dir :: cs') = Ok r -> cs = cs'.
Proof.
  intros dir cs cs' r ND F F' E E'. rewrite C65_join in E, E'; auto; try (eapply Forall_impl; [|eassumption]; cbn; intros; tauto).
  rewrite <- E in E'. injection E' as E'. apply app_inv_head in E'.
  assert (T : forall l, Forall (fun p => p <> [] /\ ~ In slash p /\ ~ In dot p /\ Z.of_nat (length p) < 2 ^ 64) l -> map trim l = l).
  { induction 1 as [|p l (_ & N & _) FL IH]; auto. cbn [map]. rewrite trim_plain, IH; auto. }
  rewrite !T in E' by auto. apply dotted_inj; auto; eapply Forall_impl; try eassumption; cbn; intros; tauto.
Qed.
Theorem C65_dots_collide :
  forall dir a b cs, dir <> [] -> a <> [] -> b <> [] -> ~ In slash a -> ~ In slash b -> Forall (fun p => p <> []) cs ->
  Forall (fun p => Z.of_nat (length p) < 2 ^ 63) (a :: b :: cs) ->
  exists r, join_path (dir :: (a ++ [dot] ++ b) :: cs) = Ok r /\ join_path (dir :: a :: b :: cs) = Ok r.
Proof.
  intros dir a b cs ND NA NB SA SB NC SL. inversion SL as [|? ? LA SL1]; subst. inversion SL1 as [|? ? LB SL2]; subst.
  assert (SH : Forall (fun p => Z.of_nat (length p) < 2 ^ 64) cs) by (eapply Forall_impl; [|exact SL2]; cbn; lia).
  rewrite !C65_join; auto.
  - cbn [map]. rewrite (trim_plain a), (trim_plain b), (trim_plain (a ++ [dot] ++ b)); auto.
    + eexists. split; [reflexivity|]. do 2 f_equal. cbn [dotted]. destruct (map trim cs); cbn [dotted]; rewrite <- ?app_assoc; auto.
    + rewrite !in_app_iff. cbn. intros [H|[[H|[]]|H]]; auto. discriminate.
  - constructor; [lia|]. constructor; [lia|auto].
  - constructor; auto. destruct a; discriminate.
  - constructor; auto. rewrite !app_length. cbn [length]. lia.
Qed.

(** the table of file.h:89-95 and the corner cases *)
Example C65_example :
  let foo := [slash; 102; 111; 111] in let bar := [98; 97; 114] in let baz := [98; 97; 122] in
  let r := [slash; 102; 111; 111; slash; 98; 97; 114] in
  join_path [foo; bar] = Ok r /\ join_path [foo ++ [slash]; bar] = Ok r /\ join_path [foo; slash :: bar] = Ok r /\
  join_path [foo; slash :: bar; slash :: baz] = Ok (r ++ [dot] ++ baz) /\
  join_path [foo; bar; []] = Ok (r ++ [dot]) /\ join_path [[]; bar] = Ok bar /\ join_path [foo; [slash]; bar] = Ok (foo ++ [slash; dot] ++ bar).
Proof. vm_compute. tauto. Qed.

(** C66.  Generating an EC key: an unknown curve is refused before anything is
    written; if it succeeds, the file and nothing else changes, it holds the curve
    and a key in [1, order of that curve), and whoever reads it back gets the key
    for the same curve and an error for any other. *)
Theorem C66_ec_key :
  forall (cec : codec ec_msg) (curve : Z -> option group) e id name s s' o,
  faithful cec -> generate_ec_key cec e curve id name s = (s', o) ->
  same_except [path name] (sy_world s) (sy_world s') /\
  (curve id = None -> o = Err InvalidArgument /\ s' = s) /\
  (o = Ok tt -> exists Gr k, curve id = Some Gr /\ 1 <= k < ord Gr /\
     forall e' w, files w (path name) = files (sy_world s') (path name) ->
       (reliable e' -> exists w' m, read_msg e' cec name w = (w', Ok m)) /\
       (forall w' m, read_msg e' cec name w = (w', Ok m) ->
          deserialize_ec_key id m = Ok k /\ forall id', id' <> id -> deserialize_ec_key id' m = Err InvalidArgument)).
Proof.
  intros cec curve e id name s s' o FC H. unfold generate_ec_key in H. split; [|split].
  - destruct (curve id) as [Gr|]; [|inversion H; subst; apply same_except_refl].
    revert H. generalize s s' o. change (touches [path name] (k <-- rand (@gen_private_key Gr) ;; b <-- pure (to_bytes k) ;; io (write_msg e cec (id, b) name))%SM).
    repeat first [ apply touches_rand | apply touches_pure | (apply touches_write; left; reflexivity) | (apply touches_bind; [|intros]) ].
  - intros N. rewrite N in H. unfold sfail in H. inversion H. auto.
  - intros ->. destruct (curve id) as [Gr|]; [|discriminate].
    apply sbind_Ok in H as (s1 & k & H1 & H). apply rand_Ok in H1 as (t & H1 & ->). apply gen_private_key_range in H1.
    apply sbind_Ok in H as (s2 & b & H2 & H). apply pure_Ok in H2 as (H2 & ->). apply to_bytes_Ok in H2 as (-> & BK).
    apply io_write_Ok in H as (SV & _ & _). exists Gr, k. split; auto. split; auto. intros e' w FW.
    assert (SW : saved w cec name (id, bn2bin k)). { destruct SV as (A & B). split; auto. rewrite FW. auto. }
    split.
    + intros RE. destruct (read_msg_reliable e' cec _ name w RE FC SW) as (i & Q). eauto.
    + intros w' m Q. apply (read_msg_Ok e' cec _ name w w' m FC SW) in Q as (-> & _). unfold deserialize_ec_key. cbn [fst snd]. rewrite Z.eqb_refl, BK. split; auto.
      intros id' N. apply Z.eqb_neq in N. rewrite N. auto.
Qed.
(** C66.  With I/O that works, generation for a known curve succeeds whatever is
    drawn, provided the message is not too long to be framed. *)
Theorem C66_ec_key_succeeds :
  forall (cec : codec ec_msg) (curve : Z -> option group) e id name s Gr,
  reliable e -> curve id = Some Gr -> (forall k, 1 <= k < ord Gr -> short (c_ser cec (id, bn2bin k))) ->
  exists s', generate_ec_key cec e curve id name s = (s', Ok tt).
Proof.
  intros cec curve e id name s Gr RE C SH. unfold generate_ec_key. rewrite C. unfold sbind at 1, rand.
  destruct (gen_private_key_total (Gr := Gr) (sy_coins s)) as (k & t & E). rewrite E. pose proof (gen_private_key_range _ _ _ E) as B.
  unfold sbind at 1, pure, sfail, to_bytes. destruct (Z.ltb_spec k 0); [lia|].
  destruct (write_reliable e cec (id, bn2bin k) name (mkSys (sy_world s) t) RE (SH k B)) as (s' & W & _). rewrite W. eauto.
Qed.
(** C66.  Reading does not check the key (finding): it accepts every number, also
    those CheckPrivateKey refuses. *)
Theorem C66_unchecked :
  forall (Gr : group) id k, 0 <= k -> deserialize_ec_key id (id, bn2bin k) = Ok k /\ (check_private_key (Gr := Gr) k = Ok tt <-> 1 <= k < ord Gr).
Proof.
  intros Gr id k B. unfold deserialize_ec_key. cbn [fst snd]. rewrite Z.eqb_refl. split; [f_equal; apply bn2bin_spec; auto|].
  unfold check_private_key. destruct (Z.leb_spec k 0); cbn; [split; [discriminate|lia]|].
  destruct (Z.leb_spec (ord Gr) k); cbn; split; try discriminate; try lia; auto.
Qed.

Definition ex_ec : codec ec_msg := mkCodec (fun m => fst m :: snd m) (fun s => match s with [] => (0, []) | i :: r => (i, r) end).
Definition ex_curve (id : Z) : option group := if id =? 415 then Some exG else None.
Example C66_example :
  match generate_ec_key ex_ec ex_env ex_curve 415 [107] (mkSys ex_fs (fun _ => 299)) with
  | (s, Ok _) => match read_msg ex_env ex_ec [107] (sy_world s) with
                 | (_, Ok m) => match deserialize_ec_key 415 m, deserialize_ec_key 416 m with Ok k, Err InvalidArgument => (k =? 300) | _, _ => false end
                 | _ => false end
  | _ => false end = true /\
  match generate_ec_key ex_ec ex_env ex_curve 5 [107] (mkSys ex_fs (fun _ => 299)) with (s, Err InvalidArgument) => match files (sy_world s) [107] with None => true | _ => false end | _ => false end = true.
Proof. split; vm_cast_no_check (eq_refl true). Qed.
Print Assumptions C65_join.
Print Assumptions C65_empty.
Print Assumptions C65_one_level.
Print Assumptions C65_no_collision.
Print Assumptions C65_dots_collide.
Print Assumptions C66_ec_key.
Print Assumptions C66_ec_key_succeeds.
Print Assumptions C66_unchecked.
