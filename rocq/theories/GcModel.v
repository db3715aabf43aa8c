(** * The secure computations of a deletion run, as the two programs run them.

    Party::GarbledCircuit (deletion/party.h:176-293, deletion-psi/party.h:178-334)
    and SecondPhase (deletion-psi/party_zero.cc:66-96, party_one.cc:44-76) at both
    parties, statement by statement: every party draws its own coins, party one
    (ALICE) draws its masking bits from rand(), all bits of a call are drawn before
    the first mask, the arrays of blocks are flat, and one oblivious transfer moves
    them all.  DelModel and PsiModel treat one position after the other with the
    coins of both parties on one tape; PropsGc proves that this makes no difference.

    Contract of emp-toolkit (emp-sh2pc, emp-ot), which is not modelled further:
    Integer::init with party P takes P's bits; [==], [^] are what they say;
    reveal(BOB) gives the value to BOB; send/recv of IKNP deliver, for every
    block, the one the choice bit selects; the socket delivers bytes in order. *)
Require Import List Arith Lia ZArith Bool.
Import ListNotations.
From Verif Require Import Prelude TreeModel TreeDelModel Coins Group ElGamalModel BytesModel CipherModel PaillierModel WireModel SyncModel AddModel DelModel.
From Verif Require Import PsiModel.
Local Open Scope Z_scope.

(** ** The coins of two processes: rand() of party one (srand(time(NULL)),
    run.cc), the generators of party zero and of party one *)
Record coins3 := mkC3 { c_rand : tape; c_zero : tape; c_one : tape }.
Definition D (A : Type) := coins3 -> outcome (A * coins3).
Definition dret {A} (a : A) : D A := fun c => Ok (a, c).
Definition dbind {A B} (m : D A) (f : A -> D B) : D B := fun c =>
  match m c with Ok (a, c') => f a c' | Err e => Err e | Abort => Abort | UB => UB end.
Definition dlift {A} (o : outcome A) : D A := fun c =>
  match o with Ok a => Ok (a, c) | Err e => Err e | Abort => Abort | UB => UB end.
(** what one party does with its own coins *)
Definition with_rand {A} (m : M A) : D A := fun c =>
  match m (c_rand c) with Ok (a, t) => Ok (a, mkC3 t (c_zero c) (c_one c)) | Err e => Err e | Abort => Abort | UB => UB end.
Definition at_zero {A} (m : M A) : D A := fun c =>
  match m (c_zero c) with Ok (a, t) => Ok (a, mkC3 (c_rand c) t (c_one c)) | Err e => Err e | Abort => Abort | UB => UB end.
Definition at_one {A} (m : M A) : D A := fun c =>
  match m (c_one c) with Ok (a, t) => Ok (a, mkC3 (c_rand c) (c_zero c) t) | Err e => Err e | Abort => Abort | UB => UB end.
Notation "x <~ m ;; k" := (dbind m (fun x => k)) (at level 61, m at next level, right associativity) : M_scope.
Notation "' p <~ m ;; k" := (dbind m (fun x => let p := x in k)) (at level 61, p pattern, m at next level, right associativity) : M_scope.

(** ** The contract of emp-toolkit *)
(** deletion/party.h:187-219: [eq = (a[i] == b[i]) ^ tmp], revealed to BOB *)
Definition circuit (alice bob : list (list bool)) (tmp : list bool) : list bool :=
  map (fun p => xorb (bits_eqb (fst (fst p)) (snd (fst p))) (snd p)) (combine (combine alice bob) tmp).
(** IKNP::send(block_zero, block_one, n) and recv(data, chosen_bit, n) *)
Definition transfer (zero one : list bytes) (chosen : list bool) : list bytes :=
  map (fun p => if snd p : bool then snd (fst p) else fst (fst p)) (combine (combine zero one) chosen).

(** cutting a flat array into the groups of the elements (the counter [p] of
    deletion-psi/party.h) *)
Fixpoint split_by {A} (sizes : list nat) (l : list A) : list (list A) :=
  match sizes with [] => [] | n :: r => firstn n l :: split_by r (skipn n l) end.

Section Gc.
Variable circuit_input : Z -> outcome (list bool).

(** [rand() & 1], party.h:191-192 *)
Definition rand_bit : M bool := r <- rand_less_than 2 ;; ret (r =? 1).
(** the sender's loop, party.h:236-254: (my_bit[i], gc_z[i]) for every i; the
    masks beta and the two arrays of [k] blocks per position *)
Fixpoint gc_send (P : pub) (k : nat) (items : list (bool * Z)) : M (list Z * list bytes * list bytes) :=
  match items with
  | [] => ret ([], [], [])
  | (my_bit, z) :: r =>
      beta <- rand_less_than (pp_n P) ;;
      encrypted_beta <- pub_encrypt P (pp_n P - beta) ;;
      if_eq <- lift (bignum2block (pub_add P z encrypted_beta) k) ;;
      if_neq <- lift (bignum2block encrypted_beta k) ;;
      '(betas, zero, one) <- gc_send P k r ;;
      ret (beta :: betas, (if my_bit then if_neq else if_eq) ++ zero, (if my_bit then if_eq else if_neq) ++ one)
  end.
(** the receiver's choice bits, party.h:256-258 *)
Definition choice (k : nat) (my_bits : list bool) : list bool := flat_map (fun b => repeat b k) my_bits.
(** the receiver's decryptions, party.h:264-271: position i is at [cnt_block * i] *)
Definition gc_open (V : priv) (k cnt : nat) (blocks : list bytes) : outcome (list Z) :=
  omap (fun i => priv_decrypt V (block2bignum (firstn k (skipn (k * i) blocks)))) (seq 0 cnt).
(** GarbledCircuit(true) at the sender and GarbledCircuit(false) at the receiver up
    to the sums: the sender's masks and the receiver's plaintexts.  Loop of party.h:
    183-189 (inputs), 190-207 (bits), 209-217 (reveal), 236-271.  Different numbers
    of positions leave the parties out of step (UB here). *)
Definition gc_flat (P : pub) (V : priv) (sender_is_alice : bool) (xs zs ys : list Z) : D (list Z * list Z) :=
  if negb ((length xs =? length zs)%nat && (length xs =? length ys)%nat) then dlift UB else
  sent <~ dlift (omap circuit_input xs) ;;
  received <~ dlift (omap circuit_input ys) ;;
  alice_bits <~ with_rand (mapM (fun _ => rand_bit) xs) ;;
  let tmp := map negb alice_bits in
  let bob_bits := if sender_is_alice then circuit sent received tmp else circuit received sent tmp in
  let sender_bits := if sender_is_alice then alice_bits else bob_bits in
  let receiver_bits := if sender_is_alice then bob_bits else alice_bits in
  let k := blocks_for (pp_n P) in
  '(betas, zero, one) <~ (if sender_is_alice then at_one else at_zero) (gc_send P k (combine sender_bits zs)) ;;
  ts <~ dlift (gc_open V k (length ys) (transfer zero one (choice k receiver_bits))) ;;
  dret (betas, ts).
(** [rs] modulo n, party.h:228, 253, 270-272 *)
Definition sum_mod (n : Z) (l : list Z) : Z := fold_left Z.add l 0 mod n.

(** *** deletion: one sum *)
Definition gc_total (P : pub) (V : priv) (sender_is_alice : bool) (xs zs ys : list Z) : D round :=
  '(betas, ts) <~ gc_flat P V sender_is_alice xs zs ys ;; dret (sum_mod (pp_n P) betas, sum_mod (pp_n P) ts).
(** GarbledCircuit(), party.h:281-292; as in DelModel.del_circuits *)
Definition del_circuits_run (P0 P1 : pub) (V0 V1 : priv) (c s : party) : D (Z * Z * (round * round)) :=
  r0 <~ gc_total P1 V1 false (pt_x c) (pt_z c) (pt_y s) ;;
  r1 <~ gc_total P0 V0 true (pt_x s) (pt_z s) (pt_y c) ;;
  s0 <~ dlift (to_share (pp_n P1) (fst r0)) ;;
  t1 <~ dlift (to_share (pp_n P1) (snd r0)) ;;
  s1 <~ dlift (to_share (pp_n P0) (fst r1)) ;;
  t0 <~ dlift (to_share (pp_n P0) (snd r1)) ;;
  dret ((s0 + t0) mod 2 ^ 64, (t1 + s1) mod 2 ^ 64, (r0, r1)).

(** *** deletion-psi: one sum for each element, deletion-psi/party.h:178-320; every
    party cuts the flat arrays by the sizes of its own groups.  gc_z[i][j] exists
    if gc_z has the groups of gc_x (UB otherwise). *)
Definition gc_totals (P : pub) (V : priv) (sender_is_alice : bool) (xs zs ys : list (list Z)) : D (list Z * list Z) :=
  if negb (if list_eq_dec Nat.eq_dec (map (@length Z) xs) (map (@length Z) zs) then true else false) then dlift UB else
  '(betas, ts) <~ gc_flat P V sender_is_alice (concat xs) (concat zs) (concat ys) ;;
  dret (map (sum_mod (pp_n P)) (split_by (map (@length Z) xs) betas), map (sum_mod (pp_n P)) (split_by (map (@length Z) ys) ts)).
(** party.h:322-334; as in PsiModel.psi_circuits *)
Definition psi_circuits_run (P0 P1 : pub) (V0 V1 : priv) (c s : pparty) : D (list Z * list Z * (list round * list round)) :=
  '(b0, p1) <~ gc_totals P1 V1 false (pg_x c) (pg_z c) (pg_y s) ;;
  '(b1, p0) <~ gc_totals P0 V0 true (pg_x s) (pg_z s) (pg_y c) ;;
  s0 <~ dlift (omap (to_share (pp_n P1)) b0) ;;
  t1 <~ dlift (omap (to_share (pp_n P1)) p1) ;;
  s1 <~ dlift (omap (to_share (pp_n P0)) b1) ;;
  t0 <~ dlift (omap (to_share (pp_n P0)) p0) ;;
  dret (s0 ++ t0, t1 ++ s1, (combine b0 p1, combine b1 p0)).
(** SecondPhase: party zero encrypts and sends all its answers, party_zero.cc:75-80;
    party one adds its own, shuffles with its own generator and sends them back,
    party_one.cc:55-74; party zero opens them, party_zero.cc:87-94 *)
Definition second_phase_run (P0 : pub) (V0 : priv) (rs0 rs1 : list Z) : D (list Z) :=
  if negb (length rs0 =? length rs1)%nat then dlift UB else
  cs <~ at_zero (mapM (priv_encrypt V0) rs0) ;;
  cs' <~ dlift (omap (over_io (blocks_for (pv_n V0))) cs) ;;
  msgs <~ at_one (mapM (fun p => encrypted_y <- pub_encrypt P0 (snd p) ;; ret (pub_add P0 (fst p) encrypted_y)) (combine cs' rs1)) ;;
  sh <~ at_one (shuffle msgs) ;;
  vals <~ dlift (omap (open_share V0) sh) ;;
  dret (filter (fun u => 0 <? u) vals).
End Gc.

(** ** The days, every party with its own coins *)
Section Days.
Context {Gr : group}.
Variable hash : Z -> list bool.
Variable circuit_input : Z -> outcome (list bool).
Variables (P0 P1 : pub) (V0 V1 : priv).
(** DelModel.dc_run: party zero draws in GenerateMessageI, party one in Handle *)
Definition dc_run_own (st : dclient * dserver) : D (dclient * dserver) :=
  let '(c, s) := st in
  match nth_error (dc_data c) (dc_day c) with
  | None => dlift UB
  | Some es =>
      '(p1, m1) <~ at_zero (del_gen1 (Gr := Gr) hash P1 V0 es (reset_gc (dc_party c))) ;;
      '(s', r) <~ at_one (send (del_handle hash P0 V1) (C_party_zero (P0_I m1)) s) ;;
      c' <~ dlift (dc_handle V0 r (mkDC p1 (dc_data c) (dc_day c) (dc_total c) (dc_result c))) ;;
      dret (c', s')
  end.
(** deletion/run.cc:98-127 and 184-232, as DelModel.del_day *)
Definition del_day_own (st : dclient * dserver * (round * round)) : D (dclient * dserver * (round * round)) :=
  '(c, s) <~ dc_run_own (fst (fst st), ds_reset (snd (fst st))) ;;
  '(rs, other_rs, rounds) <~ del_circuits_run circuit_input P0 P1 V0 V1 (dc_party c) (ds_party s) ;;
  dret (mkDC (dc_party c) (dc_data c) (dc_day c) (dc_total c)
         ((dc_result c + (rs + other_rs) mod 2 ^ 64) mod 2 ^ 64), s, rounds).

(** PsiModel.exchange and psi_run *)
Definition exchange_own (es : list entry) (st : pclient * pserver) : D (pclient * pserver) :=
  let '(c, s) := st in
  '(p1, m1) <~ at_zero (psi_gen1 (Gr := Gr) hash P1 V0 es (pc_party c)) ;;
  '(s', r) <~ at_one (send (PsiModel.psi_handle hash P0 V1) (C_party_zero (P0_I m1)) s) ;;
  c' <~ dlift (pc_handle V0 r (pc_with p1 c)) ;;
  dret (c', s').
Definition psi_run_own (st : pclient * pserver) : D (pclient * pserver * (tree entry * tree entry)) :=
  let '(c, s) := st in
  let c1 := pc_with (preset (pc_party c)) c in
  match nth_error (pc_data c) (pc_day c) with
  | None => dlift UB
  | Some (dels, adds) =>
      '(c2, s2) <~ exchange_own dels (c1, s) ;;
      '(c3, s3) <~ exchange_own adds (c2, s2) ;;
      dret (mkPC (pc_party c3) (pc_data c3) (S (pc_day c3)) (pc_total c3) (pc_result c3) (pc_set c3), s3,
           (pg_my (pc_party c2), pg_my (ps_party s2)))
  end.
(** deletion-psi/run.cc:100-123 and 183-219, as PsiModel.psi_day2 *)
Definition psi_day_own (st : pclient * pserver * day_info) : D (pclient * pserver * day_info) :=
  let '(c, s, _) := st in
  '(c1, s1, (mid0, mid1)) <~ psi_run_own (c, ps_reset s) ;;
  '(rs0, rs1, (r0, r1)) <~ psi_circuits_run circuit_input P0 P1 V0 V1 (pc_party c1) (ps_party s1) ;;
  us <~ second_phase_run P0 V0 rs0 rs1 ;;
  rs <~ dlift (apply_updates us (pc_result c1, pc_set c1)) ;;
  dret (mkPC (pc_party c1) (pc_data c1) (pc_day c1) (pc_total c1) (fst rs) (snd rs), s1, mkDay mid0 mid1 r0 r1).
End Days.
(** [k] days in a row, as DelModel.run_trace *)
Fixpoint run_own {S} (day : S -> D S) (k : nat) (st : S) : D (list S) :=
  match k with
  | O => dret []
  | Datatypes.S k' => st' <~ day st ;; l <~ run_own day k' st' ;; dret (st' :: l)
  end.
