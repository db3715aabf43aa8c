(** * The secure computations with the stack they need.

    Both GarbledCircuit(bool) allocate variable-length arrays on the stack:
    deletion/party.h:179 ([emp::Integer a[cnt], b[cnt]]), 186 ([emp::Bit eq_vct[cnt]])
    and 222 ([bool chosen_bit[cnt_block * cnt]]); deletion-psi/party.h:186, 202
    (vectors per element) and 250 ([cnt_block * tot_cnt]), at the sender and at the
    receiver alike.  GcModel leaves the stack out.  Here every party has [room]
    bytes of stack left when it calls GarbledCircuit(bool), and a call that needs
    more is undefined.  (Other variables of the call, and what it calls, count as
    part of what is not room; arrays are taken to be allocated on entry: between
    entry and the last array nothing is returned, so only undefined behaviour can
    come earlier.) *)
Require Import List Arith Lia ZArith Bool.
Import ListNotations.
From Verif Require Import Prelude TreeModel TreeDelModel Coins Group ElGamalModel BytesModel CipherModel PaillierModel WireModel SyncModel AddModel DelModel PsiModel GcModel.

(** sizeof(emp::Integer), sizeof(emp::Bit), sizeof(std::vector<T>) in bytes;
    sizeof(bool) is 1 *)
Record sizes := mkSizes { sz_integer : nat; sz_bit : nat; sz_vector : nat }.
(** 64-bit libstdc++ and emp-tool: an Integer holds one vector, a Bit one block *)
Definition usual_sizes : sizes := mkSizes 24 16 24.

Section Stack.
Variable z : sizes.
Variables room0 room1 : nat.                    (* party zero, party one *)
Variable circuit_input : Z -> outcome (list bool).

(** deletion/party.h:179, 186, 222 *)
Definition del_need (n : Z) (cnt : nat) : nat :=
  2 * (cnt * sz_integer z) + cnt * sz_bit z + blocks_for n * cnt.
(** deletion-psi/party.h:186, 202, 250 *)
Definition psi_need (n : Z) (groups : list (list Z)) : nat :=
  2 * (length groups * sz_vector z) + length groups * sz_vector z + blocks_for n * length (concat groups).
(** a call of GarbledCircuit(bool) by a party with [room] bytes *)
Definition needs (need room : nat) : D unit := if room <? need then dlift UB else dret tt.

(** GcModel.del_circuits_run: party zero sends first (sizes of gc_x, party one's
    [pk]), party one receives (sizes of gc_y, its own [sk]); then the other way round *)
Definition del_circuits_stack (P0 P1 : pub) (V0 V1 : priv) (c s : party) : D (Z * Z * (round * round)) :=
  _ <~ needs (del_need (pp_n P1) (length (pt_x c))) room0 ;;
  _ <~ needs (del_need (pv_n V1) (length (pt_y s))) room1 ;;
  r0 <~ gc_total circuit_input P1 V1 false (pt_x c) (pt_z c) (pt_y s) ;;
  _ <~ needs (del_need (pv_n V0) (length (pt_y c))) room0 ;;
  _ <~ needs (del_need (pp_n P0) (length (pt_x s))) room1 ;;
  r1 <~ gc_total circuit_input P0 V0 true (pt_x s) (pt_z s) (pt_y c) ;;
  s0 <~ dlift (to_share (pp_n P1) (fst r0)) ;;
  t1 <~ dlift (to_share (pp_n P1) (snd r0)) ;;
  s1 <~ dlift (to_share (pp_n P0) (fst r1)) ;;
  t0 <~ dlift (to_share (pp_n P0) (snd r1)) ;;
  dret ((s0 + t0) mod 2 ^ 64, (t1 + s1) mod 2 ^ 64, (r0, r1))%Z.
(** GcModel.psi_circuits_run, in the same way *)
Definition psi_circuits_stack (P0 P1 : pub) (V0 V1 : priv) (c s : pparty) : D (list Z * list Z * (list round * list round)) :=
  _ <~ needs (psi_need (pp_n P1) (pg_x c)) room0 ;;
  _ <~ needs (psi_need (pv_n V1) (pg_y s)) room1 ;;
  '(b0, p1) <~ gc_totals circuit_input P1 V1 false (pg_x c) (pg_z c) (pg_y s) ;;
  _ <~ needs (psi_need (pv_n V0) (pg_y c)) room0 ;;
  _ <~ needs (psi_need (pp_n P0) (pg_x s)) room1 ;;
  '(b1, p0) <~ gc_totals circuit_input P0 V0 true (pg_x s) (pg_z s) (pg_y c) ;;
  s0 <~ dlift (omap (to_share (pp_n P1)) b0) ;;
  t1 <~ dlift (omap (to_share (pp_n P1)) p1) ;;
  s1 <~ dlift (omap (to_share (pp_n P0)) b1) ;;
  t0 <~ dlift (omap (to_share (pp_n P0)) p0) ;;
  dret (s0 ++ t0, t1 ++ s1, (combine b0 p1, combine b1 p0)).

Context {Gr : group}.
Variable hash : Z -> list bool.
Variables (P0 P1 : pub) (V0 V1 : priv).
(** GcModel.del_day_own and psi_day_own with these circuits *)
Definition del_day_stack (st : dclient * dserver * (round * round)) : D (dclient * dserver * (round * round)) :=
  '(c, s) <~ dc_run_own (Gr := Gr) hash P0 P1 V0 V1 (fst (fst st), ds_reset (snd (fst st))) ;;
  '(rs, other_rs, rounds) <~ del_circuits_stack P0 P1 V0 V1 (dc_party c) (ds_party s) ;;
  dret (mkDC (dc_party c) (dc_data c) (dc_day c) (dc_total c)
         ((dc_result c + (rs + other_rs) mod 2 ^ 64) mod 2 ^ 64)%Z, s, rounds).
Definition psi_day_stack (st : pclient * pserver * day_info) : D (pclient * pserver * day_info) :=
  let '(c, s, _) := st in
  '(c1, s1, (mid0, mid1)) <~ psi_run_own (Gr := Gr) hash P0 P1 V0 V1 (c, ps_reset s) ;;
  '(rs0, rs1, (r0, r1)) <~ psi_circuits_stack P0 P1 V0 V1 (pc_party c1) (ps_party s1) ;;
  us <~ second_phase_run P0 V0 rs0 rs1 ;;
  rs <~ dlift (apply_updates us (pc_result c1, pc_set c1)) ;;
  dret (mkPC (pc_party c1) (pc_data c1) (pc_day c1) (pc_total c1) (fst rs) (snd rs), s1, mkDay mid0 mid1 r0 r1).
End Stack.
