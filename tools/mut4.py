M = [
 # hashing to the curve
 ("CurveModel.v","hash_internal","if Z.testbit sqrt 0 then create_point_xy g mod_x (mod_negate sqrt (eg_p g))\n    else create_point_xy g mod_x sqrt","if Z.testbit sqrt 0 then create_point_xy g mod_x sqrt\n    else create_point_xy g mod_x (mod_negate sqrt (eg_p g))","takes the odd root instead of the even one",["C55"]),
 ("CurveModel.v","hash_internal","if sq then\n    let! sqrt := mod_sqrt y2 (eg_p g) in\n    if Z.testbit sqrt 0 then create_point_xy g mod_x (mod_negate sqrt (eg_p g))\n    else","if sq then\n    let! sqrt := mod_sqrt y2 (eg_p g) in\n    if false then create_point_xy g mod_x (mod_negate sqrt (eg_p g))\n    else","the root is not normalized: the point depends on the library",["C55"]),
 ("CurveModel.v","is_square","mod_exp q (eg_half g) (eg_p g)","mod_exp q (eg_half g + 1) (eg_p g)","Euler's criterion with a wrong exponent",["C55"]),
 ("CurveModel.v","compute_y_square","(x ^ 3 + eg_a g * x + eg_b g)","(x ^ 3 + eg_b g)","term a x dropped from the curve equation",["C55"]),
 ("CurveModel.v","hash_loop","let! s := to_bytes x in random_oracle hlen sha s (eg_p g)","let! s := to_bytes (x + 1) in random_oracle hlen sha s (eg_p g)","the next candidate is not the hash of the last one",["C55"]),
 ("CurveModel.v","to_compressed","(2 + y mod 2)","(3 - y mod 2)","parity byte inverted when writing",["C55"]),
 ("CurveModel.v","oct2point","if Bool.eqb (Z.odd y) (t =? 3) then y else eg_p g - y","if Bool.eqb (Z.odd y) (t =? 3) then eg_p g - y else y","parity byte inverted when reading",["C55"]),
 ("CurveModel.v","is_valid","|| is_at_infinity P","","the point at infinity is accepted",["C55"]),
 ("CurveModel.v","mod_negate","if x =? 0 then x else m - x mod m","m - x mod m","negation of zero is the modulus",["C55"]),
 ("CurveModel.v","util_hash_to_curve","if hash_type =? 2 then compress_hash g (hash_to_curve 512 (d512 D) fuel g input)\n  else if hash_type =? 0","if hash_type =? 0 then compress_hash g (hash_to_curve 512 (d512 D) fuel g input)\n  else if hash_type =? 2","hash types swapped in one of the two callers",["C55"]),
 ("CurveModel.v","create_point_bytes","Some P => if negb (is_valid g P) then Err InvalidArgument else Ok P","Some P => Ok P","bytes are not validated",["C55"]),
 # setup of the deletion protocols
 ("DelSetupModel.v","import_del_one","(p1_plaintext f) (p1_encrypted f)","(p1_plaintext f) (p0_encrypted f)","party one imports its own encrypted tree",["C56"]),
 ("DelSetupModel.v","load_entries","omap dataset_read csv","omap dataset_read (rev csv)","days read in the wrong order",["C56"]),
 ("DelSetupModel.v","del_start_with","d0 0 (length d0) 0,","d0 0 (length d0) 1,","the result does not start at zero",["C56"]),
 ("DelSetupModel.v","psi_start_with","mkPP (fst t1) (snd t1) [] [] []","mkPP (fst t0) (snd t1) [] [] []","party one starts with party zero's tree",["C56"]),
 ("DelSetupModel.v","del_start_with","mkParty (fst t1) (snd t1) [] [] []","mkParty (fst t1) (snd t0) [] [] []","party one starts with the wrong replica",["C56"]),
 ("DelSetupModel.v","del_deployed_run","t0 <- lift (del_trees_for import_del_zero (dd_trees d))","t0 <- lift (del_trees_for import_del_one (dd_trees d))","party zero reads party one's files",["C56"]),
 # Montgomery numbers
 ("MontModel.v","to_montgomery","(radix m * radix m mod m)","(radix m mod m)","conversion with R instead of R^2",["C57"]),
 ("MontModel.v","mul_montgomery","Ok (a * b * inv_mod (radix m) m mod m)","Ok (a * b mod m)","product is not reduced by R",["C57"]),
 ("MontModel.v","from_montgomery","Ok (a * inv_mod (radix m) m mod m)","Ok (a mod m)","result left in Montgomery form",["C57"]),
 ("MontModel.v","mont_mul_in_place","negb (mc_id (mn_ctx b) =? mc_id (mn_ctx a))%nat","false","contexts are not compared",["C57"]),
 ("MontModel.v","mont_eq","negb (mc_id (mn_ctx b) =? mc_id (mn_ctx a))%nat","false","contexts are not compared before comparing numbers",["C57"]),
 ("MontModel.v","mont_neq","negb r","r","inequality not negated",["C57"]),
 ("MontModel.v","mont_pow2","Z.to_nat exponent","Z.to_nat (exponent - 1)","one squaring too few",["C57"]),
 ("MontModel.v","mont_pow2","if exponent <? 0 then Abort","if false then Abort","negative exponents accepted",["C57"]),
 ("MontModel.v","mont_create","if negb (x <? mc_mod c) then Abort","if negb (x <=? mc_mod c) then Abort","the modulus itself is accepted",["C57"]),
 ("MontModel.v","mont_fbe_new","mont_fill 256 g g","mont_fill 253 g g","table too short for the largest byte",["C57"]),
 ("MontModel.v","mont_fbe_new","mont_fill 256 g g","mont_fill 256 one g","table starts one power too early",["C57"]),
 ("MontModel.v","mont_step","mont_squares 8 z","mont_squares 7 z","seven squarings per byte",["C57"]),
 ("MontModel.v","mont_context","(m <=? 0) || Z.even m","(m <=? 0)","even moduli accepted",["C57"]),
 ("MontModel.v","mont_fbe_exp","if e <? 0 then Err InvalidArgument else","","negative exponents computed",["C57"]),
 # schedules
 ("SchedModel.v","d_publish","(ds_day s) true","(S (ds_day s)) true","the day is advanced with the flag, and again by the second assignment",["C59"]),
 ("SchedModel.v","d_advance","(S (ds_day s)) (ds_finished s)","(ds_day s) (ds_finished s)","FinishDay does not advance the day",["C59"]),
 ("SchedModel.v","d_publish","(ds_day s) true","(ds_day s) false","the flag is never set: party one spins for ever",["C59"]),
 ("SchedModel.v","p_publish","(ps_day s) true (ps_finished s), pg_my","(ps_day s) true true, pg_my","the day is finished after its first half",["C59"]),
 ("SchedModel.v","p_publish","(ps_day s) true true, mid)","(ps_day s) false true, mid)","the half is cleared when the day is finished",["C59"]),
 ("SchedModel.v","p_advance","if ps_finished s then","if ps_first s then","the day is advanced in both halves",["C59"]),
 ("SchedModel.v","s_join","s_join c s cp i tp : step (mkW c s cp HIdle (SShutdown i) tp) (mkW c s cp HIdle (SSecond i) tp)","s_join c s cp i h tp : step (mkW c s cp h (SShutdown i) tp) (mkW c s cp h (SSecond i) tp)","Shutdown does not wait for the handler",["C59"]),
 ("SchedModel.v","s_poll","sv_ready s = true -> step (mkW c s cp h (SListen i) tp)","step (mkW c s cp h (SListen i) tp)","the main thread does not wait for the end of the day",["C59"]),
 ("SchedModel.v","s_start","(mkW c (sv_reset s) cp h (SListen i) tp)","(mkW c s cp h (SListen i) tp)","the flag is not reset at the start of the day",["C59"]),
 ("SchedModel.v","d_recv","let! c := dc_handle V0 (match p with Some m => m | None => S_unset end) (fst z) in Ok (c, snd z)","Ok (fst z, snd z)","party zero ignores the reply",["C59"]),
 ("SchedModel.v","p_send","(if j =? 0 then dels else adds)","(if j =? 0 then adds else dels)","additions sent before deletions",["C59"]),
 ("SchedModel.v","p_work","(if ps_first s then adds else dels)","(if ps_first s then dels else adds)","party one answers with the other half",["C59"]),
 ("SchedModel.v","d_second","(rs + other_rs) mod 2 ^ 64","(rs + rs) mod 2 ^ 64","party zero adds its own share twice",["C59"]),
 ("SchedModel.v","next_call","if S j <? k then","if S j <=? k then","one call too many per day",["C59"]),
]
