N='PsiModel.v'
A=['C22','C56','C69','C71']
M=[
 (N,'apply_update','num =? - 2 ^ 63','num =? - 2 ^ 62','only -2^63 cannot be negated',A),
 (N,'apply_update','num =? - 2 ^ 63','num <=? 0','an element that leaves does not crash party zero',A),
 (N,'apply_update','if num =? - 2 ^ 63 then UB else','if num =? 1 then UB else','an element gained does not crash party zero',A),
 (N,'apply_update','then UB else','then Abort else','the smallest long long is undefined behaviour, not an abort',A),
 (N,'to_signed','u <? 2 ^ 63','u <=? 2 ^ 63','2^63 becomes -2^63',A),
 (N,'gc_groups','(length xs =? length ys)%nat','(length xs <? length ys)%nat','the number of groups agrees on a good day',A),
 (N,'gc_groups','lift UB','ret []','parties out of step are noticed',A),
 (N,'second_phase','(length rs0 =? length rs1)%nat','(length rs0 <? length rs1)%nat','the two lists of shares have the same length',A),
 (N,'second_phase','combine rs0 rs1','combine rs0 rs0','each share is combined with the other party\'s',A),
 (N,'to_int_value','Err InvalidArgument','UB','a value of more than 64 bits is an error, not a crash',A),
 (N,'to_int_value','x <? 2 ^ 64','x <? 2 ^ 63','values up to 2^64 are opened',A),
 (N,'open_share','over_io (blocks_for (pv_n V0)) c','over_io (blocks_for (pv_n V0) - 1) c','the width of a ciphertext on the wire is enough',A),
 (N,'combine_share','over_io (blocks_for (pv_n V0)) c','over_io 1 c','the width of a ciphertext on the wire is enough (party one)',A),
 (N,'combine_share','pub_add P0 c\' d','d','party zero\'s share is in the sum',A),
 (N,'open_share','if 2 ^ 64 <=? d then d - 2 ^ 64 else d','if 2 ^ 64 <? d then d - 2 ^ 64 else d','a sum of exactly 2^64 is a zero',A),
 (N,'psi_run','mkPC (pc_party c3) (pc_data c3) (S (pc_day c3))','mkPC (pc_party c3) (pc_data c3) (S (S (pc_day c3)))','the day counter moves by one',A),
 (N,'psi_run','let c1 := pc_with (preset (pc_party c)) c in','let c1 := c in','the inputs of the day before are cleared at party zero',A),
 (N,'ps_reset','preset (ps_party s)','ps_party s','the inputs of the day before are cleared at party one',A),
 (N,'ps_reset','(ps_day s) false false','(ps_day s) true false','a day starts with the deletions at party one',A),
 (N,'ps_finish','S (ps_day s)','ps_day s','the day of party one moves',A),
 (N,'psi_handle','None => (s, UB)','None => (s, Abort)','no day is missing',A),
 (N,'psi_gen1','pg_y p) (pg_z p ++ map (map g_z) items)','pg_y p) (pg_z p)','party zero keeps its masks of every element',A),
 (N,'psi_receive','pg_y p ++ ys','ys','responses of both halves are kept',A),
 (N,'psi_gen2','(pg_x p1 ++ map (map g_x) items)','(map (map g_x) items)','circuit inputs of both halves are kept at party one',A),
 (N,'load_day','filter is_deletion rows','filter (fun e => snd e <=? 0) rows','a row of value 0 is an addition',A),
 (N,'psi_circuits','gc_groups P0 V0 true (pg_x s) (pg_z s) (pg_y c)','gc_groups P0 V0 true (pg_x s) (pg_z s) (pg_y s)','the second circuit uses party zero\'s responses',A),
 (N,'psi_circuits','lift (omap (fun r => to_share (pp_n P0) (fst r)) r1)','lift (omap (fun r => to_share (pp_n P0) (fst r)) (tl r1))','as many shares as groups',A),
 ('DelModel.v','to_share','UB','Ok 0','shares',A),
 ('DelSetupModel.v','psi_start_with','(length d0)','(length d1 - 1)','party zero runs all its days',A),
 ('DelSetupModel.v','psi_start_with','map load_day d1','map load_day d0','party one reads its own data',A),
 ('DelProgModel.v','prog_deletion_psi','(dp_pub p1) (dp_pub p0)','(dp_pub p0) (dp_pub p1)','each public key is that of the other party',A),
 ('DelProgModel.v','start_del_party','read_days e dir days 1','read_days e dir (days - 1) 1','every day is read',A),
]
