N='OwnModel.v'
A=['C75']
M=[
 (N,'both_start','mkC3 (c_rand co) (sy_coins s0) (sy_coins s1)','mkC3 (c_rand co) (sy_coins s1) (sy_coins s0)','each party goes on with its own generator',A),
 (N,'both_start','mkC3 (c_rand co) (sy_coins s0) (sy_coins s1)','mkC3 (c_rand co) (sy_coins s0) (sy_coins s0)','each party goes on with its own generator',A),
 (N,'both_start','mkSys w (c_one co)','mkSys w (c_zero co)','party one draws from its own generator while reading the keys',A),
 (N,'both_start','mkSys (sy_world s1) (c_zero co)','mkSys (sy_world s1) (sy_coins s1)','party zero draws from its own generator while reading the keys',A),
 (N,'both_start','start_del_party e1 (p1_dir data) (p1_dir out)','start_del_party e1 (p0_dir data) (p1_dir out)','party one reads its own data',A),
 (N,'both_start','start_del_party e0 (p0_dir data) (p0_dir out)','start_del_party e0 (p0_dir data) (p1_dir out)','party zero reads its own keys',A),
 (N,'both_start','(p1_dir out) days trees','(p1_dir out) days (negb trees)','--import decides whether the trees are read',A),
 (N,'both_start','(p0_dir out) days trees','(p0_dir out) (pred days) trees','party zero reads the data of every day',A),
 (N,'both_start','| (_, Err c) => Err c | (_, Abort) => Abort | (_, UB) => UB\n      end','| (_, Err c) => UB | (_, Abort) => Abort | (_, UB) => UB\n      end','a failing start of party zero is an error, not a crash',A),
 (N,'dc_run_by','send handle (C_party_zero (P0_I m1)) s','send handle (C_party_zero (P0_I m1)) (ds_reset s)','the server keeps what its day is about',A),
 (N,'dc_run_by','at_one (send','at_zero (send','the server draws from its own generator',A),
 (N,'dc_run_by','del_gen1 hash P1 V0 es (reset_gc (dc_party c))','del_gen1 hash P1 V0 es (dc_party c)','the gc vectors are emptied every day',A),
 (N,'dc_run_by','del_gen1 hash P1 V0 es','del_gen1 hash P0 V0 es',"the client encrypts under the server's key",A),
 (N,'del_day_own_by','ds_reset (snd (fst st))','snd (fst st)','the server is reset every day',A),
 (N,'del_day_own_by','(dc_result c + (rs + other_rs) mod 2 ^ 64) mod 2 ^ 64','(dc_result c + rs) mod 2 ^ 64','both shares count',A),
 (N,'del_day_own_by','circuit_input P0 P1 V0 V1','circuit_input P0 P1 V1 V0','each party decrypts with its own key',A),
 (N,'exchange_by','psi_gen1 hash P1 V0 es (pc_party c)','psi_gen1 hash P1 V0 es (preset (pc_party c))','both exchanges of a day fill the gc vectors',A),
 (N,'psi_run_own_by','exchange_by handle dels (c1, s)','exchange_by handle adds (c1, s)','deletions first',A),
 (N,'psi_run_own_by','exchange_by handle adds (c2, s2)','dret (c2, s2)','then the additions',A),
 (N,'psi_run_own_by','let c1 := pc_with (preset (pc_party c)) c in','let c1 := c in','the client is reset every day',A),
 (N,'psi_run_own_by','S (pc_day c3)','pc_day c3','the day advances',A),
 (N,'psi_day_own_by','ps_reset s)','s)','the server is reset every day',A),
 (N,'psi_day_own_by','second_phase_run P0 V0 rs0 rs1','second_phase_run P0 V0 rs1 rs0','the shares are in order',A),
 (N,'psi_day_own_by','fst rs','pc_result c1','the size is updated',A),
 (N,'psi_day_own_by','(snd rs)','(pc_set c1)','the set is updated',A),
 (N,'prog_deletion_own','del_start_with (dp_trees zero) (dp_trees one) (dp_data zero) (dp_data one)','del_start_with (dp_trees one) (dp_trees zero) (dp_data zero) (dp_data one)','each party starts with its own trees',A),
 (N,'prog_deletion_own','del_start_with (dp_trees zero) (dp_trees one) (dp_data zero) (dp_data one)','del_start_with (dp_trees zero) (dp_trees one) (dp_data one) (dp_data zero)','each party starts with its own data',A),
 (N,'prog_deletion_own','hash circuit_input (dp_pub one) (dp_pub zero) (dp_priv zero)','hash circuit_input (dp_pub zero) (dp_pub one) (dp_priv zero)',"dp_pub is the other party's key",A),
 (N,'prog_deletion_own','del_handle hash (dp_pub one) (dp_priv one)','del_handle hash (dp_pub zero) (dp_priv one)',"party one encrypts under party zero's key",A),
 (N,'prog_deletion_own','days st','(S days) st','as many days as --days',A),
 (N,'prog_deletion_psi_own','PsiModel.psi_handle hash (dp_pub one) (dp_priv one)','PsiModel.psi_handle hash (dp_pub one) (dp_priv zero)','party one decrypts with its own key',A),
 (N,'prog_deletion_psi_own','(wired enc dec (PsiModel.psi_handle hash (dp_pub one) (dp_priv one)))','(fun q s t => (s, Err InvalidArgument))','the server answers',A),
 (N,'prog_deletion_psi_own','psi_start_with stash node (dp_trees zero)','psi_start_with stash node (dp_trees one)','each party starts with its own trees',A),
]
