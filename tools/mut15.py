N='StackModel.v'
A=['C74']
M=[
 (N,'del_need','2 * (cnt * sz_integer z)','1 * (cnt * sz_integer z)','both a and b are on the stack',A),
 (N,'del_need','+ cnt * sz_bit z','','eq_vct is on the stack',A),
 (N,'del_need','blocks_for n * cnt','cnt','a choice bit for every block',A),
 (N,'psi_need','length groups * sz_vector z + blocks_for n','blocks_for n','eq_vct is on the stack',A),
 (N,'psi_need','2 * (length groups * sz_vector z)','2 * (length (concat groups) * sz_vector z)','one vector for each element, not for each position',A),
 (N,'psi_need','length (concat groups)','length groups','choice bits for all positions',A),
 (N,'needs','room <? need','room <=? need','the last byte can be used',A),
 (N,'needs','then dlift UB else dret tt','then dlift (Err Internal) else dret tt','a stack overflow is a crash, not an error',A),
 (N,'needs','then dlift UB else dret tt','then dret tt else dret tt','the stack is limited',A),
 (N,'del_circuits_stack','needs (del_need (pp_n P1) (length (pt_x c))) room0','needs (del_need (pp_n P1) (length (pt_x c))) room1','party zero uses its own stack',A),
 (N,'del_circuits_stack','needs (del_need (pv_n V1) (length (pt_y s))) room1','needs (del_need (pv_n V1) (length (pt_x s))) room1','the receiver counts gc_y',A),
 (N,'del_circuits_stack','needs (del_need (pv_n V0) (length (pt_y c))) room0','needs 0 room0','the receiver needs stack too',A),
 (N,'del_circuits_stack','needs (del_need (pp_n P0) (length (pt_x s))) room1','needs (del_need (pp_n P1) (length (pt_x s))) room1','party one uses the key of party zero as a sender',A),
 (N,'psi_circuits_stack','needs (psi_need (pp_n P1) (pg_x c)) room0','needs (psi_need (pp_n P1) (pg_y c)) room0','the sender counts gc_x',A),
 (N,'psi_circuits_stack','needs (psi_need (pv_n V0) (pg_y c)) room0','needs (psi_need (pv_n V0) (pg_y c)) room1','party zero uses its own stack',A),
 (N,'psi_circuits_stack','needs (psi_need (pp_n P0) (pg_x s)) room1','dret tt','party one needs stack as a sender',A),
 (N,'psi_circuits_stack','s0 ++ t0, t1 ++ s1','t0 ++ s0, t1 ++ s1','results are as without a limit',A),
 (N,'del_circuits_stack','P1 V1 false (pt_x c)','P1 V1 true (pt_x c)','roles are as without a limit',A),
 (N,'del_day_stack','(dc_result c + (rs + other_rs) mod 2 ^ 64) mod 2 ^ 64','(dc_result c + rs) mod 2 ^ 64','the result is as without a limit',A),
 (N,'psi_day_stack','fst rs','pc_result c1','the result is as without a limit',A),
 ('GcModel.v','gc_total','fst (fst','fst (fst','',[]),
][:-1]
