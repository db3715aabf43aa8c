N='OwnStackModel.v'
A=['C76']
M=[
 (N,'del_day_stack_by','del_circuits_stack z room0 room1','del_circuits_stack z room1 room0','each party has its own stack',A),
 (N,'del_day_stack_by','ds_reset (snd (fst st))','snd (fst st)','the server is reset every day',A),
 (N,'del_day_stack_by','(dc_result c + (rs + other_rs) mod 2 ^ 64) mod 2 ^ 64','(dc_result c + rs) mod 2 ^ 64','the result is as without a limit',A),
 (N,'del_day_stack_by','hash P1 V0 handle','hash P0 V0 handle',"the client encrypts under the server's key",A),
 (N,'psi_day_stack_by','psi_circuits_stack z room0 room1','psi_circuits_stack z room0 room0','each party has its own stack',A),
 (N,'psi_day_stack_by','second_phase_run P0 V0 rs0 rs1','second_phase_run P0 V0 rs1 rs0','the second phase is as without a limit',A),
 (N,'psi_day_stack_by','ps_reset s','s','the server is reset every day',A),
 (N,'prog_deletion_stack','z room0 room1 hash circuit_input (dp_pub one) (dp_pub zero)','z room0 room1 hash circuit_input (dp_pub zero) (dp_pub one)',"dp_pub is the other party's key",A),
 (N,'prog_deletion_stack','days st ;;','(pred days) st ;;','as many days as --days',A),
 (N,'prog_deletion_stack','(dp_data zero) (dp_data one)','(dp_data one) (dp_data zero)','each party has its own data',A),
 (N,'prog_deletion_psi_stack','z room0 room1','z room0 (pred room1)','the last byte can be used',A),
 (N,'prog_deletion_psi_stack','del_handle','del_handle','',[]),
][:-1]
