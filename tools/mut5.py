M = [
 # threads of the addition-only and original programs
 ("OnceModel.v","s_poll","ready s = true -> step (mkW s cp h SListen tp)","step (mkW s cp h SListen tp)","the server does not wait for the end of the protocol",["C60"]),
 ("OnceModel.v","s_join","s_join s cp printed tp : step (mkW s cp HIdle (SShutdown printed) tp) (mkW s cp HIdle (SDone printed) tp)","s_join s cp h printed tp : step (mkW s cp h (SShutdown printed) tp) (mkW s cp h (SDone printed) tp)","Shutdown does not wait for the last handler",["C60"]),
 ("OnceModel.v","np_work","flagged true (answer_i","flagged false (answer_i","the day is never finished without payloads",["C60"]),
 ("OnceModel.v","sum_work","flagged false (answer_i","flagged true (answer_i","the day of a sum is finished by its first message",["C60"]),
 ("OnceModel.v","sum_work","(add_comm (ssize res) s1, Ok (Some res, true))","(add_comm (ssize res) s1, Ok (Some res, false))","the second message of a sum does not finish the day",["C60"]),
 ("OnceModel.v","sum_client_iv","lift (sum_process_iv pk sk0 w c2)","lift (Ok c2)","message IV is ignored",["C60"]),
 ("OnceModel.v","ca_client","(fun m => ca_process sk0 m c1)","(fun m => ca_process sk0 m c)","the reply is processed in the state before the own update",["C60"]),
 ("OnceModel.v","psi_client","(record_points pk dec_string (today c) (fst (cl_out c)), snd (cl_out c))","(cl_out c)","the day's points are not recorded",["C60"]),
 ("OnceModel.v","ss_work","(s2, Ok (None, true))","(s1, Ok (None, true))","the shares of the day are dropped",["C60"]),
 # mock trees
 ("MockModel.v","mock_node","(repeat z (node_cap pnode))","(repeat z (length (node_elems pnode)))","the replica's nodes are as full as the plaintext nodes, not full",["C61"]),
 ("MockModel.v","mock_other","(t_depth my) (t_actual my)","(t_depth other) (t_actual my)","depth not copied to the replica",["C61"]),
 ("MockModel.v","mock_other","(t_depth my) (t_actual my)","(t_depth my) (t_actual other)","size not copied to the replica",["C61"]),
 ("MockModel.v","mock_other","(map (mock_node z) (t_nodes my))","(t_nodes other)","the replica's nodes are not replaced",["C61"]),
 ("MockModel.v","ss_mock_zero","encrypt pk 0%Z","encrypt pk 1%Z","the replica holds encryptions of one",["C61"]),
 ("MockModel.v","del_mock","penc 0%Z","penc 1%Z","the replica holds encryptions of one",["C61"]),
 ("MockModel.v","create_mock_trees","repeatM size mock_element tp","repeatM (S size) mock_element tp","one element too many",["C61"]),
 ("MockModel.v","ss_mock_one","b <- penc 0%Z","b <- penc 1%Z","payloads of the replica are one",["C61"]),
 # traffic of the programs with deletions
 ("DTrafficModel.v","meter_add","(nth day (mt_comm m) 0 + size)","size","AddComm overwrites instead of adding",["C62"]),
 ("DTrafficModel.v","meter_store","(counter mod 2 ^ 64) (mt_gc m)","((nth day (mt_gc m) 0 + counter) mod 2 ^ 64) (mt_gc m)","StoreCommGC adds: harmless on a fresh vector",["C62"]),
 ("DTrafficModel.v","meter_lines","meter_lines g comm' gc'","meter_lines last comm' gc'","differences are taken to the set-up instead of the day before",["C62"]),
 ("DTrafficModel.v","meter_print","last (mt_gc m) 0","fold_left Z.add (mt_gc m) 0","the total sums cumulative counters",["C62"]),
 ("DTrafficModel.v","one_handle","meter_add (day (fst st))","meter_add (day s')","party one counts on the day after FinishDay",["C62"]),
 ("DTrafficModel.v","one_handle","((s', snd st), o)","((s', meter_add (day (fst st)) 1 (snd st)), o)","refused requests are counted",["C62"]),
 ("DTrafficModel.v","one_handle","(body2 r) (snd st)","(field_size (body2 r)) (snd st)","party one counts the wrapping field",["C62"]),
 ("DTrafficModel.v","request_size","field_size (field_size (body1 m))","body1 m","party zero counts only the body",["C62"]),
 ("DTrafficModel.v","one_loop","meter_store i counter m","meter_store 0 counter m","the counter is always stored for the first day",["C62"]),
 ("DTrafficModel.v","one_loop","if negb (finished s) then None else","","party one does not wait for the end of the day",["C62"]),
 ("DTrafficModel.v","zero_run","meter_add (dc_day c) (request_size m1) mt","mt","party zero does not count its request",["C62"]),
 ("DTrafficModel.v","pzero_half","meter_add (pc_day c) (request_size m1) mt","meter_add (S (pc_day c)) (request_size m1) mt","counted on the next day",["C62"]),
 ("DTrafficModel.v","field_size","1 + varint_size 9 n + n","1 + n","the length prefix is not counted",["C62"]),
 ("DTrafficModel.v","meter_print","| [] => UB","| [] => Ok ([], 0)","zero days print an empty report",["C62"]),
]
