M = [
 ("TreeModel.v","node_add","if node_cap n <=? length (elems n) then None","if node_cap n <? length (elems n) then None","a node accepts one entry too many: capacities exceeded",["C03"]),
 ("TreeModel.v","tree_new","[node_new stash_size; node_new node_size]","[node_new node_size; node_new stash_size]","stash and root capacities swapped in the constructor",["C03"]),
 ("TreeModel.v","add_new_layer","repeat (node_new (t_node_size t))","repeat (node_new (t_stash_size t))","new layers get the stash capacity",["C03"]),
 ("TreeModel.v","grow_loop","if 2 ^ (t_depth t + 1) <=? new_elem_cnt + t_actual t","if 2 ^ (t_depth t + 1) <? new_elem_cnt + t_actual t","tree grows one element too late",["C02"]),
 ("TreeModel.v","get_path","(path_up (compute_index (t_depth t) h))","(path_up (compute_index (t_depth t - 1) h))","lookups stop one level above the leaf",["C01"]),
 ("TreeModel.v","path_up_fuel","if u =? 0 then [0] else u :: path_up_fuel f (u / 2)","if u =? 1 then [1] else u :: path_up_fuel f (u / 2)","paths do not include the stash",["C01"]),
 ("TreeModel.v","steps_of","S (Nat.log2 (Nat.lxor x leaf))","Nat.log2 (Nat.lxor x leaf)","off by one in the number of levels an entry must move up",["C01"]),
 ("TreeModel.v","gather_elems","elems (nodeAt ns u) ++ if u =? 0 then [e] else []","elems (nodeAt ns u)","the new element is not inserted",["C01"]),
 ("TreeModel.v","fill_node","if st <=? steps then","if st <? steps then","entries are placed one level too high; the leaf stays empty",["C01","C05"]),
 ("TreeModel.v","clear_path","set_nth u (node_clear (nodeAt ns u)) ns","ns","nodes are not cleared: entries duplicated",["C01"]),
 ("TreeModel.v","parents_loop","if tmp <? last todo 0","if tmp <=? last todo 0","indices may be repeated in the update message",["C04","C06"]),
 ("TreeModel.v","finish_insert","(t_actual t + cnt)","(t_actual t + cnt + 1)","element counter drifts",["C02"]),
 ("TreeModel.v","replace_nodes","(t_actual t1 + cnt) ns","(t_actual t1) ns","receiver does not count received elements",["C06"]),
 ("TreeModel.v","unique_adj","if x =? y then unique_adj r else x :: unique_adj r","x :: unique_adj r","duplicate leaves are sent twice",["C04","C06"]),
 ("TreeModel.v","insert_loop_dbg","if st <=? depth then Abort","if st <? depth then Abort","debug build misses an overflow of the stash",["C05"]),
 ("TreeDelModel.v","emit","if v =? 0 then [] else [(e, v)]","[(e, v)]","cancelled entries stay in the tree",["C12"]),
 ("TreeDelModel.v","merge_run","merge_run cur (val + p) r","merge_run cur p r","payloads of merged entries are overwritten instead of added",["C11"]),
 ("TreeDelModel.v","merge_run","if e =? cur then","if e <=? cur then","different elements merged",["C11"]),
 ("TreeDelModel.v","merge_bucket","rev (merge_sorted (sort_entries (rev b)))","rev (merge_sorted (rev b))","merging without sorting leaves duplicates",["C12"]),
 ("TreeDelModel.v","entry_leb","(fst a <? fst b)","(snd a <? snd b)","sorted by payload first: equal elements not adjacent",["C12"]),
 ("ElGamalModel.v","ct_invert","mkCt (ginv (ct_u c)) (ginv (ct_e c))","mkCt (ct_u c) (ginv (ct_e c))","inverse of only one component",["C29"]),
 ("ElGamalModel.v","rerandomize","(gop (ct_e c) (gpow (pk_y pk) r))","(gop (ct_e c) (gpow (pk_g pk) r))","re-randomization with the wrong base changes the plaintext",["C29"]),
 ("ElGamalModel.v","encrypt_point","(gop m (gpow (pk_y pk) r))","(gop m (gpow (pk_g pk) r))","encryption under the generator",["C28"]),
 ("ElGamalModel.v","partial_decrypt","mkCt (ct_u c) (decrypt x c)","mkCt (gpow (ct_u c) x) (decrypt x c)","partial decryption changes u",["C29"]),
 ("ElGamalModel.v","exp_table","exp_table g (i + 1) k","exp_table g i k","table holds the same power everywhere",["C30"]),
 ("ElGamalModel.v","init_decrypt_exp","exp_table (pk_g pk) 0 limit","exp_table (pk_g pk) 1 limit","table starts at 1: results off by one",["C30"]),
 ("ElGamalModel.v","ct_is_zero","geqb (ct_u c) gid && geqb (ct_e c) gid","geqb (ct_e c) gid","zero test looks at one component only",["C29"]),
 ("ElGamalModel.v","public_key_from_shares","[] => Err InvalidArgument","[] => Ok (mkPk gid gid)","an empty list of shares is accepted",["C28"]),
 ("ElGamalModel.v","exponentiate","gpow gid m","gpow gen m","exponentiate repaired: C31 (a statement about the defect) must fail",["C31"]),
 ("BytesModel.v","bn2bin","rev (le_digits","(le_digits","little-endian bytes written",["C37"]),
 ("BytesModel.v","bytes2uint64","skipn (length s - 8) s","firstn 8 s","takes the first instead of the last 8 bytes",["C38"]),
 ("BytesModel.v","pad_bytes","repeat 0 (len - length s) ++ s","s ++ repeat 0 (len - length s)","padding on the wrong side",["C38"]),
 ("BytesModel.v","blocks_for","* 2 + 15) / 16","+ 15) / 16","too few blocks for a ciphertext modulo n^2",["C38"]),
 ("BytesModel.v","bytes2bool","(if (rem =? 0)%nat then Ok []","(if true then Ok []","the extra high bits are dropped",["C39"]),
 ("ContextModel.v","random_oracle","let out_len := bit_length max + hlen in","let out_len := bit_length max in","no extra bits: biased reduction, different value",["C40"]),
 ("ContextModel.v","prf","if red <? max then Some (Ok red)","if red <=? max then Some (Ok red)","PRF may return max",["C40"]),
 ("ContextModel.v","rel_prime_less_than","if 1 <? Z.gcd r num","if 1 <=? Z.gcd r num","accepts nothing / loops for ever",["C40"]),
 ("FlagModel.v","parse_flag","then (SUM, None, true)","then (SS, None, true)","SUM parsed as SS",["C47"]),
 ("FlagModel.v","unparse_flag","DEL => \"DEL\"","DEL => \"SS\"","DEL printed as SS",["C47"]),
 ("FlagModel.v","sink_send","(SOk, mkSink (Some m) true)","(SOk, mkSink (Some m) false)","a second reply overwrites the first",["C48"]),
 ("FlagModel.v","convert_status","| SErr Internal => GInternal","| SErr Internal => GUnknown","internal errors reported as unknown",["C48"]),
]
