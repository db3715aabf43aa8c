N='NetModel.v'
A=['C71']
M=[
 (N,'over_wire','if message_limit <? Z.of_nat (length sent) then (s, Err Internal) else','','a request of more than a gigabyte is refused',A),
 (N,'over_wire','if message_limit <? Z.of_nat (length sent) then','if message_limit <=? Z.of_nat (length sent) then','a request of exactly a gigabyte is accepted',A),
 (N,'over_wire','if message_limit <? Z.of_nat (length back) then (s\', Err Internal) else','','a reply of more than a gigabyte is refused',A),
 (N,'over_wire','if message_limit <? Z.of_nat (length back) then (s\', Err Internal) else','if message_limit <? Z.of_nat (length back) then (s, Err Internal) else','the handler has run when its reply is too large',A),
 (N,'over_wire','| x => x\n      end','| _ => (s, Err Internal)\n      end','a handler that crashes is not an error of the client',A),
 (N,'message_limit','1024 * 1024 * 1024','4 * 1024 * 1024','the limit is a gigabyte, not the default of four megabytes',A),
 (N,'message_limit','1024 * 1024 * 1024','1024 * 1024 * 1024 * 2','the limit is a gigabyte',A),
 (N,'to_update','(u_hashes u, map','([], map','the hashes of an update are sent',A),
 (N,'to_update','map (map (to_welem enc)) (u_nodes u)','map (map (to_welem enc)) (rev (u_nodes u))','the nodes of an update keep their order',A),
 (N,'of_update','map (map (of_welem dec)) (snd m)','[]','the nodes of an update are read',A),
 (N,'to_12','set_if (map (to_welem enc) (m_cands m))','None','the candidates are sent',A),
 (N,'to_12','set_if (map (map (to_welem enc)) (m_vct m))','None','the vector of candidate sets is sent',A),
 (N,'to_12','Some (to_update (m_updates m))','None','the updates are sent',A),
 (N,'set_if','[] => None','[_] => None','a single candidate is sent',A),
 (N,'to_p0','P0_III_sum w => Some (inr (inl (Some (to_ct enc w))))','P0_III_sum w => Some (inr (inl (Some (to_ct enc (snd w, fst w)))))','the two points of the sum keep their places',A),
 (N,'to_p0','P0_III_ss ps => Some (inr (inr (map (fun p => Some p) ps)))','P0_III_ss ps => Some (inr (inr (map (fun p => Some p) (tl ps))))','every share ciphertext is sent',A),
 (N,'of_p0','Some (inr (inr ps)) => P0_III_ss (map get ps)','Some (inr (inr ps)) => P0_unset','message III of the secret shares is recognised',A),
 (N,'to_client','C_original => Some (inr None)','C_original => None','an original message is one of the other kind',A),
 (N,'to_server','Some (S_party_one (P1_IV w)) => Some (inl (Some (inr (Some (to_ct enc w)))))','Some (S_party_one (P1_IV w)) => Some (inl (Some (inr None)))','message IV carries the ciphertext',A),
 (N,'of_server','  | None => None','  | None => Some S_original','an empty reply is read as an empty reply',A),
 (N,'of_server','Some (inl (Some (inl m))) => Some (S_party_one (P1_II (of_12 m)))','Some (inl (Some (inl m))) => Some (S_party_one P1_unset)','message II is recognised',A),
 (N,'client_size','bytes_of ClientMessage (to_client m)','bytes_of ClientMessage (to_client m) + 5','the traffic counts the real sizes',A),
 (N,'server_size','bytes_of ServerMessage (to_server (Some m))','0','the traffic counts the real sizes of replies',A),
 (N,'to_og_req','OrigModel.OQ_III css => Some (inr (Some (inr (inr (inl (to_sets css))))))','OrigModel.OQ_III css => Some (inr (Some (inr (inr (inl (to_sets (rev css)))))))','candidate sets of the original protocol keep their order',A),
 (N,'to_og_req','OrigModel.OQ_V ps => Some (inr (Some (inr (inr (inr (inr (to_points ps)))))))','OrigModel.OQ_V ps => Some (inr (Some (inr (inr (inr (inl (to_points ps)))))))','message V is sent as message V',A),
 (N,'to_og_req','(Some (to_update (OrigModel.oi_updates m)), to_points (OrigModel.oi_points m))','(Some (to_update (OrigModel.oi_updates m)), [])','the points of message I are sent',A),
 (N,'to_og_reply','(Some (to_ct enc a), to_sets css)','(None, to_sets css)','alpha is sent in message II',A),
 (N,'of_og_reply','Some (OrigModel.OR_IV (map dec ps))','Some (OrigModel.OR_IV (map dec (rev ps)))','the points of message IV keep their order',A),
 (N,'og_reply_size','Some r','None','the traffic counts replies of the original protocol',A),
 (N,'dc_program','del_gen1 hash P1 V0 es (reset_gc (dc_party c))','del_gen1 hash P1 V0 es (dc_party c)','the circuit inputs of the day before are cleared',A),
 (N,'dc_program','nth_error (dc_data c) (dc_day c)','nth_error (dc_data c) 0','the data of the day is used',A),
 (N,'dc_program','mkDC p1 (dc_data c)','mkDC (dc_party c) (dc_data c)','the tree of party zero is updated',A),
 (N,'del_day_by','ds_reset (snd (fst st))','snd (fst st)','party one starts the day unfinished',A),
 (N,'del_day_by','del_circuits circuit_input P0 P1 V0 V1 (dc_party c) (ds_party s)','del_circuits circuit_input P1 P0 V0 V1 (dc_party c) (ds_party s)','the circuits use the keys of the parties',A),
 (N,'del_day_by','(dc_result c + (rs + other_rs) mod 2 ^ 64)','(dc_result c + rs mod 2 ^ 64)','both shares are added to the result',A),
 (N,'half_program','pc_handle V0 (got r) (pc_with p1 c)','pc_handle V0 (got r) c','the trees of party zero are updated in each half',A),
 (N,'psi_run_by','half_program dels c1) s','half_program adds c1) s','the deletions come first',A),
 (N,'psi_run_by','half_program adds c2) s2','half_program adds c1) s2','the second half starts from the state after the first',A),
 (N,'psi_run_by','(S (pc_day c3))','(pc_day c3)','the day advances',A),
 (N,'psi_day_by','ps_reset s','s','party one starts the day unfinished',A),
 (N,'psi_day_by','second_phase P0 V0 rs0 rs1','second_phase P0 V0 rs1 rs0','the answers of the parties are combined in order',A),
 (N,'against','serial handle p s tp1','serial handle p s tp','the server does not see the coins the client has used',A),
]
