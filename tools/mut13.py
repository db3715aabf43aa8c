N='EndModel.v'
A=['C72']
M=[
 ('NetModel.v','over_wire','if message_limit <? Z.of_nat (length back) then (s\', Err Internal)','if message_limit <? Z.of_nat (length back) then (s, Err Internal)','a reply that is too large leaves the server with the call handled',['C71']),
 ('NetModel.v','og_reply_size','Some r','None','the traffic counts replies of the original protocol',['C71']),
 (N,'prog_ca_net','ca_handle hash (pa_pk p1) (pa_sk p1)','ca_handle hash (pa_pk p0) (pa_sk p1)','party one answers with its own public key',A),
 (N,'prog_ca_net','ca_handle hash (pa_pk p1) (pa_sk p1)','ca_handle hash (pa_pk p1) (pa_sk p0)','party one answers with its own secret key',A),
 (N,'prog_ca_net','(pa_data p0) 0))','(pa_data p1) 0))','party zero uses its own data',A),
 (N,'prog_ca_net','server_with (pa_trees p1)','server_with (pa_trees p0)','party one uses its own trees',A),
 (N,'prog_ca_net','days (client_with','(S days) (client_with','the client runs the days it is told',A),
 (N,'prog_ca_net','wired enc dec (','(','CA: the calls are serialized',A),
 (N,'prog_ca_net','p1 <-- one_elements (deser_node deser_plain) ;; p0 <-- zero_elements ;;','p0 <-- zero_elements ;; p1 <-- one_elements (deser_node deser_plain) ;;','the order in which the parties draw their randomness',A),
 (N,'prog_ca_net','(pa_data p0) 0))','(pa_data p0) 1))','the result starts at zero',A),
 (N,'prog_psi_net','wired enc dec (psi_handle','wired enc dec (ca_handle','intersection: the server answers intersection requests as such',A),
 (N,'prog_psi_net','psi_client hash (pa_pk p0) (pa_sk p0)','psi_client hash (pa_pk p0) (pa_sk p1)','intersection: party zero decrypts with its own key',A),
 (N,'prog_psi_net','server_with (pa_trees p1) days (pa_data p1)','server_with (pa_trees p1) 0 (pa_data p1)','intersection: the server knows the number of days',A),
 (N,'prog_sum_net','zero_pairs sum_payload','zero_pairs ss_payload','sum: the payload is encrypted as for sum',A),
 (N,'prog_sum_net','deser_node deser_elgamal','deser_node deser_paillier','sum: the tree of party zero is read with ElGamal payloads',A),
 (N,'prog_sum_net','sum_handle hash (pa_pk p1)','sum_handle hash (pa_pk p0)','sum: party one answers with its own public key',A),
 (N,'prog_sum_net','(0, 0)','(0, 1)','sum: the sum starts at zero',A),
 (N,'prog_ss_net','(pa_n p1) (pa_pai p1) (pa_share p1)','(pa_n p1) (pa_pai p1) (pa_share p0)','shares: party one decrypts with its own share',A),
 (N,'prog_ss_net','(pa_n p0) (pa_pai p0) (pa_share p0)','(pa_n p0) (pa_pai p1) (pa_share p0)','shares: party zero encrypts under its own Paillier key',A),
 (N,'prog_ss_net','(pa_n p0) (pa_pai p0)','(pa_n p1) (pa_pai p0)','shares: party zero uses its own modulus',A),
 (N,'prog_original_net','og_client_day hash H other1 mine1 x1','og_client_day hash H other1 mine1 x0','original: party one uses its own secret',A),
 (N,'prog_original_net','og_client_day hash H other1 mine1 x1','og_client_day hash H mine1 other1 x1','original: the two public keys are not swapped',A),
 (N,'prog_original_net','og_handle hash H dec_string mine0 other0','og_handle hash H dec_string mine0 other1','original: the server encrypts under the key it has read',A),
 (N,'prog_original_net','(og_req_size enc) (og_reply_size enc)','(og_req_size enc) (fun _ => 0)','original: replies are counted by their size',A),
 (N,'prog_original_net','og_wired enc dec (','(','original: the calls are serialized',A),
 (N,'prog_original_net','z <-- og_zero cpub csec cet coprf stash node e0','z <-- og_zero cpub csec cet coprf stash node e1','original: party zero reads its own disk',A),
 (N,'prog_deletion_net','(dp_pub p1) (dp_pub p0) (dp_priv p0) (dp_priv p1)','(dp_pub p0) (dp_pub p1) (dp_priv p0) (dp_priv p1)','deletion: the public keys are the other party\'s',A),
 (N,'prog_deletion_net','(dp_pub p1) (dp_pub p0) (dp_priv p0) (dp_priv p1)','(dp_pub p1) (dp_pub p0) (dp_priv p1) (dp_priv p0)','deletion: each party decrypts with its own key',A),
 (N,'prog_deletion_net','(dp_data p0) (dp_data p1)','(dp_data p1) (dp_data p0)','deletion: each party uses its own data',A),
 (N,'prog_deletion_net','start_del_party e0 (p0_dir data)','start_del_party e0 (p1_dir data)','deletion: party zero reads its own directory',A),
 (N,'prog_deletion_net','days st ;; ret (st, trace)','(S days) st ;; ret (st, trace)','deletion: the days run are those told',A),
 (N,'prog_deletion_psi_net','(dp_trees p0) (dp_trees p1)','(dp_trees p1) (dp_trees p0)','deletion-psi: each party uses its own trees',A),
 (N,'prog_deletion_psi_net','(p1_dir data) (p1_dir out) days trees','(p1_dir data) (p1_dir out) days false','deletion-psi: party one imports its trees',A),
 (N,'prog_deletion_psi_net','(p0_dir data) (p0_dir out) days trees','(p0_dir data) (p0_dir out) 0 trees','deletion-psi: party zero reads the data of every day',A),
 (N,'prog_deletion_psi_net','(dp_pub p1) (dp_pub p0) (dp_priv p0) (dp_priv p1)','(dp_pub p1) (dp_pub p0) (dp_priv p0) (dp_priv p0)','deletion-psi: party one decrypts with its own key',A),
]
