O="OrigProgModel.v"; D="DelProgModel.v"
M=[
(O,"og_tree_files","load_encrypter cpub e key_dir elgamal_pub","load_encrypter cpub e plain_dir elgamal_pub","the key is looked for in the data directory",["C68"]),
(O,"og_tree_files","ser_pnode data plain_dir enc_dir","ser_pnode data enc_dir plain_dir","the trees go to the wrong parties",["C68"]),
(O,"write_hx_file","m1 <-- io (read_msg e csec (p1_dir out ++ elgamal_key))","m1 <-- io (read_msg e csec (p0_dir out ++ elgamal_key))","party zero's key is applied twice",["C68"]),
(O,"write_hx_file","write_msg e coprf kv (p0_dir data ++ elements_ec)","write_msg e coprf kv (p1_dir data ++ elements_ec)","elements.ec goes to party one",["C68"]),
(O,"write_hx_file","write_msg e coprf kv (p0_dir data ++ elements_ec)","write_msg e coprf kv (p0_dir out ++ elements_ec)","elements.ec goes to the key directory",["C68"]),
(O,"og_setup_data","start1 <-- pure (dataset_elements tree1)","start1 <-- pure (dataset_elements tree0)","the tree is made of party zero's set",["C68"]),
(O,"og_setup_data","write_hx_file data out tree0","write_hx_file data out tree1","elements.ec is made of party one's set",["C68"]),
(O,"og_setup_data","io (write_days e (p0_dir data) (p1_dir data) (Z.to_nat days) 1 days0 days1)","io (write_days e (p0_dir data) (p1_dir data) (Z.to_nat days) 0 days0 days1)","the days are numbered from 0",["C68"]),
(O,"og_setup_data","io (write_days e (p0_dir data) (p1_dir data) (Z.to_nat days) 1 days0 days1)","io (write_days e (p0_dir data) (p1_dir data) (Z.to_nat days) 1 days1 days0)","the daily sets are swapped",["C68"]),
(O,"og_setup_data","if 0 <? start then","if 1 <? start then","no tree for one initial element",["C68"]),
(O,"og_setup_data","else sret (Some shared, sets)","else sret (Some total, sets)","the number of all elements is printed",["C68"]),
(O,"og_setup_data","og_tree_files start1 (p1_dir out) (p1_dir data) (p0_dir data)","og_tree_files start1 (p0_dir out) (p1_dir data) (p0_dir data)","party one's tree is encrypted for party zero",["C68"]),
(O,"og_zero","import_oprf kv []","import_oprf [] []","elements.ec is read and dropped",["C68"]),
(O,"og_zero","load_original cpub csec e (p0_dir out) (p1_dir out)","load_original cpub csec e (p1_dir out) (p0_dir out)","party zero takes party one's keys",["C68"]),
(O,"og_zero","read_days e (p0_dir data) days 1","read_days e (p0_dir data) (pred days) 1","the last day is not read",["C68"]),
(O,"og_zero","read_msg e cet (p0_dir data ++ encrypted_tree)","read_msg e cet (p1_dir data ++ encrypted_tree)","the tree is read from the other directory",["C68"]),
(O,"og_one","if trees then","if negb trees then","--trees is inverted for party one",["C68"]),
(O,"og_one","read_days e (p1_dir data) days 1","read_days e (p0_dir data) days 1","party one reads party zero's sets",["C68"]),
(O,"og_day2","m3 <- oc_message_iii other1 x1 r2","m3 <- oc_message_iii mine1 x1 r2","re-encryption under the wrong key",["C68"]),
(O,"og_day2","og_send hash H dec_string mine0 other0 x0 csize ssize","og_send hash H dec_string other0 mine0 x0 csize ssize","party zero's public keys swapped",["C68"]),
(O,"og_day2","mkOgC t (oc_data c) (S (oc_day c)) (oc_total c)","mkOgC (oc_tree c) (oc_data c) (S (oc_day c)) (oc_total c)","party one's tree is not updated",["C68"]),
(D,"private_key","(of_bytes (fst (fst m))) (of_bytes (snd (fst m)))","(of_bytes (fst (fst m))) (of_bytes (fst (fst m)))","p is used for q",["C69"]),
(D,"private_key","(Z.to_nat (snd m))","2%nat","another exponent",["C69"]),
(D,"public_key","(of_bytes (fst m)) (Z.to_nat (snd m))","(of_bytes (fst m)) (S (Z.to_nat (snd m)))","another exponent",["C69"]),
(D,"del_tree_files","key_dir ++ paillier_key","plain_dir ++ paillier_key","the key is looked for in the data directory",["C69"]),
(D,"del_tree_files","daily plain_dir enc_dir","daily enc_dir plain_dir","the trees go to the wrong parties",["C69"]),
(D,"del_tree_files","enc_deletion (pv_n V) (priv_encrypt V)","enc_deletion (pv_n V - 1) (priv_encrypt V)","negative numbers are represented modulo n - 1",["C69"]),
(D,"del_setup_data","del_tree_files tree0 (p0_dir out) (p0_dir data) (p1_dir data)","del_tree_files tree0 (p1_dir out) (p0_dir data) (p1_dir data)","party zero's tree is encrypted under party one's key",["C69"]),
(D,"del_setup_data","del_tree_files tree1 (p1_dir out) (p1_dir data) (p0_dir data)","del_tree_files tree0 (p1_dir out) (p1_dir data) (p0_dir data)","party one gets party zero's set",["C69"]),
(D,"del_setup_data","if 0 <? start then","if 1 <? start then","no tree for one initial element",["C69"]),
(D,"del_setup_data","(p0_dir data) (p1_dir data) (Z.to_nat days) 1 days0 days1","(p1_dir data) (p0_dir data) (Z.to_nat days) 1 days0 days1","the daily sets are swapped",["C69"]),
(D,"del_setup_data","(p0_dir data) (p1_dir data) (Z.to_nat days) 1 days0 days1","(p0_dir data) (p1_dir data) (pred (Z.to_nat days)) 1 days0 days1","the last day is not written",["C69"]),
(D,"del_setup_data","sret (sum, (tree0, days0, tree1, days1))","sret (sum + 1, (tree0, days0, tree1, days1))","another number is printed",["C69"]),
(D,"del_setup_program","e (p0_dir out) (p1_dir out) p0 q0 p1 q1 ;;;","e (p1_dir out) (p0_dir out) p0 q0 p1 q1 ;;;","the keys change places",["C69"]),
(D,"del_setup_program","del_setup_data data out days","del_setup_data out data days","data and key directories swapped",["C69"]),
(D,"start_del_party","if import then load_trees","if negb import then load_trees","--import is inverted",["C69"]),
(D,"start_del_party","keys ++ paillier_pub","keys ++ paillier_key","the public key is read from the secret key's file (does not parse)",["C69"]),
(D,"start_del_party","sret (mkDelParty ts V P l)","sret (mkDelParty (tree_new stash node, snd ts) V P l)","the imported plaintext tree is dropped",["C69"]),
(D,"start_del_party","sret (mkDelParty ts V P l)","sret (mkDelParty ts V P (rev l))","the days in reverse",["C69"]),
(D,"prog_deletion","del_start_with (dp_trees p0) (dp_trees p1) (dp_data p0) (dp_data p1)","del_start_with (dp_trees p1) (dp_trees p0) (dp_data p0) (dp_data p1)","trees swapped",["C69"]),
(D,"prog_deletion","(dp_pub p1) (dp_pub p0) (dp_priv p0) (dp_priv p1)","(dp_pub p0) (dp_pub p1) (dp_priv p0) (dp_priv p1)","public keys swapped",["C69"]),
(D,"prog_deletion","start_del_party e0 (p0_dir data) (p0_dir out) days import","start_del_party e0 (p0_dir data) (p1_dir out) days import","party zero uses party one's keys",["C69"]),
(D,"prog_deletion_psi","psi_start_with stash node (dp_trees p0) (dp_trees p1) (dp_data p0) (dp_data p1)","psi_start_with stash node (dp_trees p0) (dp_trees p1) (dp_data p1) (dp_data p0)","daily sets swapped",["C69"]),
(D,"prog_deletion_psi","start_del_party e1 (p1_dir data) (p1_dir out) days import","start_del_party e1 (p1_dir data) (p1_dir out) days false","party one never imports",["C69"]),
(D,"prog_deletion_psi","(dp_priv p0) (dp_priv p1)","(dp_priv p1) (dp_priv p0)","private keys swapped",["C69"]),
]
