M=[
("ProgModel.v","write_csv","let w1 := step (set_file w name (Some [])) in","let w1 := step w in","opening does not empty the file (equivalent if the write replaces it)",["C67"]),
("ProgModel.v","write_csv","| None => (step (set_file w1 name (Some c)), Ok tt)","| None => (step (set_file w1 name (Some [])), Ok tt)","nothing is written",["C67"]),
("ProgModel.v","write_csv","Some k => (step (set_file w1 name (Some (firstn k c))), Err Internal)","Some k => (step (set_file w1 name (Some (firstn k c))), Ok tt)","a failed write is not noticed",["C67"]),
("ProgModel.v","write_days","write_csv (dataset_write x1) (path (day_file d1 day))","write_csv (dataset_write x1) (path (day_file d0 day))","party one's set is written over party zero's",["C67"]),
("ProgModel.v","write_days","write_csv (dataset_write x0) (path (day_file d0 day))","write_csv (dataset_write x1) (path (day_file d0 day))","party zero gets party one's set",["C67"]),
("ProgModel.v","write_days","write_days d0 d1 k' (day + 1) r0 r1","write_days d0 d1 k' day r0 r1","every day goes to the same file",["C67"]),
("ProgModel.v","read_days","r <-- read_days dir k' (day + 1) ;; sret (d :: r)","r <-- read_days dir k' (day + 1) ;; sret (r ++ [d])","days in reverse",["C67"]),
("ProgModel.v","read_days","d <-- read_csv (path (day_file dir day))","d <-- read_csv (path (day_file dir (day - 1)))","days are read from 0 on",["C67"]),
("ProgModel.v","read_csv","dataset_read (whole_lines (firstn k c) [])","Abort","a read error throws",["C67"]),
("ProgModel.v","day_file","dir ++ dec_int day ++ dot_csv","dir ++ dot_csv","the day is not part of the name",["C67"]),
("ProgModel.v","trees_zero","(insert (fun a => hash (fst a))) pad_payload (enc_elgamal pk) ser_elgamal deser_elgamal ser_pnode_payload data plain_dir enc_dir","(insert (fun a => hash (fst a))) pad_payload (enc_elgamal pk) ser_elgamal deser_elgamal ser_pnode_payload data enc_dir plain_dir","party zero's trees are swapped between the parties",["C67"]),
("ProgModel.v","trees_one","pk <-- io (load_encrypter cpub e key_dir shared_pub)","pk <-- io (load_encrypter cpub e key_dir elgamal_pub)","party one's tree is encrypted with its own key, not the joint one",["C67"]),
("ProgModel.v","tree_files_written","io (write_msg e cpt pm (plain_dir ++ plaintext_tree))","io (write_msg e cpt pm (plain_dir ++ encrypted_tree))","the plaintext tree goes to encrypted.tree",["C67"]),
("ProgModel.v","setup_data","trees_one start1 (p1_dir out) (p1_dir data) (p0_dir data)","trees_one start1 (p1_dir out) (p0_dir data) (p1_dir data)","party one's plaintext goes to party zero",["C67"]),
("ProgModel.v","setup_data","sret (mkAnnounced (shared - fst r) (sum - snd r) sets)","sret (mkAnnounced shared (sum - snd r) sets)","the initial intersection is not subtracted",["C67"]),
("ProgModel.v","setup_data","if 0 <? start then","if 1 <? start then","no tree for one initial element",["C67"]),
("ProgModel.v","setup_data","io (write_days e (p0_dir data) (p1_dir data) (Z.to_nat days) 1 days0 days1)","io (write_days e (p1_dir data) (p0_dir data) (Z.to_nat days) 1 days0 days1)","the daily sets are swapped",["C67"]),
("ProgModel.v","setup_program","e (p0_dir out) (p1_dir out) p q bits ;;;","e (p1_dir out) (p0_dir out) p q bits ;;;","key directories swapped (harmless: the shares are symmetric)",["C67"]),
("ProgModel.v","setup_program","setup_data data out days daily start shared_flag max_value func","setup_data out data days daily start shared_flag max_value func","data and key directories swapped",["C67"]),
("ProgModel.v","load_trees","sret (my, other)","sret (my, tree_new 2 2)","does not compile or drops the other tree",["C67"]),
("ProgModel.v","start_party","sret (mkParty ts pk sk n share pai data)","sret (mkParty ts pk share n sk pai data)","the secret keys are swapped",["C67"]),
("ProgModel.v","start_party","if trees then load_trees dir else","if negb trees then load_trees dir else","the --trees flag is inverted",["C67"]),
("ProgModel.v","one_elements","dataset_elements (p1_dir data) (p1_dir out) days trees","dataset_elements (p1_dir data) (p0_dir out) days trees","party one uses party zero's keys",["C67"]),
("ProgModel.v","zero_elements","dataset_elements (p0_dir data) (p0_dir out) days trees","dataset_elements (p1_dir data) (p0_dir out) days trees","party zero reads party one's data",["C67"]),
("ProgModel.v","ca_day2","ca_process sk0 m c1","ca_process sk1 m c1","party zero decrypts with party one's key",["C67"]),
("ProgModel.v","prog_ss","(pa_share p0) (pa_share p1)","(pa_share p1) (pa_share p1)","party zero uses party one's Paillier share",["C67"]),
("ProgModel.v","ss_day2","ss_message_iii sk0 n0 pai0 psk0 m c1","ss_message_iii sk0 n0 pai0 psk1 m c1","party zero uses party one's Paillier share",["C67"]),
("ProgModel.v","prog_sum","zero_pairs sum_payload","zero_pairs ss_payload","the payload of the other functionality",["C67"]),
]
