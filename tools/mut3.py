M = [
 # setup of trees
 ("SetupModel.v","setup_trees","mkFiles (fst f0) (snd f1) (fst f1) (snd f0)","mkFiles (fst f0) (snd f0) (fst f1) (snd f1)","each party gets its own encrypted tree",["C49","C50"]),
 ("SetupModel.v","is_ss","match f with SS => true | _ => false end","match f with SS => false | _ => true end","functionality test inverted: wrong kind of encrypted tree",["C49","C50"]),
 ("SetupModel.v","import_trees","Ok other' => Ok (my', other') | _ => Abort end","Ok other' => Ok (my', other') | _ => Ok (my', tree_new 1 1) end","an unreadable encrypted tree is replaced by an empty one",["C49"]),
 ("SetupModel.v","trees_elgamal","(insert (fun a => hash (fst a)))","(insert (fun a => hash (snd a)))","initial tree placed by value instead of element",["C49","C50"]),
 ("SetupModel.v","generate_trees","lift (write_trees pt et)","lift (write_trees (tree_new stash node) et)","empty plaintext tree written",["C49","C50"]),
 ("SetupModel.v","import_one_sum","(deser_node (@deser_elgamal Gr)) (p1_plaintext d) (p1_encrypted d)","(deser_node (@deser_elgamal Gr)) (p1_plaintext d) (p0_encrypted d)","server imports its own encrypted tree",["C49","C50"]),
 ("SetupModel.v","sum_prepared","client_with t0 (length d0) d0 (0, 0)","client_with t0 (length d0) d0 (0, 1)","sum does not start at zero",["C50"]),
 # deployment
 ("DeployModel.v","count_row","(fst acc + 1, to_int (snd acc + v))","(fst acc, to_int (snd acc + v))","initial intersection not subtracted from the announced size",["C51"]),
 ("DeployModel.v","count_row","(fst acc + 1, to_int (snd acc + v))","(fst acc + 1, to_int (snd acc))","initial sum not subtracted from the announced sum",["C51"]),
 ("DeployModel.v","count_row","if same_string e x then","if negb (same_string e x) then","counts the pairs of different elements",["C51"]),
 ("DeployModel.v","generate_data","(shared - ca) (sum - isum)","shared (sum - isum)","announces the overall size although the initial trees share elements",["C51"]),
 ("DeployModel.v","generate_data","csv1 <- lift (omap dataset_write days1)","csv1 <- lift (omap dataset_write days0)","party one gets party zero's files",["C51"]),
 ("DeployModel.v","generate_data","None shared sum data","None shared 0 data","announced sum is zero without initial trees",["C51"]),
 ("DeployModel.v","run_ca","lift (load_elements (dp_csv1 d)) ;; t1","lift (load_elements (dp_csv0 d)) ;; t1","server loads the client's data",["C51"]),
 ("DeployModel.v","trees_for","Some f => import f | None =>","Some _ => Ok (tree_new stash node, tree_new stash node) | None =>","trees on disk ignored",["C51"]),
 ("DeployModel.v","shared_size","if flag <? 0 then total / 8 else flag","if flag <? 0 then total / 8 else flag + 1","one more shared element than announced requested",["C51"]),
 # keys
 ("KeyModel.v","generate_paillier_keys","io (write_msg cppub (bn0, 1) (d1 ++ paillier_pub))","io (write_msg cppub (bn0, 1) (d0 ++ paillier_pub))","party zero's public key written to its own directory",["C52"]),
 ("KeyModel.v","generate_threshold_keys","joint_public_key [d0 ++ elgamal_pub; d1 ++ elgamal_pub] (d1 ++ shared_pub)","joint_public_key [d1 ++ elgamal_pub; d1 ++ elgamal_pub] (d1 ++ shared_pub)","party one's joint key made from its own share twice",["C52"]),
 ("KeyModel.v","generate_threshold_keys","joint_public_key [d0 ++ elgamal_pub; d1 ++ elgamal_pub] (d1 ++ shared_pub)","joint_public_key [d0 ++ elgamal_pub; d1 ++ elgamal_pub] (d0 ++ shared_pub)","joint key written twice to party zero",["C52"]),
 ("KeyModel.v","threshold_key_files","io (write_msg cthr (bn, b1) fn1)","io (write_msg cthr (bn, b0) fn1)","both parties get the same Paillier share",["C52"]),
 ("KeyModel.v","generate_elgamal_keys","elgamal_key_pair (d1 ++ slash :: elgamal_pub) (d1 ++ slash :: elgamal_key)","elgamal_key_pair (d0 ++ slash :: elgamal_pub) (d1 ++ slash :: elgamal_key)","second public key overwrites the first",["C52"]),
 ("KeyModel.v","load_addition","must (read_msg cpub (dir ++ shared_pub))","must (read_msg cpub (dir ++ elgamal_pub))","party encrypts with its own share's public key",["C52"]),
 ("KeyModel.v","load_original","must (read_msg cpub (other ++ elgamal_pub))","must (read_msg cpub (mine ++ elgamal_pub))","own public key taken for the other's",["C52"]),
 ("KeyModel.v","joint_public_key","k <-- pure (public_key_from_shares ks)","k <-- pure (public_key_from_shares (firstn 1 ks))","joint key made from the first share only",["C52"]),
 ("KeyModel.v","load_deletion","(of_bytes (fst (fst sm)), of_bytes (snd (fst sm)), snd sm","(of_bytes (fst (fst sm)), of_bytes (fst (fst sm)), snd sm","p used for both primes",["C52"]),
 # traffic
 ("AddModel.v","add_comm","nth (sv_day s) (sv_comm s) 0 + size","size","only the last message of a day is counted",["C53"]),
 ("AddModel.v","answer_i","(after (add_comm (ssize res) (set_trees ts s)), Ok (Some res))","(add_comm (ssize res) (after (set_trees ts s)), Ok (Some res))","reply counted on the next day",["C53"]),
 ("AddModel.v","handle_ss","let s1 := add_comm (csize req) s in","let s1 := s in","requests of the secret-sharing protocol not counted",["C53"]),
 ("OrigModel.v","og_message_iv","(og_add_comm (ssize (OR_IV ps)) s1, Ok (Some (OR_IV ps)))","(s1, Ok (Some (OR_IV ps)))","message IV not counted",["C53"]),
 ("TrafficModel.v","print_comm","fold_left (fun total c => (total + c) mod 2 ^ 64) comm 0","fold_left (fun total c => (total + c) mod 2 ^ 32) comm 0","total wraps at 32 bits",["C53"]),
 # original protocol from setup to result
 ("OrigSetupModel.v","write_hx","point_to_bytes (gpow (gpow (H x) sk0) sk1)","point_to_bytes (gpow (gpow (H x) sk0) sk0)","initial map under the wrong exponent",["C54"]),
 ("OrigSetupModel.v","og_setup_files","trees_plain stash node hash pk1 start1","trees_plain stash node hash pk1 start0","party zero's set in party one's tree",["C54"]),
 ("OrigSetupModel.v","import_oprf","import_oprf r ((k, e) :: m)","import_oprf r m","imported map entries dropped",["C54"]),
 ("OrigSetupModel.v","og_server_with","let! m := import_oprf (of_oprf f) [] in Ok (mkOgS t m","let! m := import_oprf (of_oprf f) [] in Ok (mkOgS (tree_new stash node) m","imported encrypted tree not stored",["C54"]),
 ("OrigSetupModel.v","og_generate","announced shared (pairs_equal (d_elements tree0) (d_elements tree1))","announced shared 0","initially common elements not subtracted",["C54"]),
 ("OrigSetupModel.v","og_generate","files <- og_setup_files start0 start1","files <- og_setup_files start1 start0","initial sets swapped",["C54"]),
 ("OrigSetupModel.v","og_deployed_run","og_prepared (od_files d) d0 d1 k","og_prepared None d0 d1 k","parties started without --trees although data was prepared for it",["C54"]),
 ("OrigSetupModel.v","og_prepared","(og_server_with files (length d0) d0)","(og_server_with files (length d0) d1)","server gets the client's data",["C54"]),
]
