M=[
("SelfTestModel.v","add_next","ct_mul c d :: add_next r","ct_mul c c :: add_next r","the self-test adds each ciphertext to itself",["C64"]),
("SelfTestModel.v","elgamal_body","partial_decrypt x_partial (snd c)) masked","partial_decrypt x (snd c)) masked","the self-test decrypts twice with the same share",["C64"]),
("SelfTestModel.v","elgamal_body","(rand_less_than (Z.of_nat exp_limit))","(rand_less_than (Z.of_nat exp_limit + 1))","a value one beyond the decryption table",["C64"]),
("SelfTestModel.v","elgamal_body","map ct_invert cs2","cs2","the inversion is left out",["C64"]),
("SelfTestModel.v","paillier_body","let cs := c :: r' in","let cs := c :: r in","the re-randomized ciphertexts are dropped",["C64"]),
("SelfTestModel.v","paillier_body","fold_left (thr_add n0) r' c","fold_left (thr_add n0) r' 1","the sum leaves out the first ciphertext",["C64"]),
("SelfTestModel.v","paillier_body","(combine (removelast cs) parts)","(combine cs parts)","no change: combine stops at the shorter list",["C64"]),
("SelfTestModel.v","test_paillier","m1 <-- io (read_msg e cthr pkey_one)","m1 <-- io (read_msg e cthr pkey_zero)","party one uses party zero's share",["C64"]),
("SelfTestModel.v","self_test","| (s2, Err _) => (s2, Ok (1, et_wrong t))","| (s2, Err _) => (s2, Ok (0, et_wrong t))","a failing Paillier test exits 0",["C64"]),
("SelfTestModel.v","self_test","| (s1, Err _) => (s1, Ok (1, []))","| (s1, Err _) => (s1, Ok (0, []))","a failing ElGamal test exits 0",["C64"]),
("SelfTestModel.v","wrong","(if d =? v then [] else [i])","(if d =? v then [i] else [])","right decryptions are reported as wrong",["C64"]),
("PathModel.v","join_loop","if is_absolute path then substr path 1 (Z.of_nat (length path) - 2)","if is_absolute path then substr path 1 (Z.of_nat (length path) - 1)","the trailing slash stays",["C65"]),
("PathModel.v","join_loop","(if (counter =? size)%nat then [] else [46])","(if (S counter =? size)%nat then [] else [46])","the dot is missing before the last part",["C65"]),
("PathModel.v","join_loop","then join_loop size (S counter) false joined r","then join_loop size counter false joined r","empty parts are not counted",["C65"]),
("PathModel.v","join_loop","then join_loop size (S counter) false joined r","then join_loop size (S counter) first joined r","after an empty first part the next one counts as the directory",["C65"]),
("PathModel.v","join_loop","(if ends_with_slash path then [] else [slash])","[slash]","a second slash after the directory",["C65"]),
("PathModel.v","ends_with_slash","nth (length p - 1) p 0 =? slash","nth 0 p 0 =? slash","looks at the first character",["C65"]),
("PathModel.v","generate_ec_key","(write_msg e cec (curve_id, b) name)","(write_msg e cec (0, b) name)","the curve id is not stored",["C66"]),
("PathModel.v","deserialize_ec_key","else Err InvalidArgument","else Ok (of_bytes (snd m))","the curve id is not checked",["C66"]),
("PathModel.v","generate_ec_key","| None => sfail (Err InvalidArgument)","| None => io (write_msg e cec (curve_id, []) name)","an unknown curve writes an empty key",["C66"]),
]
