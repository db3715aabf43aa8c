M = [
 # Paillier
 ("PaillierModel.v","crt_compute","(a * crt_term1 c + b * crt_term2 c)","(a * crt_term2 c + b * crt_term1 c)","the two residues are combined with each other's coefficients",["C34"]),
 ("PaillierModel.v","crt_new","let! qi := value (mod_inverse q p) in","let! qi := value (mod_inverse p q) in","wrong inverse in the CRT constructor",["C34"]),
 ("PaillierModel.v","two_k_ary_new","fill_cache 256 base base m","fill_cache 253 base base m","cache one entry short: exponent byte 255 reads out of bounds",["C35"]),
 ("PaillierModel.v","two_k_ary_step","Nat.iter 8 (square m) z","Nat.iter 7 (square m) z","seven squarings per byte",["C35"]),
 ("PaillierModel.v","fbe_exp","if e <? 0 then Err InvalidArgument else","if e <=? 0 then Err InvalidArgument else","exponent 0 refused",["C35"]),
 ("PaillierModel.v","pub_add","a * b mod pp_modulus p","a * b mod pp_n p","ciphertexts multiplied modulo n instead of n^2",["C32"]),
 ("PaillierModel.v","pub_encrypt","<=? m then lift (Err InvalidArgument)","<? m then lift (Err InvalidArgument)","message n^s accepted by the public key",["C32"]),
 ("PaillierModel.v","pub_rerand","ret (c * g mod pp_modulus p)","ret (c * g mod pp_n p)","re-randomisation modulo n",["C32"]),
 ("PaillierModel.v","priv_encrypt","if m <? 0 then lift (Err InvalidArgument)","if m <? -1 then lift (Err InvalidArgument)","message -1 accepted by the private key",["C32"]),
 ("PaillierModel.v","pc_decrypt","l * pc_other_inv pc mod","l * pc_lambda_inv pc mod","wrong inverse in the decryption modulo one prime",["C32"]),
 ("PaillierModel.v","inner_loop","(t1 - t2' *","(t1 + t2' *","sign error in the Damgard-Jurik decryption loop",["C32"]),
 ("PaillierModel.v","priv_new","let! d := crt_new (nth s (pc_powers pc) 0) (nth s (pc_powers qc) 0) in","let! d := crt_new (nth (s + 1) (pc_powers pc) 0) (nth (s + 1) (pc_powers qc) 0) in","plaintexts combined modulo n^(s+1)",["C32"]),
 ("PaillierModel.v","threshold_keygen","let sk2 := d - sk1 in","let sk2 := d + sk1 in","second key share has the wrong sign",["C33"]),
 ("PaillierModel.v","thr_partial","else if n * n <=? c then","else if n * n <? c then","partial decryption accepts n^2",["C33"]),
 ("PaillierModel.v","thr_decrypt","bn_div (partial * ours mod (n * n) - 1) n","bn_div (partial * ours mod (n * n) + 1) n","wrong L function",["C33"]),
 # commutative cipher
 ("CipherModel.v","check_private_key","(k <=? 0)","(k <? 0)","key 0 accepted",["C36"]),
 ("CipherModel.v","invert_private_scalar","(ord Gr - 2)","(ord Gr - 1)","wrong Fermat exponent",["C36"]),
 ("CipherModel.v","cipher_reencrypt_elgamal","ct_exp (mkCt u e) (cc_key c) in","mkCt u (gpow e (cc_key c)) in","only one half of the ElGamal ciphertext is exponentiated",["C36"]),
 ("CipherModel.v","ceg_decrypt","decrypt x (mkCt u e)","decrypt x (mkCt e u)","halves swapped on decryption",["C36"]),
 ("CipherModel.v","ceg_from_keys","if geqb y (gpow g x) then","if geqb g (gpow y x) then","key pair check compares the wrong way round",["C36"]),
 # wire
 ("WireModel.v","deser_paillier","| _ => Err InvalidArgument","| WElGamal c _ => let! x := deser_ct c in Ok (x, 0)\n  | _ => Err InvalidArgument","a node of the wrong kind is accepted",["C14"]),
 ("WireModel.v","deser_cand_plain","| _ => Err InvalidArgument","| WPaillier c _ => deser_ct c | _ => Err InvalidArgument","a candidate with payload is accepted as one without",["C14"]),
 ("WireModel.v","tree_serialize","(to_int32 (t_actual t)) (to_int32 (t_depth t))","(to_int32 (t_depth t)) (to_int32 (t_actual t))","depth and size swapped in the tree file",["C13"]),
 ("WireModel.v","deser_pnode_payload","(of_bytes (fst e), of_bytes (snd e))","(of_bytes (fst e), of_bytes (fst e))","payload read from the element field",["C13"]),
 ("WireModel.v","random_numeric_string","(if padding then 49 else 48)","48","padding elements look like set elements",["C15"]),
 ("WireModel.v","pad_node","(node_cap n - length (elems n))","(node_cap n - length (elems n) - 1)","nodes padded to one below their capacity",["C15","C07"]),
 ("WireModel.v","add_all","firstn cap xs","firstn (cap - 1) xs","last element of a full node lost when read",["C13"]),
 # sync
 ("SyncModel.v","send_update","(t', (ns <- mapM node_message nodes","(t, (ns <- mapM node_message nodes","sender does not store the inserted elements",["C06"]),
 ("SyncModel.v","enc_deletion","n + snd x","snd x + 1","negative payloads encoded wrongly",["C06"]),
 ("SyncModel.v","enc_elgamal","p <- encrypt pk (snd x)","p <- encrypt pk (fst x)","element encrypted in place of the payload",["C06"]),
 # addition
 ("AddModel.v","candidates_i","let minus_x := ct_invert (fst xp) in","let minus_x := fst xp in","difference replaced by sum",["C16"]),
 ("AddModel.v","candidates_ii","get_path (hash x) other","get_path (hash (x + 1)) other","party one looks up the wrong path",["C16"]),
 ("AddModel.v","answer_candidates","shuffle (theirs ++ concat mine)","shuffle theirs","party one's own candidates dropped",["C16","C17"]),
 ("AddModel.v","ca_mask","ret (ct_exp (fst c) k, tt)","ret (ct_mul (fst c) (fst c), tt)","differences not masked",["C24"]),
 ("AddModel.v","psi_mask","ct_mul (snd c) (ct_exp f beta)","ct_mul (fst c) (ct_exp f beta)","element part replaced by the difference",["C17"]),
 ("AddModel.v","psi_process","snd (cl_out c) ++ concat found","concat found","intersection of earlier days forgotten",["C17"]),
 ("AddModel.v","ca_process","(cl_out c + Z.of_nat","(Z.of_nat","cardinality of earlier days forgotten",["C16"]),
 ("AddModel.v","sum_message_iii","let hits := filter is_match cs in","let hits := cs in","all candidates counted as matches",["C18"]),
 ("AddModel.v","sum_process_iv","(snd (cl_out c) + v)","v","sum of earlier days forgotten",["C18"]),
 ("AddModel.v","ss_share","ret (n - share, [b1; b2])","ret (share, [b1; b2])","party zero keeps the wrong share",["C19"]),
 ("AddModel.v","ss_payload","(fst x, fst x)","(fst x, snd x)","shares of the value instead of the element",["C19"]),
 ("AddModel.v","sv_finish_day","(S (sv_day s))","(sv_day s)","server never finishes a day",["C24"]),
 ("AddModel.v","add_comm","(nth (sv_day s) (sv_comm s) 0 + size","(size","only the last message counted",["C24"]),
 ("AddModel.v","handle_no_payload","| _ => (s1, Err InvalidArgument)","| P0_III_ss _ => (s1, Ok None) | _ => (s1, Err InvalidArgument)","server accepts message III without being asked",["C24"]),
 ("AddModel.v","handle_sum","(sv_finish_day (add_comm (ssize res) s1), Ok (Some res))","(add_comm (ssize res) s1, Ok (Some res))","sum server does not finish the day after message IV",["C24","C18"]),
 ("AddModel.v","process_iii_ss","process_iii_ss dec r (shares ++ [v])","process_iii_ss dec r [v]","shares of earlier matches lost",["C19"]),
 # deletion
 ("DelModel.v","combine_item","let value := if snd e <? 0 then snd e + pp_n P else snd e in","let value := snd e in","negative payload used as exponent",["C20"]),
 ("DelModel.v","combine_item","(alpha - fst e)","(fst e - alpha)","mask subtracted the wrong way round",["C20"]),
 ("DelModel.v","gc_item","let block_zero := if sender_bit then b_neq else b_eq in","let block_zero := if sender_bit then b_eq else b_neq in","transfer messages swapped",["C20"]),
 ("DelModel.v","gc_item","pub_encrypt P (n - beta)","pub_encrypt P beta","receiver's share not corrected by the sender's",["C20","C21"]),
 ("DelModel.v","to_share","if n <? r * 2 then","if n <? r then","shares above n/2 not read as negative",["C21"]),
 ("DelModel.v","del_day","((dc_result c + (rs + other_rs) mod 2 ^ 64) mod 2 ^ 64)","((rs + other_rs) mod 2 ^ 64)","result of earlier days forgotten",["C20"]),
 ("DelModel.v","del_circuits","(t1 + s1) mod 2 ^ 64","(t1 + t1) mod 2 ^ 64","party one adds the wrong share",["C20"]),
 ("DelModel.v","del_handle","(S (ds_day s)) true, Ok","(ds_day s) true, Ok","server repeats the first day's data",["C25"]),
 ("DelModel.v","del_gen2","match del_receive V m (reset_gc p) with","match del_receive V m p with","values of the last day kept in the circuit inputs",["C20"]),
 # deletion psi
 ("PsiModel.v","apply_update","if set_mem (- num) (snd st) then set_erase (- num) (snd st)","if set_mem num (snd st) then set_erase num (snd st)","deletions do not remove the element",["C22"]),
 ("PsiModel.v","load_day","(filter is_deletion rows, filter (fun e => negb (is_deletion e)) rows)","(filter (fun e => negb (is_deletion e)) rows, filter is_deletion rows)","additions and deletions swapped",["C22"]),
 ("PsiModel.v","open_share","if 2 ^ 64 <=? d then d - 2 ^ 64 else d","d","carry of the shares not removed",["C22"]),
 ("PsiModel.v","ps_finish","if ps_first s then mkPS","if negb (ps_first s) then mkPS","second exchange of the day refused",["C26"]),
 ("PsiModel.v","second_phase","0 <? u","1 <? u","element 1 is not reported",["C22"]),
 # original
 ("OrigModel.v","og_sort_out","let hit := existsb","let hit := forallb","a match only counts if all candidates match",["C23"]),
 ("OrigModel.v","og_record","if k =? 0 then og_record r masks' (tl es) m else","if k =? 0 then og_record r masks' es m else","elements shifted against masks after a match",["C23"]),
 ("OrigModel.v","og_lookups","(inter ++ match og_find k m with Some v => [v] | None => [] end)","inter","earlier elements of party zero never found",["C23"]),
 ("OrigModel.v","og_candidates","ct_mul cx (ct_invert y)","ct_mul cx y","difference replaced by sum",["C23"]),
 ("OrigModel.v","og_handle","| Ok _ => (og_finish_day s2, Ok None)","| Ok _ => (s2, Ok None)","server never finishes a day",["C23","C27"]),
 ("OrigModel.v","og_message_iv","og_sort_out (og_today s) css (og_inter s) [] tp","og_sort_out (og_today s) css (og_inter s) (og_masks s) tp","masks of the last day not cleared",["C23"]),
 # csv
 ("CsvModel.v","escape_for_csv","if c =? quote then [quote; quote] else [c]","[c]","quotes not doubled",["C41"]),
 ("CsvModel.v","quoted_loop","quoted_loop f buf' (S (S line)) (S fin)","quoted_loop f buf' (S line) (S fin)","doubled quote read as the end of the field",["C41"]),
 ("CsvModel.v","stoll","(x <? 2 ^ 63)","(x <? 2 ^ 63 - 1)","largest value refused",["C41"]),
 ("CsvModel.v","dec_int","45 :: dec_nat (- x)","dec_nat (- x)","sign lost when writing",["C41"]),
 ("CsvModel.v","dataset_read","then Abort else Ok d","then Ok d else Ok d","files with missing values accepted",["C41"]),
 ("CsvModel.v","write_rows","newline :: r) \n      else","newline :: r) \n      else","(placeholder)",["C41"]),
 # data
 ("DataModel.v","add_values","if has p1 s then","if negb (has p1 s) then","expected sum counts the elements not shared",["C42"]),
 ("DataModel.v","generate_add_only","if total <? shared then lift Abort else","","impossible parameters not refused",["C42"]),
 ("DataModel.v","add_days","add_days d p0 p1 vs (i + n) n","add_days d p0 p1 vs i n","every day repeats the first",["C42"]),
 ("DataModel.v","delete_rows","(fst e, - snd e)","(fst e, snd e)","deletions written with the sign of additions",["C43"]),
 ("DataModel.v","sample","firstn k m ++ skipn (S k) m","m","sampled element stays in the map",["C43"]),
 ("DataModel.v","deletion_loop","insert_rows (daily - length dels)","insert_rows daily","days longer than asked for",["C43"]),
 ("DataModel.v","expected","match f with PSI => 1 | _ => v end","v","expected cardinality of PSI is a sum",["C43"]),
 # files
 ("FileModel.v","varint","n mod 128 + 128","n mod 128","continuation bit missing",["C44"]),
 ("FileModel.v","extract_loop","| O => sfail (Err InvalidArgument)","| O => sret acc'","over-long length accepted",["C44"]),
 ("FileModel.v","posix_read","else ((Reading [] bad, step w), Err Internal)","else ((Reading [] bad, step w), Ok rest)","truncated record accepted",["C44"]),
 ("FileModel.v","write_records_to_file","each (fun t => record_write (ser t)) l","each (fun t => posix_write (ser t)) l","records written without length",["C44"]),
 ("FileModel.v","read_protos_from_file","posix_close ;;; sret (map parse ds)","posix_close ;;; sret (map parse (rev ds))","records returned in reverse order",["C44"]),
 ("FileModel.v","posix_open","((Writing name, step (set_file w name (Some []))), Ok tt)","((Writing name, step w), Ok tt)","old content not truncated",["C44"]),
 # sharding
 ("RecordModel.v","take_min","if ltb (ekey y) (ekey x)","if ltb (ekey x) (ekey y)","merge takes the greatest key",["C45"]),
 ("RecordModel.v","insert","then y :: insert x r else x :: y :: r","then y :: insert x r else y :: x :: r","shards not sorted",["C45"]),
 ("RecordModel.v","string_ltb","(x <? y) ||","","keys compared by length only",["C45"]),
 ("RecordModel.v","multi_read","refill (eindex x) ;;; sret","sret","shard not refilled after a read: records out of order",["C45"]),
 ("RecordModel.v","write_cache_to_file","(sw_shards s ++ [sw_name s])","[sw_name s]","only the last shard is merged",["C45"]),
 ("RecordModel.v","start_threads","(n + threads - 1) / threads","n / threads","last records of a chunk not processed",["C46"]),
 ("RecordModel.v","start_threads","Nat.min ((j + 1) * per) n","((j + 1) * per)","threads run over the end of the chunk",["C46"]),
 ("RecordModel.v","write_results","| Err c => sfail (Err c)","| Err c => sret tt","errors of the transformer ignored",["C46"]),
 ("RecordModel.v","delete_shards","each (delete_file e) shards","each (fun _ => let _ := e in sret tt) shards","temporary files left behind",["C45","C46"]),
 ("RecordModel.v","chunk_loop","chunk_loop n out (snd c)","sret tt","only the first chunk processed",["C46"]),
]
M = [m for m in M if m[4] != "(placeholder)"]
