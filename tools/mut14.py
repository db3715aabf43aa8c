N='GcModel.v'
A=['C73']
M=[
 (N,'circuit','xorb (bits_eqb (fst (fst p)) (snd (fst p))) (snd p)','bits_eqb (fst (fst p)) (snd (fst p))','the comparison is masked by the bit of party one',A),
 (N,'circuit','xorb (bits_eqb (fst (fst p)) (snd (fst p))) (snd p)','xorb (negb (bits_eqb (fst (fst p)) (snd (fst p)))) (snd p)','the comparison tests equality',A),
 (N,'transfer','snd (fst p) else fst (fst p)','fst (fst p) else snd (fst p)','the choice bit selects the block',A),
 (N,'split_by','firstn n l :: split_by r (skipn n l)','firstn n l :: split_by r (skipn (S n) l)','the counter p goes up by one for each position',A),
 (N,'split_by','firstn n l :: split_by r (skipn n l)','firstn n l :: split_by r l','the counter p is not reset for a group',A),
 (N,'rand_bit','r =? 1','r =? 0','which bit rand() gives (no effect expected)',A),
 (N,'gc_send','pub_encrypt P (pp_n P - beta)','pub_encrypt P beta','the mask is subtracted',A),
 (N,'gc_send','bignum2block (pub_add P z encrypted_beta) k','bignum2block encrypted_beta k','equal values keep the product',A),
 (N,'gc_send','lift (bignum2block encrypted_beta k)','lift (bignum2block z k)','different values hide the product',A),
 (N,'gc_send','(if my_bit then if_neq else if_eq) ++ zero','(if my_bit then if_eq else if_neq) ++ zero','the first array holds the block for equal values when the bit is 0',A),
 (N,'gc_send','(if my_bit then if_eq else if_neq) ++ one','if_neq ++ one','the second array is chosen by the bit',A),
 (N,'gc_send','beta :: betas, (if my_bit','betas, (if my_bit','every mask is kept',A),
 (N,'choice','repeat b k','[b]','one choice bit for each block of a position',A),
 (N,'choice','repeat b k','repeat (negb b) k','the choice bit is the own bit',A),
 (N,'gc_open','firstn k (skipn (k * i) blocks)','firstn k (skipn i blocks)','position i starts at block cnt_block * i',A),
 (N,'gc_open','firstn k (skipn (k * i) blocks)','firstn 1 (skipn (k * i) blocks)','a ciphertext takes all its blocks',A),
 (N,'gc_open','seq 0 cnt','seq 1 cnt','the first position is decrypted',A),
 (N,'gc_flat','map negb alice_bits','alice_bits','the circuit gets the negated bit',A),
 (N,'gc_flat','circuit sent received tmp else circuit received sent tmp','circuit sent received tmp else circuit sent received tmp','which party feeds which value (equality is symmetric)',A),
 (N,'gc_flat','let sender_bits := if sender_is_alice then alice_bits else bob_bits','let sender_bits := if sender_is_alice then bob_bits else alice_bits','the sender uses its own bits',A),
 (N,'gc_flat','let receiver_bits := if sender_is_alice then bob_bits else alice_bits','let receiver_bits := alice_bits','the receiver uses its own bits',A),
 (N,'gc_flat','(if sender_is_alice then at_one else at_zero) (gc_send','(if sender_is_alice then at_zero else at_one) (gc_send','the sender draws its masks with its own generator',A),
 (N,'gc_flat','combine sender_bits zs','combine sender_bits ys','the sender adds its masks to the products',A),
 (N,'gc_flat','(length ys) (transfer','(pred (length ys)) (transfer','all positions are decrypted',A),
 (N,'gc_flat','transfer zero one','transfer one zero','the arrays are sent in order',A),
 (N,'sum_mod','fold_left Z.add l 0 mod n','fold_left Z.add l 0','the sum is reduced modulo n',A),
 (N,'sum_mod','fold_left Z.add l 0 mod n','fold_left Z.add l 1 mod n','the sum starts at zero',A),
 (N,'gc_total','sum_mod (pp_n P) betas, sum_mod (pp_n P) ts','sum_mod (pp_n P) ts, sum_mod (pp_n P) betas','sender and receiver shares',A),
 (N,'del_circuits_run','gc_total P1 V1 false (pt_x c)','gc_total P0 V0 false (pt_x c)','party zero sends under party one\'s key',A),
 (N,'del_circuits_run','gc_total P1 V1 false','gc_total P1 V1 true','party zero is not ALICE',A),
 (N,'del_circuits_run','(pt_y s) ;;','(pt_y c) ;;','the responder side uses its own values',A),
 (N,'del_circuits_run','to_share (pp_n P1) (snd r0)','to_share (pp_n P0) (snd r0)','the share of the first call is read modulo party one\'s n',A),
 (N,'del_circuits_run','(t1 + s1) mod 2 ^ 64','(t1 + t0) mod 2 ^ 64','party one adds its two shares',A),
 (N,'gc_totals','split_by (map (@length Z) xs) betas','split_by (map (@length Z) zs) (tl betas)','the masks are split from the first',A),
 (N,'gc_totals','split_by (map (@length Z) ys) ts','[ts]','the receiver adds up group by group',A),
 (N,'gc_totals','(concat xs) (concat zs) (concat ys)','(concat xs) (concat zs) (concat (rev ys))','the groups are in order',A),
 (N,'psi_circuits_run','(s0 ++ t0, t1 ++ s1','(t0 ++ s0, t1 ++ s1','both parties put the answers of the calls in the same order',A),
 (N,'psi_circuits_run','(s0 ++ t0, t1 ++ s1','(s0, t1','the answers of both calls are kept',A),
 (N,'psi_circuits_run','to_share (pp_n P0)) p0','to_share (pp_n P1)) p0','shares of the second call are read modulo party zero\'s n',A),
 (N,'second_phase_run','priv_encrypt V0) rs0','priv_encrypt V0) rs1','party zero encrypts its own answers',A),
 (N,'second_phase_run','pub_encrypt P0 (snd p)','pub_encrypt P0 (fst p)','party one adds its own answers',A),
 (N,'second_phase_run','pub_add P0 (fst p) encrypted_y','encrypted_y','party one adds to the received ciphertext',A),
 (N,'second_phase_run','omap (open_share V0) sh','omap (open_share V0) (tl sh)','party zero opens all values',A),
 (N,'second_phase_run','0 <? u','1 <? u','every nonzero value counts',A),
 (N,'second_phase_run','shuffle msgs','ret msgs','party one shuffles (no effect on the result expected)',A),
 (N,'dc_run_own','del_gen1 (Gr := Gr) hash P1 V0 es (reset_gc (dc_party c))','del_gen1 (Gr := Gr) hash P1 V0 es (dc_party c)','the values of the previous day are dropped',A),
 (N,'dc_run_own','at_one (send','at_zero (send','party one draws its own coins (no effect expected)',A),
 (N,'del_day_own','ds_reset (snd (fst st))','(snd (fst st))','party one drops the values of the previous day',A),
 (N,'del_day_own','dc_result c + (rs + other_rs)','dc_result c + rs','both answers are added',A),
 (N,'psi_run_own','exchange_own adds (c2, s2)','exchange_own dels (c2, s2)','deletions first, then additions',A),
 (N,'psi_run_own','S (pc_day c3)','pc_day c3','the day is finished',A),
 (N,'psi_day_own','second_phase_run P0 V0 rs0 rs1','second_phase_run P0 V0 rs0 rs0','party one\'s answers are used',A),
 (N,'psi_day_own','psi_run_own (c, ps_reset s)','psi_run_own (c, s)','party one resets its groups every day',A),
]
