M=[
("AddModel.v","ca_mask","k <- @create_random_mask Gr ;; ret (ct_exp (fst c) k, tt)","ret (ct_exp (fst c) 3, tt)","the mask of a cardinality candidate is constant",["C63"]),
("AddModel.v","psi_mask","ret (f, ct_mul (snd c) (ct_exp f beta))","ret (f, ct_mul (snd c) (ct_exp f alpha))","the payload is masked with the same exponent twice",["C63"]),
("AddModel.v","psi_mask","ret (f, ct_mul (snd c) (ct_exp f beta))","ret (f, snd c)","the payload of non-matches is not masked",["C63"]),
("AddModel.v","sum_mask","ret (ct_exp (fst c) k, snd c)","ret (fst c, snd c)","the sum candidate is not masked",["C63"]),
("AddModel.v","ss_share","share <- rand_less_than n","share <- rand_less_than (n - 1)","one share value never drawn",["C63"]),
("AddModel.v","ss_share","ret (n - share, [b1; b2])","ret (share, [b1; b2])","party zero keeps the share instead of its complement",["C63"]),
("DelModel.v","combine_item","pub_encrypt P (alpha - fst e)","pub_encrypt P (fst e)","the element is sent without a mask",["C63"]),
("DelModel.v","combine_item","alpha <- rand_less_than (pp_n P)","alpha <- rand_less_than (pp_n P / 2)","mask from half of the range",["C63"]),
("DelModel.v","gc_item","beta <- rand_less_than n","beta <- rand_less_than 2","the product mask is a bit",["C63"]),
("OrigModel.v","og_candidates","beta <- @create_random_mask Gr","beta <- rand_less_than (ord Gr)","a zero blinding factor is possible",["C63"]),
("OrigModel.v","oc_candidates","ret (ct_exp (ct_mul beta minus_alpha) gamma)","ret (ct_mul beta minus_alpha)","candidates are returned unmasked",["C63"]),
("ElGamalModel.v","gen_private_key","rand_between 1 (ord Gr)","rand_between 1 (ord Gr - 1)","one mask value never drawn",["C63"]),
]
