P="ProtoModel.v"; Q="ProtoCodec.v"
M=[
(P,"write_field","varint 4 (fst f * 8 + 2)","varint 4 (fst f * 8 + 1)","a bytes field is tagged as a 64-bit number",["C70"]),
(P,"write_field","varint 4 (Z.of_nat (length b)) ++ b","varint 0 (Z.of_nat (length b)) ++ b","a length beyond 127 is written in one byte",["C70"]),
(P,"write_field","varint 9 v","varint 4 v","a negative integer loses its upper bytes",["C70"]),
(P,"read_varint","b - 128 + 128 * v","b + 128 * v","the continuation bit is not removed",["C70"]),
(P,"read_varint","if b <? 128","if b <=? 128","the byte 128 ends a varint",["C70"]),
(P,"take","(n <=? length bs)%nat","(n <? length bs)%nat","a field at the end is rejected",["C70"]),
(P,"read_token","read_varint 10 r","read_varint 5 r","integers of more than five bytes are rejected",["C70"]),
(P,"read_token","let n := tag / 8 in","let n := tag / 4 in","the field number is shifted by two bits",["C70"]),
(P,"read_token","if max_length <? size","if 127 <? size","fields of more than 127 bytes are rejected",["C70"]),
(P,"read_token","v mod 2 ^ 64","v mod 2 ^ 31","the sign of an integer is lost",["C70"]),
(P,"feed","m_put M n w t with Skip => feed M [] r t | Put t' => feed M [] r t' | Bad => None end","m_put M n w t with Skip => None | Put t' => feed M [] r t' | Bad => None end","an unknown field is an error",["C70"]),
(P,"feed","Skip => feed M [] r t | Put t' => feed M [] r t'","Skip => feed M [] r t | Put t' => Some t'","the parser stops at the first field",["C70"]),
(P,"merge","tokens (length bs) bs","tokens (pred (length bs)) bs","the last token is not read",["C70"]),
(P,"opt_bytes","Len b => Put (Some b)","Len b => Put (match t with None => Some b | s => s end)","the first value of a field counts",["C70"]),
(P,"int32_of","(v + 2 ^ 31) mod 2 ^ 32 - 2 ^ 31","v mod 2 ^ 32","negative integers are read as large ones",["C70"]),
(P,"opt_int32","i mod 2 ^ 64","Z.abs i","the sign is not written",["C70"]),
(P,"rep_bytes","Put (t ++ [b])","Put (b :: t)","repeated bytes come back reversed",["C70"]),
(P,"rep_bytes","Put (t ++ [b])","Put [b]","only the last repeated value is kept",["C70"]),
(P,"rep_msg","Put (t ++ [a])","Put (a :: t)","repeated messages come back reversed",["C70"]),
(P,"opt_msg","Some a => Put (Some a) | None => Bad","Some a => Put None | None => Bad","a nested message is dropped",["C70"]),
(P,"both","m_fields M (fst t) ++ m_fields N (snd t)","m_fields N (snd t) ++ m_fields M (fst t)","fields are written in the opposite order",["C70"]),
(P,"both","Put b => Put (fst t, b)","Put b => Put (m_empty M, b)","a later field clears the earlier ones",["C70"]),
(P,"orelse","Put y => Put (inr y)","Put y => Skip","later alternatives of a oneof are dropped",["C70"]),
(P,"ElGamalPublicKey","(both (opt_bytes 2) (opt_bytes 3))","(both (opt_bytes 3) (opt_bytes 2))","g and y change their numbers",["C70"]),
(P,"ElGamalCiphertext","both (opt_bytes 1) (opt_bytes 2)","both (opt_bytes 1) (opt_bytes 1)","u and e have the same number",["C70"]),
(P,"PaillierPublicKey","(opt_int32 2)","(opt_int32 3)","s has another number",["C70"]),
(P,"EncryptedElement","(alt 4 DeletionElement) (alt 5 OnlyPaillier)","(alt 5 DeletionElement) (alt 4 OnlyPaillier)","two alternatives exchange numbers",["C70"]),
(P,"EncryptedElement","(alt 4 DeletionElement) (alt 5 OnlyPaillier)","(alt 4 DeletionElement) (alt 4 OnlyPaillier)","two alternatives have the same number",["C70"]),
(P,"TreeNode","rep_msg 2 EncryptedElement","rep_msg 1 EncryptedElement","a tree node is written as a set",["C70"]),
(P,"tree_sizes","both (opt_int32 2) (both (opt_int32 3)","both (opt_int32 3) (both (opt_int32 2)","stash size and node size exchange numbers",["C70"]),
(P,"PartyZeroMessage","(alt 2 MessageIII_SUM) (alt 3 MessageIII_SS)","(alt 3 MessageIII_SUM) (alt 2 MessageIII_SS)","the third messages exchange numbers",["C70"]),
(P,"ServerMessage","(alt 1 PartyOneMessage) (alt 2 OriginalMessage)","(alt 2 PartyOneMessage) (alt 1 OriginalMessage)","the two kinds exchange numbers",["C70"]),
(P,"from_string","None => junk bs","None => m_empty M","a rejected record reads as an empty message",["C70"]),
(Q,"to_thr","(Some (fst m), Some (snd m))","(Some (snd m), Some (fst m))","n and share are swapped",["C70"]),
(Q,"of_psec","(get (fst m), get (fst (snd m)),","(get (fst (snd m)), get (fst m),","p and q are swapped on reading",["C70"]),
(Q,"to_pelem","match snd x with [] => None | p => Some p end","None","the payload is not written",["C70"]),
(Q,"to_pnode","Some (snd n)","None","the node size is not written",["C70"]),
(Q,"of_tree","mkFile (geti s) (geti n) (geti a) (geti d)","mkFile (geti n) (geti s) (geti a) (geti d)","stash size and node size are swapped on reading",["C70"]),
(Q,"of_tree","(map of nodes)","(rev (map of nodes))","the nodes are read backwards",["C70"]),
(Q,"to_pub","(None, (Some (enc (fst m)), Some (enc (snd m))))","(Some (enc (fst m)), (Some (enc (snd m)), None))","g and y are written as p and g",["C70"]),
(Q,"to_welem","WElGamal c p => Some (inr (inr (inl (Some (to_ct c), Some (to_ct p)))))","WElGamal c p => Some (inr (inr (inl (Some (to_ct c), Some (to_ct c)))))","the element is written as the payload",["C70"]),
(Q,"to_welem","WDeletion e p => Some (inr (inr (inr (inl (Some e, Some p)))))","WDeletion e p => Some (inr (inr (inr (inl (Some e, None)))))","the payload of a deletion element is not written",["C70"]),
(Q,"to_welem","WOnlyPaillier e => Some (inr (inr (inr (inr (Some e)))))","WOnlyPaillier e => Some (inr (inr (inr (inl (Some e, None)))))","a Paillier element is written as a deletion element",["C70"]),
(Q,"of_kv","dec (get (snd x))","dec (get (fst x))","the element is read as the output",["C70"]),
]
