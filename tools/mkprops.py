#!/usr/bin/env python3
# Generates /verif/properties.jsonl (one JSON object per line).
import json, os
P=[]
def p(id,title,statement,quantifier,why,anchors):
    P.append(dict(id=id,title=title,statement=statement,quantifier=quantifier,why_tests_cant=why,anchors=anchors))

T='upsi/crypto_tree.cc'; N='upsi/crypto_node.cc'
p('C01','Inserting never loses or duplicates an element unless the stash overflows',
 'Starting from an empty tree, after any sequence of insert() batches in which no batch overflows the stash, the multiset of elements stored over all nodes (stash included) is exactly the multiset of all elements ever inserted, and the stored-element counter equals its size.',
 'every node size, stash size, hash function, sequence of batches (any sizes, duplicates allowed) and every outcome of the random eviction paths',
 'The eviction path is random and each insertion moves arbitrary existing elements; a test samples a few paths out of 2^256 per insertion and cannot cover all histories.',
 [T+':BaseTree::insert',N+':CryptoNode::addElement',N+':CryptoNode::copyElementsTo'])
p('C02','A lookup path contains every stored copy of the looked-up element',
 'After any history of insertions, getPath(x) returns every stored copy of x with its payload (exactly as many as the tree stores) -- also right after the tree has grown by any number of layers.',
 'every element, every insertion history, every random path choice, every hash function, any number of growth steps',
 'Requires a placement invariant (each element sits on the path of its own hash) that must survive every eviction and every growth; tests observe only the elements they happen to look up.',
 [T+':BaseTree::getPath',T+':BaseTree::insert',T+':BaseTree::computeIndex'])
p('C03','Node capacities are never exceeded',
 'After any history of insertions (with or without deletions), no tree node holds more than node_size elements and the stash never holds more than stash_size, so every node sent to the peer can be padded to a fixed public size.',
 'every history, random path, node size and stash size',
 'A capacity violation may need a particular sequence of hash collisions to show up.',
 [T+':BaseTree::insert',T+':CryptoTree<ElementAndPayload>::InsertWithDeletions',N+':CryptoNode::addElement'])
p('C04','Tree growth follows the element count and never shrinks',
 'After an update with k elements the tree has depth d where the array has exactly 2^(d+1) nodes, the new total number of inserted elements is strictly below 2^(d+1), the depth never decreases, and it is the least such depth not below the old one; while the total stays below 2^30 every index computed stays below 2^31 (no int overflow).',
 'every starting size and batch size (unbounded), sender and receiver alike',
 'Boundary conditions at every power of two and multi-layer growth in one batch; only finitely many sizes can be tested.',
 [T+':BaseTree::addNewLayer',T+':BaseTree::insert',T+':BaseTree::replaceNodes'])
p('C05','Stash overflow: detected with asserts enabled, silent element loss in the shipped -c opt build',
 'With asserts enabled an insertion aborts if and only if some element cannot be placed; with asserts compiled out (the repository builds with -c opt) the insertion still returns normally and exactly the unplaced elements are gone. For every node size, stash size and hash function there are distinct elements and random paths for which a release-build insertion loses an element.',
 'every node size, stash size, hash function; existential over batches and random paths',
 'The event has small probability per run, so random testing does not exhibit it; its impossibility is nevertheless false.',
 [T+':BaseTree::insert','.bazelrc'])
p('C06','The encrypted replica mirrors the sender tree after every update',
 'If both parties start from fresh trees and the receiver applies every update message of the sender in order, then after every update the receiver tree has the same depth, size counter and number of nodes, and each receiver node decrypts to the sender node followed only by padding up to the node capacity (or both are empty and were never touched).',
 'every sequence of batches, every random hash sent, every encryption randomness and every padding',
 'Sender and receiver compute the list of touched node indices independently; agreement must hold for all hash collisions and all growth steps.',
 [T+':BaseTree::replaceNodes',T+':CryptoTree::Update',T+':BaseTree::generateRandomPaths'])
p('C07','Update messages reveal only the batch size and random paths',
 'The number of nodes in an update message, their order and the number of ciphertexts in each node are a function of the public parameters (node size, stash size), the previous depth and size counter and the random hashes alone: two senders with different elements but the same counts and hashes send messages of identical shape.',
 'every pair of same-size batches, trees with equal public state, hash sequences',
 'A non-interference statement over pairs of executions; unit tests look at single executions.',
 [T+':CryptoTree::Update',N+':CryptoNode::pad',T+':BaseTree::extractPathIndices'])
p('C08','Path index extraction yields exactly the ancestors, once each, in decreasing order',
 'For any non-empty collection of leaf indices on the same level (duplicates and any order allowed) the extracted index list is strictly decreasing, contains an index iff it is an ancestor-or-self of some leaf or the stash (0), and for the empty collection it is empty.',
 'every tree depth and every list of leaves of that depth',
 'The algorithm relies on a subtle queue argument (parents generated in non-increasing order); exhaustive tests only cover tiny depths.',
 [T+':BaseTree::extractPathIndices',T+':BaseTree::generateRandomPaths'])
p('C09','Leaf index of an element is stable under growth and independent of the payload',
 'For every element the computed leaf at depth d lies in [2^d, 2^(d+1)), the leaf at depth d+1 is a child of the leaf at depth d, it is determined by the first d bits of the hash, and an element with any payload has the same leaf as the bare element.',
 'every hash value, depth (up to 256) and payload',
 'Quantifies over all 2^256 hash values and all depths.',
 [T+':BaseTree::computeIndex','upsi/utils.cc:computeBinaryHash','upsi/utils.cc:Byte2Binary'])
p('C10','A lookup always returns a full path',
 'getPath visits the leaf, each of its ancestors and finally the stash exactly once -- d+2 nodes at depth d -- and on a replica in which those nodes have been written by updates it returns exactly (d+1)*node_size + stash_size ciphertexts.',
 'every depth, element and tree content',
 'Needs an argument for every depth and leaf.',
 [T+':BaseTree::getPath'])
p('C11','Signed updates accumulate: the tree represents the net payload of every element',
 'After any history of InsertWithDeletions batches without stash overflow, for every element x the sum of the payloads stored with x anywhere in the tree equals the sum of all payloads ever inserted with x, and all of them are found on getPath(x).',
 'every sequence of (element, signed payload) batches, all random paths',
 'Copies of one element can be split over several nodes and merged later in any order.',
 [T+':CryptoTree<ElementAndPayload>::InsertWithDeletions'])
p('C12','Cancelled entries disappear from the touched path',
 'After inserting one element with InsertWithDeletions, no entry on the touched path has payload zero and no element occurs twice on the touched path; so an insertion followed by a deletion along the same path leaves no trace of the element there.',
 'every tree content and random path',
 'Depends on the sort-and-merge step being right for all multiset contents.',
 [T+':CryptoTree<ElementAndPayload>::InsertWithDeletions'])
p('C13','Tree files round-trip',
 'Serializing a plaintext or encrypted tree and deserializing it gives a tree with the same parameters, depth, counter and the same elements in the same nodes in the same order, provided every value is non-negative and every curve point is finite; subsequent lookups agree.',
 'every tree reachable by any history',
 'Byte-level encodings of unbounded integers and arbitrarily shaped trees.',
 [T+':BaseTree::Serialize',T+':BaseTree::Deserialize',N+':SerializeNode',N+':DeserializeNode'])
p('C14','Wrong payload kinds are rejected when reading nodes and candidate lists',
 'Reading a node or candidate list as kind K succeeds only if every element carries the encoding of kind K (for plain ElGamal nodes: one of the three ElGamal kinds) with finite curve points; otherwise an InvalidArgument status is returned, and on success exactly the encoded elements are returned in order.',
 'every message (any mixture of element kinds, any length)',
 'Adversarial messages are unbounded in number.',
 [N+':DeserializeNode','upsi/utils.cc:DeserializeCiphertexts','upsi/util/elgamal_proto_util.cc:DeserializeCiphertext'])
p('C15','Padding never collides with generated set elements and always fills the node',
 'pad() brings every node to exactly its capacity, keeps the real elements first and unchanged, and every padding element lies in [10^15, 2*10^15) with payload 0, so it never equals an element produced by the data generator (which are below 10^15).',
 'every node content and every outcome of the random generator',
 'Pads are random; a collision would be seen by a test with probability about 10^-15.',
 [N+':CryptoNode::pad','upsi/utils.cc:GetRandomPadElement','upsi/utils.cc:GetRandomSetElement','upsi/utils.cc:NumericString2uint'])
p('C16','Addition-only cardinality is right after every day',
 'When both parties run the cardinality protocol for any number of days from empty trees, with each party never adding an element twice, no stash overflow and all elements below the padding range, every day either aborts with an error or ends with the reported cardinality equal to the size of the intersection of all elements added so far by the two parties.',
 'every number of days, every pair of daily batches, all random coins of both parties (paths, pads, encryption randomness, shuffles, masks, keys)',
 'End-to-end multi-day statement over all coins and inputs; sampled runs exercise one coin sequence each.',
 ['upsi/addition/party_zero.cc:PartyZeroCardinality','upsi/addition/party_one.cc:PartyOneCardinality'])
p('C17','Addition-only PSI outputs exactly the intersection',
 'Under the same conditions, PartyZero (PSI) ends each day with a list that is a permutation of the decimal strings of the elements in the intersection so far.',
 'every number of days, batches and coins',
 'As C16; additionally the element is recovered from a masked group element through a map.',
 ['upsi/addition/party_zero.cc:PartyZeroPSI','upsi/addition/party_one.cc:PartyOnePSI'])
p('C18','Addition-only SUM outputs the intersection cardinality and sum of values',
 'Under the same conditions each day either returns an error or adds to the reported sum exactly the values of the elements that joined the intersection that day; it returns an error whenever the sum joined in one day reaches MAX_SUM (50000).',
 'every number of days, batches, values and coins',
 'As C16, plus the bounded discrete-log table boundary.',
 ['upsi/addition/party_zero.cc:PartyZeroSum','upsi/addition/party_one.cc:PartyOneSum','upsi/crypto/elgamal.cc:ElGamalDecrypter::DecryptExp'])
p('C19','Secret-share output reconstructs the intersection',
 'Under the same conditions the two parties end up with equally long share lists whose entry-wise sums modulo the Paillier modulus are the elements of the intersection, each exactly once.',
 'every number of days, batches and coins, including a zero mask share',
 'As C16, plus threshold Paillier arithmetic for every modulus and share.',
 ['upsi/addition/party_zero.cc:PartyZeroSecretShare::SendMessageIII','upsi/addition/party_one.cc:PartyOneSecretShare'])
p('C20','With deletions, the reported result is the inner product of the two payload maps',
 'For the addition-and-deletion protocol, after every day the reported result equals, modulo 2^64, the sum over elements of the product of the two net payloads (cardinality: net membership; sum: values), whenever every additive share stays away from the half-modulus boundary; and it can be wrong when a random share falls inside that boundary.',
 'every number of days, signed batches, coins and garbled-circuit masks',
 'The half-modulus failure has negligible probability per run; correctness quantifies over all histories.',
 ['upsi/deletion/party.h:Party','upsi/deletion/party_zero.cc','upsi/deletion/party_one.cc'])
p('C21','Equality-test and conditional transfer give additive shares of the right product',
 'For every pair of (masked element, payload) inputs the garbled-circuit equality bits and the oblivious transfer give the two parties values that sum modulo n to payload product if the elements are equal and to 0 otherwise, whatever the random bit and mask chosen by the garbler.',
 'all element values, payloads, masks and bits',
 'Requires case analysis over all bit/mask choices and all values modulo n.',
 ['upsi/deletion/party.h:GarbledCircuit','upsi/deletion/party.h:CombinePathResponder'])
p('C22','Deletion-PSI keeps the exact intersection set across days',
 'If on each day the deletions are processed before the additions and no element is both deleted and re-added by the same round, the set kept by PartyZero equals the intersection of the current sets after every day; element 0 is never reported; and the run does not crash, except when party zero opens a value of exactly 2^63.',
 'every history of daily deletion and addition batches',
 'Multi-day signed histories with cancellations.',
 ['upsi/deletion-psi/party_zero.cc','upsi/deletion-psi/party_one.cc','upsi/deletion-psi/party.h'])
p('C23','Original construction: PartyZero ends each day with exactly the intersection',
 'In the original (OPRF plus tree) construction the intersection kept by PartyZero (the server) after each day is exactly the set of elements both parties have added so far, each once; an element can only be missing if the tree of PartyOne overflowed its stash, and nothing extra is ever present. Needs the hash to the curve not to collide on two different elements of the two parties.',
 'every number of days, every pair of daily batches without repeats, all coins, keys and tree parameters',
 'Multi-day statement over all histories and masks.',
 ['upsi/original/party_zero.cc','upsi/original/party_one.cc'])
p('C24','A finished server refuses all further messages without changing state',
 'Once the configured number of days has been completed, every further request to an addition-only server returns InvalidArgument, sends nothing and changes neither trees, output, day counter nor communication counters.',
 'every server state with all days finished and every message',
 'All possible messages after all possible histories.',
 ['upsi/addition/party_one.cc:Handle','upsi/roles.h:ProtocolRole'])
p('C25','Requests of the wrong kind are rejected before any protocol state changes',
 'A request whose outer or inner kind does not belong to the protocol returns InvalidArgument and leaves trees, day counter and output unchanged (only the communication counter may grow).',
 'every state and every message',
 'All message kinds in all states.',
 ['upsi/addition/party_one.cc:Handle','upsi/deletion/party_one.cc:Handle','upsi/deletion-psi/party_one.cc:Handle','upsi/original/party_zero.cc:Handle'])
p('C26','The day counter advances exactly once per completed exchange and never beyond the total',
 'For any sequence of requests the server day counter is monotone, grows by at most one per request, never exceeds the total, and the dataset used for a reply is the one of the current day.',
 'every sequence of messages',
 'Unbounded message sequences.',
 ['upsi/roles.h:ProtocolRole','upsi/addition/party_one.cc:Handle'])
p('C27','Message order is not enforced by the payload servers',
 'The SUM and SS servers accept a third message before the first one (finishing a day without inserting its data) and accept the first message twice in one day (inserting the data of that day twice).',
 'every server state before the end of the protocol',
 'A negative statement about a missing check; tests follow the honest order.',
 ['upsi/addition/party_one.cc:PartyOneSum::Handle','upsi/addition/party_one.cc:PartyOneSecretShare::Handle'])
p('C28','ElGamal: decryption inverts encryption and the ciphertext operations are homomorphic',
 'For every key pair and randomness: Decrypt(Encrypt(P)) = P; Mul decrypts to the product, Exp to the power, Invert to the inverse, ReRandomize and clone leave the plaintext unchanged; encryption of zero decrypts to the identity.',
 'all group elements, scalars and randomness in any prime order group',
 'All keys, messages and randomness.',
 ['upsi/crypto/elgamal.cc'])
p('C29','Joint ElGamal: partial decryption by all key holders recovers the plaintext',
 'For a public key combined from any non-empty list of key shares, applying the partial decryption of all but one share (in any order) and the full decryption of the last one returns the plaintext; a zero difference masked by any non-zero exponent decrypts to the identity and a non-zero one never does.',
 'any number of shares, any order, all masks',
 'All share lists and permutations.',
 ['upsi/crypto/elgamal.cc:GeneratePublicKeyFromShares','upsi/crypto/elgamal.cc:ElGamalDecrypter::PartialDecrypt'])
p('C30','Exponential ElGamal decryption returns the exact exponent below the bound and an error at or above it',
 'After InitDecryptExp(max), DecryptExp(Encrypt(g^m)) returns m for every 0 <= m < max and returns InvalidArgument for every m in [max, q).',
 'all keys, randomness, max <= q and m',
 'Boundary at every max.',
 ['upsi/crypto/elgamal.cc:InitDecryptExp','upsi/crypto/elgamal.cc:DecryptExp'])
p('C31','exponentiate() does not compute g^m',
 'The helper documented as "for a group with generator g, gives g^m" returns the point at infinity for every m, so it equals g^m only when the group order divides m.',
 'every group and exponent',
 'No test calls it; the statement is for all m.',
 ['upsi/utils.cc:exponentiate','upsi/utils.h:exponentiate'])
p('C32','Paillier/Damgard-Jurik: decryption inverts encryption and addition/multiplication are homomorphic',
 'For distinct safe primes p,q and every exponent s >= 1 the constructors accept: every ciphertext produced by the public or private encrypter decrypts to the message; Add decrypts to the sum mod n^s, Multiply to the product mod n^s, LeftShift likewise, ReRand to the same message, through any sequence of such calls; messages outside [0, n^s) and ciphertexts outside [0, n^(s+1)) are refused; the randomness EncryptAndGetRand reports reproduces the ciphertext; generated keys never use the same prime twice and bad parameters are refused; an s that reaches a prime terminates the constructor.',
 'all key pairs, messages and randomness',
 'All primes and messages.',
 ['upsi/crypto/paillier.cc'])
p('C33','Threshold Paillier: the two shares jointly decrypt, and out-of-range inputs are refused',
 'For keys produced from distinct primes p,q as the generator does, combining one partial decryption with the other party\'s decryption returns the message (mod n) for every ciphertext formed by encryption, addition and re-randomisation; values outside the ciphertext range are refused with InvalidArgument.',
 'all key pairs and sharings, messages, randomness',
 'All primes, all splits of the secret exponent.',
 ['upsi/crypto/threshold_paillier.cc'])
p('C34','Two-modulus CRT returns the unique solution',
 'For coprime positive moduli, Compute(a,b) is the unique number in [0, p*q) congruent to a mod p and b mod q.',
 'all coprime moduli and residues',
 'All moduli.',
 ['upsi/crypto/two_modulus_crt.cc'])
p('C35','Fixed-base exponentiation equals modular exponentiation',
 'Both strategies of FixedBaseExp (plain and byte-wise 2^8-ary with a precomputed table) return base^exp mod modulus for every non-negative exponent and refuse negative ones; the byte-wise one never reads outside its table.',
 'all odd moduli, bases and exponents of any length',
 'All exponents.',
 ['upsi/crypto/fixed_base_exp.cc'])
p('C36','Commutative cipher: encryption commutes and decryption inverts it',
 'For all private keys in [1, order) and all points, encrypting under two keys in either order gives the same point, decrypting with one of them removes exactly that layer, and keys outside the range are refused. Such layers can be put on an ElGamal ciphertext in either order and survive its decryption; commutative ElGamal objects rebuilt from the key bytes of another are that object.',
 'all keys, points',
 'All keys and points.',
 ['upsi/crypto/ec_commutative_cipher.cc','upsi/crypto/commutative_elgamal.cc'])
p('C37','Big-endian byte encoding of numbers round-trips and is canonical',
 'CreateBigNum(x.ToBytes()) = x for every non-negative x; ToBytes has no leading zero byte and zero encodes as the empty string, so equal numbers have equal encodings (hence equal hashes) and different numbers different encodings; CreateBigNum ignores leading zero bytes.',
 'all non-negative integers / all byte strings',
 'Unbounded integers.',
 ['upsi/crypto/big_num.cc:BigNum::ToBytes','upsi/crypto/context.cc:CreateBigNum'])
p('C38','Fixed-width block encoding for oblivious transfer round-trips',
 'A value below 2^(128*k) survives the padding to k blocks and back; the ciphertext width chosen from the modulus always suffices for every Paillier ciphertext.',
 'all values and moduli',
 'Values with leading zero bytes are rare in random tests.',
 ['upsi/util/gc_util.cc:BigNum2block','upsi/util/gc_util.cc:block2BigNum','upsi/util/gc_util.cc:PadBytes'])
p('C39','Hash-to-bits for the circuit reads out of bounds for short hash values',
 'The conversion of the 73-bit hash value to circuit bits is well defined and returns its low 72 bits whenever the value has at least 9 bytes, and has undefined behaviour for every value below 2^64.',
 'all hash values below 2^73',
 'The bad values have probability 1/512 per element and the assertion is compiled out.',
 ['upsi/util/gc_util.cc:BigNum2bool','upsi/util/gc_util.cc:bytes2bool'])
p('C40','Random oracle and PRF outputs stay in range and are deterministic',
 'RandomOracle(x,max) is in [0,max) for every positive max and input, uses enough hash blocks to cover max, and is a function of its inputs; GenerateRandBetween(a,b) is in [a,b); RelativelyPrimeRandomLessThan returns a unit; PRF output is below max.',
 'all inputs, bounds and hash functions',
 'All bounds and inputs.',
 ['upsi/crypto/context.cc'])
p('C41','CSV dataset files round-trip for fields without line breaks',
 'Writing rows of two fields and reading them back returns the same rows in order for all fields without newline or NUL characters (commas, quotes and spaces included); fields containing a newline do not survive.',
 'all lists of rows and all field contents',
 'Quoting rules over all strings.',
 ['upsi/util/data_util.cc:SplitCsvLine','upsi/util/data_util.cc:EscapeForCsv','upsi/util/data_util.cc:Dataset'])
p('C42','Addition-only data generation produces the requested sizes and overlap',
 'GenerateAddOnlySets either refuses its arguments or returns for each party the requested number of daily sets of the requested sizes, without repeated elements per party when the generated strings are distinct, with exactly the requested number of shared elements.',
 'all day counts, sizes, shared sizes and random draws',
 'All parameter combinations.',
 ['upsi/util/data_util.cc:GenerateAddOnlySets'])
p('C43','Deletion data generation only deletes what is present and reports the true expected result',
 'In generated deletion datasets every deletion refers to an element that the same party holds at that time and no element is added while present; the expected value returned is the one implied by the produced daily sets.',
 'all sizes and random draws',
 'All random draws.',
 ['upsi/util/data_util.cc:GenerateDeletionSets','upsi/util/data_util.cc:GenerateDeletionDays'])
p('C44','Record files round-trip',
 'Whenever writing a list of records and later reading the file both report success, the records read are exactly those written, in order, whatever I/O failures occurred; without failures both succeed for records shorter than 2^31 bytes; reading any damaged file returns a status, an over-long length prefix is an error, and a truncated file gives an error or a prefix of the records (plus, only if the uninitialised length variable happens to be 0, one empty record).',
 'all lists of byte strings, all file contents, all patterns of I/O failures',
 'All record contents and lengths across varint boundaries, all truncation points and failure patterns.',
 ['upsi/util/recordio.cc:RecordWriterImpl','upsi/util/recordio.cc:RecordReaderImpl','upsi/util/recordio.cc:ExtractVarint32','upsi/util/file_posix.cc:PosixFile','upsi/util/proto_util.h:ProtoUtils'])
p('C45','Sharded sort and merge outputs a sorted permutation of the input',
 'Writing the records of any threads through the sharding writer (any cache limit, any interleaving) and merging the shards, whenever both report success, gives a file whose records are a permutation of the input sorted by key, whatever the number of shards; no file but the shards and the output changes; without I/O failures everything succeeds and deleting the shards removes exactly them.',
 'all record lists, thread interleavings, keys, cache limits and patterns of I/O failures',
 'All shard boundaries, tie patterns, interleavings and failures.',
 ['upsi/util/recordio.cc:ShardingWriterImpl','upsi/util/recordio.cc:MultiSortedReaderImpl','upsi/util/recordio.cc:ShardMerger'])
p('C46','Parallel record processing is independent of chunking and thread count',
 'Whenever ProcessRecordFile reports success, the transformer was called exactly once for every input record and the output holds the results sorted by key, for every chunk size, thread count, order in which threads run and pattern of I/O failures; no other file changes except shard files named like the output with a number appended. Without I/O failures it succeeds for every positive chunk size and thread count if the transformer does; if the transformer fails, the status is that of the first failing record in file order and the output is untouched. With zero threads or a zero chunk size it divides by zero or never returns.',
 'all inputs, chunk sizes, thread counts, thread schedules and patterns of I/O failures',
 'All schedules and partition boundaries.',
 ['upsi/util/process_record_file_util.h:ProcessRecordFile'])
p('C47','Functionality flag parsing and printing are inverse',
 'Parsing the printed form of any functionality gives it back, every accepted text prints back to itself and every other text is refused with an error and leaves the flag unchanged.',
 'all strings and all functionalities',
 'All strings.',
 ['upsi/utils.cc:AbslParseFlag','upsi/utils.cc:AbslUnparseFlag'])
p('C48','One reply per request',
 'The server-side sink accepts at most one message per request and refuses the second; the RPC handler returns the first message sent and maps OK, InvalidArgument and Internal to the transport status of the same name and every other code to UNKNOWN.',
 'all handler behaviours',
 'All handlers.',
 ['upsi/network/message_sink.h','upsi/network/service.cc'])
p('C49','Prepared trees are the initial sets',
 'When the setup program builds initial trees (--start_size > 0), both parties load from its files exactly the initial sets and their encryptions: each party has its own tree in the clear (every element counted, nothing foreign, nothing missing unless the stash overflowed, every element found by lookup) and a node-by-node encryption of the other party\'s tree. CA and PSI can load trees prepared for any functionality; SUM needs trees prepared for another functionality than SS and SS trees prepared for SS; with trees of the wrong kind (and not empty) party one stops at start-up instead of computing a wrong result.',
 'all groups, key shares, coins, tree sizes, initial sets and functionalities',
 'All sets and all coins; the encrypted copies cannot be compared with the plaintext trees without the joint secret key.',
 ['upsi/addition/setup.cc','upsi/util/setup_util.cc:GenerateTrees','upsi/addition/party_zero.h','upsi/addition/party_one.h','upsi/crypto_tree.cc'])
p('C50','Runs from prepared trees report only what is new',
 'Setup, loading of the trees and any number of days of an addition protocol: the result is the intersection of everything minus the part that was already common in the initial sets (count for CA, elements for PSI, count and sum of values for SUM, shares for SS), up to elements lost to stash overflow. In PSI an element that party zero had from the start is reported as the empty string; in SS the shares of an element party zero had from the start add up to its value, those of later elements to the element.',
 'all initial sets, daily batches, coins, keys and numbers of days',
 'All histories; relates three programs through files.',
 ['upsi/addition/setup.cc','upsi/addition/party_zero.cc','upsi/addition/party_one.cc','upsi/addition/run.cc'])
p('C51','The announced output is the output',
 'The setup program with --data generates the batches, writes CSV files and (with --start_size) initial trees, and announces the expected intersection size and sum. If both parties then read those files and run CA, PSI, SUM or SS to the last day, party zero reports exactly the announced size (and sum), provided the random strings drawn were all different; if a stash overflows it reports at most that. With flags below the stated limits the setup program ends normally or with an error status.',
 'all flags (days, sizes, shared size, maximal value, functionality), coins, keys and tree sizes',
 'All flags and coins; the claim relates data generation, files, trees and both parties over all days.',
 ['upsi/addition/setup.cc:GenerateData','upsi/util/data_util.cc','upsi/addition/run.cc','upsi/addition/party_zero.cc','upsi/addition/party_one.cc'])
p('C52','Key files',
 'If key generation reports success, each party later reads from its directory exactly the keys generated: for the addition-only protocols the two own ElGamal shares, one and the same joint public key (the product of the two shares\' public keys), one modulus and the two threshold Paillier shares; for the deletion protocols the own primes and the other party\'s modulus; for the original protocol the own key pair and the other party\'s public key. Setup encrypts the initial trees with that same joint key. If a file operation fails while reading, the party stops instead of going on with another key. Nothing but the named key files changes, whether generation succeeds or fails. It succeeds unless a file operation fails or the two shares add up to the group order.',
 'all output directories, coins, primes, file systems and patterns of failing operations',
 'All directory names, random choices and points at which the operating system may report an error.',
 ['upsi/util/setup_util.cc:GenerateThresholdKeys,GeneratePaillierKeys,GenerateElGamalKeys','upsi/util/elgamal_key_util.cc','upsi/crypto/threshold_paillier.cc','upsi/crypto/paillier.cc:GeneratePaillierKeyPair','upsi/addition/party.h','upsi/deletion/party.h','upsi/original/party.h'])
p('C53','Traffic report',
 'For every sequence of requests, good or bad, the number of bytes the server of the addition-only protocols (and of the original protocol) reports for a day is the total size of the requests of this protocol received on that day, refused ones included, and of the replies sent on that day, as long as that is below 2^31; the reported total is the sum over the days. Requests of another protocol and requests after the last day are not counted. At 2^31 bytes per day or more the reported number is the true one modulo 2^32, possibly negative.',
 'all request sequences, message sizes, states, days and coins, for all five servers',
 'All histories of requests, failed ones included; the counter overflows only at sizes tests do not reach.',
 ['upsi/addition/party_one.h:AddComm,PrintComm','upsi/addition/party_one.cc:Handle','upsi/original/party_zero.cc:Handle,PrintComm'])
p('C54','Original protocol from setup to result',
 'The setup program of the original protocol, given possible flags, ends normally or with an error status. When both parties load the initial tree and the initial map it wrote (party one the plaintext tree, party zero its encryption and the points H(x)^(ab)) and run any number of days, party zero reports exactly the elements that became common after the start, each once and none that was common from the start, and misses some only if party one\'s stash has overflowed. With generated data, the number of elements reported after the last day is the intersection size the setup program announced (fewer only after a stash overflow).',
 'all initial sets, daily batches, flags, groups, hash functions without collisions between the two data sets, key pairs, coins, tree sizes and numbers of days',
 'A whole-system property over all data, coins and days: files written by one program, read by two others.',
 ['upsi/original/setup.cc:WriteHX,GenerateData','upsi/original/party_zero.h:PartyZero','upsi/original/party_one.h:PartyOne','upsi/original/run.cc:RunPartyZero,RunPartyOne','upsi/util/setup_util.cc:GenerateTrees'])
p('C55','Hashing to the curve and point encodings',
 'Hashing a message to the elliptic curve, whenever it returns, returns a point of the curve (never infinity, never one with y = 0) with the even y, on the first usable value of the digest chain that starts from the message, and it never ends with an error or a crash; the result depends on nothing else. Messages whose hashes have the same encoding had a digest value in common. (If the first digest value of a message is not usable, the message made of that value\'s bytes hashes to the same point.) Every curve point except infinity is restored by decoding either of its encodings; a byte string is accepted as a curve point exactly if it is the compressed or uncompressed encoding of one. The point utility and the commutative cipher agree on the hash types both offer, and the strings the point utility returns are accepted curve points; it refuses the other hash types. A pair of reduced coordinates makes a point exactly if it satisfies the equation of the curve, and the point at infinity is never a valid point.',
 'all odd prime fields below 2^100000, curve parameters, digests, messages, numbers of rounds and byte strings',
 'Euler\'s criterion and the choice of root must be right for every field element; the number of rounds is unbounded.',
 ['upsi/crypto/ec_group.cc:GetPointByHashingToCurveInternal,GetPointByHashingToCurveSha256,ComputeYSquare,IsSquare,CreateECPoint','upsi/crypto/ec_point.cc:ToBytesCompressed,ToBytesUnCompressed','upsi/crypto/ec_point_util.cc:HashToCurve,IsCurvePoint','upsi/crypto/ec_commutative_cipher.cc:HashToTheCurveInternal'])
p('C56','The constructions with deletions from setup to result',
 "Run on what their setup program left behind (data files with additions and deletions, initial trees), the constructions with deletions give party zero at the end of every day the change against the initial sets: for cardinality and sum the result on the current sets minus the result on the initial sets; for the intersection its growth in size, and a set with x for every element gained and -x for every element lost. After the last day the number is the one the setup program announced (all modulo 2^64; if no element was lost by a full stash, the circuit told different values apart, the random shares left room and the initial trees hold the initial sets, which they do if those are empty). The two parties never crash doing so for cardinality and sum. The setup program does not crash unless a random string is drawn twice.",
 'all numbers of days and elements, stash and node sizes, maximal values, coins, lucky or not, and keys above 10^15 (2^65 for the intersection)',
 'The data are drawn at random and go through files, trees and the protocol of every day.',
 ['upsi/deletion/setup.cc:GenerateData','upsi/deletion-psi/setup.cc:GenerateData','upsi/util/setup_util.cc:GenerateTrees','upsi/roles.h:HasTree','upsi/deletion/run.cc','upsi/deletion-psi/run.cc','upsi/deletion-psi/party_zero.cc:SecondPhase'])
p('C57','Montgomery arithmetic is modular arithmetic',
 "Numbers created by Montgomery contexts of one odd modulus, multiplied, repeatedly squared, serialised and read back by other contexts with that modulus in any order, convert back to the residue of the integer computed; == and != compare residues and two numbers have the same bytes exactly when their residues are equal. Numbers of different contexts cannot be multiplied or compared, and an even modulus, a number outside the range and a negative exponent are refused (the process terminates). Fixed-base exponentiation over them yields base^e mod m for every non-negative exponent and an error for negative ones.",
 'all odd moduli, numbers below them, sequences of operations, contexts and exponents',
 'There are infinitely many moduli, operation sequences and exponents; the stored form is not the number itself and intermediate results are never compared with a reference.',
 ['upsi/crypto/mont_mul.h:MontBigNum','upsi/crypto/mont_mul.cc:MulInPlace','upsi/crypto/mont_mul.cc:PowTo2To','upsi/crypto/mont_mul.cc:ToBigNum','upsi/crypto/mont_mul.cc:CreateMontBigNum','upsi/crypto/fixed_base_exp.cc:TwoKAryFixedBaseExpImpl'])
p('C58',"What the sizes of messages reveal",
"In every protocol a party answers a lookup with one ciphertext per entry of the stash and of the nodes on the element's path in its replica of the peer's tree. The number of these ciphertexts, and so the length of the first and second message of a day (deletion-psi: the length of every per-element list), is determined by the stash and node size, the random hashes in the updates received so far, and the first log2(peer's element count) bits of the hash of each element looked up; nothing else (elements, payloads, own tree, keys, coins) matters. It is at most stash + (log2 count + 1) * node. It is not constant, though: nodes on which the peer never sent an update are empty, so if the two hashes of the peer's first update share their first bit, the size of the next message tells the first bit of the hash of the element looked up (stash + 2 node or stash + node).",
"all groups, keys, coins, hash functions with 256 bits, stash and node sizes, histories of updates (up to 2^30 elements), elements and payloads; addition-only, deletion and deletion-psi messages",
"a test compares a few sizes; that nothing but public data and some hash bits enters the size is a statement about all secrets, histories and coins",
["upsi/crypto_tree.cc: CryptoTree::getPath, Update, replaceNodes","upsi/addition/party_zero.cc: GenerateMessageI","upsi/addition/party_one.cc: GenerateMessageII","upsi/deletion/party.h: CombinePathInitiator","upsi/deletion-psi/party.h: CombinePathInitiator"])
p('C59',"Every order of the threads of a deletion run gives the same result",
"In upsi/deletion and upsi/deletion-psi party zero is one thread, while party one has a main thread (which each day resets its flags, starts a gRPC server, spins until the handler says the day is finished, shuts the server down and joins it, then meets party zero in the garbled circuits) and gRPC handler threads running Handle. For every interleaving of these threads: if either program returns success, then the run of the programs one after the other on the same data and randomness succeeds and ends in the same states, so the printed results are the same; at the start of each of its days party zero is in the state of the sequential run; a request is handled only while party zero waits for it and by the data set of the same day (and, for deletion-psi, the same half of the day); the state party one's main thread uses after its loop is not changed under its feet by the handler thread; every schedule ends; and a schedule that ends without success leaves party zero failed and party one waiting for ever or failed. The order alone can make a run fail in only one way: a call of party zero reaching party one before that day's server is started.",
"all numbers of days, states, data sets, coins, all interleavings",
"tests run few of the interleavings, and the volatile flag, the two assignments of FinishDay and Shutdown form windows that are rarely hit",
["upsi/deletion/run.cc:RunPartyZero","upsi/deletion/run.cc:RunPartyOne","upsi/deletion/party_one.h:FinishDay","upsi/deletion/party_one.h:ProtocolFinished","upsi/deletion-psi/run.cc","upsi/deletion-psi/party_one.h:FinishDay","upsi/network/service.cc:Handle"])
p('C60',"Every order of the threads of an addition-only or original run gives the same result",
"In upsi/addition and upsi/original one program is a single-threaded client making all its calls in turn; the other starts one gRPC server, spins until the days are over, prints its report, shuts the server down and joins it, while handler threads run Handle. For every interleaving: if the client returns success, the run of the two programs one after the other on the same data and randomness succeeds and ends in the same states, so the results are those of the sequential protocol; the server prints only after the last day and prints the state of the completed run, which nothing changes afterwards, even if the client has not yet received the last reply; every schedule ends; a schedule that cannot go on leaves the client returned and the server returned, dead or waiting for days that will not come; if the server was started first and the sequential run succeeds, both programs return. A client started before the server is up fails and the server then waits for ever, and that is the only way in which the order alone makes a run fail.",
"all numbers of days, states, data sets, coins, all interleavings",
"tests run few of the interleavings; the server's report is printed while the last reply may still be on its way",
["upsi/addition/run.cc","upsi/addition/party_one.h:FinishDay","upsi/addition/party_one.h:ProtocolFinished","upsi/original/run.cc:RunPartyZero","upsi/original/run.cc:RunPartyOne","upsi/network/service.cc:Handle"])
p('C61',"Benchmark runs with mock trees start in step and bound the real traffic",
"With --start_size N (deletion, deletion-psi, and secret sharing in addition) each party fills its own tree with N random set elements and its replica of the peer's tree with encryptions of zero, independently of the peer. This always succeeds; the own tree has depth log2 N and stores those elements (all of them unless the stash overflows); every node of the replica is full and every entry in it decrypts to zero under the peer's (joint) key. If both parties use the same N, then after any updates in either direction each replica has the depth, count and node number of the tree it replicates, and the next update is applied (unless an entry does not decode), although the two trees were created independently. With different N the first one-element update of the party with the deeper tree is undefined behaviour in the other. A lookup in such a replica finds stash + (log2 N + 1) * node entries while the tree does not grow, and never fewer than in a run whose tree really received N elements in whatever batches, followed by the same updates: the traffic a benchmark reports is an upper bound for a real run of that size.",
"all sizes up to 2^30, stash and node sizes, keys, coins, histories of updates, batches",
"benchmarks are run once per size; that the independent mock trees fit together for every history and that the measured sizes bound all real ones cannot be tested",
["upsi/deletion/party.h:CreateMockTrees","upsi/deletion-psi/party.h:CreateMockTrees","upsi/addition/party_zero.h:CreateMockTrees","upsi/addition/party_one.h:CreateMockTrees","upsi/crypto_tree.cc:replaceNodes"])
p('C62',"The traffic report of the programs with deletions",
"If deletion or deletion-psi gets to its report, the line of a day shows, for party zero, the size of the complete request (deletion-psi: of both requests) it sent on that day, and for party one the size of the body of the reply (of both replies) it gave, modulo 2^64, whatever the peer sends; refused or failed requests count nothing at party one, and exactly one (two) reply per day exists. The second number of a line is what went over the socket on that day, the first day including everything sent during set-up, and the total is the sum of everything. Party one leaves out the 4 to 12 bytes of the fields around its reply. With zero days the report reads outside a vector.",
"all datasets, all sequences of requests at party one (also malformed, repeated or late), all answers of the server and results of the circuits at party zero, all message sizes and socket counters",
"a sum over all days, messages and peers; a test sees one run",
["upsi/deletion/party.h: AddComm, StoreCommGC, PrintComm","upsi/deletion-psi/party.h: AddComm, StoreCommGC, PrintComm","upsi/deletion/party_zero.cc: SendMessageI","upsi/deletion/party_one.cc: GenerateMessageII","upsi/deletion/run.cc: RunPartyZero, RunPartyOne","upsi/deletion-psi/party_zero.cc: SendMessageI","upsi/deletion-psi/party_one.cc: GenerateMessageII","upsi/deletion-psi/run.cc"])
p('C63','What the random masks and the single shares reveal',
 "Without deletions (cardinality, sum, shares), what party zero decrypts from a masked candidate is the identity if the elements match, and otherwise takes every other group element for exactly one value of the mask, whatever the elements are; for the intersection the same holds of the pair it decrypts, over all pairs of a non-identity element and an element other than the candidate's own. Of a shared payload each party's share takes every value modulo n for exactly one draw, and the two always add up to the payload. With deletions, the value the responder sees in the equality test takes n - x values once each (draws below the element x end the run with an error), and the receiver's product share every value but one. In the original construction party zero sees of a masked candidate the identity or every other point exactly once; but party zero blinds all candidates of a message with one point, and party one decrypts that point from a candidate exactly if it is a match, so two matches of one day can be recognised.",
 'all groups, keys, moduli, elements, payloads, entries and draws',
 'A test sees single draws; the claim counts all draws, for every element.',
 ['upsi/addition/party_one.cc:GenerateMessageII','upsi/addition/party_zero.cc:SendMessageIII','upsi/deletion/party.h:CombinePathInitiator,GarbledCircuit','upsi/original/party_zero.cc:SendMessageII','upsi/original/party_one.cc:SendMessageIII','upsi/crypto/elgamal.cc:CreateRandomMask'])
p('C64','The self-test program passes exactly when it should: results, exit code, and what it needs on disk',
  'upsi/test.cc, run where out/ holds a joint ElGamal public key with its two secret exponents and the two shares of a threshold Paillier key with a modulus of at least 10^15, exits 0 and reports no wrong decryption, whatever it draws, and changes no file. The points it recovers are g to the minus (x_i + x_(i+1)) k_i for the elements and masks drawn (the last one without a neighbour); the numbers it recovers from Paillier are the elements drawn, all but the last, and the homomorphic sum decrypts to their sum mod n. Finding: no key generation of setup writes the files it reads, so after setup alone, whatever the protocol and output directory, it exits 1. With any of the five key files missing it never exits 0.',
  'all groups, secrets, threshold keys, numbers of elements, table limits up to the group order, random draws, output directories and I/O faults during setup',
  'The program draws fresh randomness at every run and compares only the exponential decryptions; a run says nothing about the other draws, and its other results are not checked at all.',
  ['upsi/test.cc: TestElGamal, TestPaillier, main', 'upsi/util/setup_util.cc: GenerateThresholdKeys, GeneratePaillierKeys, GenerateElGamalKeys', 'upsi/crypto/elgamal.cc', 'upsi/crypto/threshold_paillier.cc'])
p('C65','JoinPath builds the documented name: one directory, then one file name with dots',
  'For non-empty arguments JoinPath returns the first as a directory (exactly one slash added if it does not end in one) followed by the others, each without one leading and one trailing slash, with a dot between each two; it never throws. The part after the directory contains a slash exactly if some argument has one left after trimming (so the documented "no level of directory after the first argument" fails for such arguments). Names without slashes, dots and empty parts never collide; with dots they do. Findings: an empty last argument leaves a dot at the end, an empty first one leaves no slash.',
  'all lists of byte strings of any length below 2^64',
  'Whether two different argument lists can name the same file, and whether the name stays in the directory, ranges over all strings.',
  ['upsi/util/file.cc: JoinPathImpl', 'upsi/util/file.h: JoinPath'])
p('C66','EC key files: the key written is in range, comes back, and only for its curve',
  'GenerateEcKey refuses an unknown curve before writing anything and touches no other file, whatever fails. If it succeeds, the file holds the curve id and a key between 1 and the order of that curve, and DeserializeEcKey of what is read back returns that key for the same curve id and InvalidArgument for every other. With working I/O it succeeds for every known curve, whatever is drawn. Finding: reading does not check the key; it accepts numbers that CheckPrivateKey refuses.',
  'all curves, curve ids, file names, file contents, random draws and I/O faults',
  'The key is random, and the guarantee that nothing else is touched quantifies over every point at which I/O can fail.',
  ['upsi/util/ec_key_util.cc: GenerateEcKey, DeserializeEcKey', 'upsi/crypto/ec_group.cc: ECGroup::Create, GeneratePrivateKey, CheckPrivateKey'])
p('C67','The addition-only programs agree through their files: what setup prints is what the run outputs, and nothing else on disk changes',
  'If addition/setup (keys, data sets and trees written to --out_dir and --data_dir, in any environment and over any earlier file contents) reports success and the strings drawn were all different, then both parties, started later as processes of their own with the same --data_dir, --out_dir and --days on a file system that still has these files, load keys that fit together and run every day; party zero\'s output (cardinality, number of elements, size and sum, number of shares) is the number setup printed unless a stash overflowed, and at most that otherwise; they end with this result or an error status, never with an abort or undefined behaviour. Whatever fails during setup, it changes no file other than the eight key files, the data sets of the days and the four tree files. Finding: an I/O error while a party reads a data set is not noticed; it runs with the first rows of its set.',
  'all groups, hashes, key draws, days, sizes, values, directories, earlier file contents, I/O faults of setup, random draws of both parties',
  'Three programs meet only through files; a wrong name, a swapped directory or key, or a lost row shows up only for some directories, sizes and draws, and failures can strike at every system call.',
  ['upsi/addition/setup.cc: GenerateData, main', 'upsi/addition/run.cc: RunPartyZero, RunPartyOne', 'upsi/addition/party.h: Party', 'upsi/roles.h: HasTree', 'upsi/util/setup_util.cc: GenerateThresholdKeys, GenerateTrees, WriteTrees', 'upsi/util/data_util.cc: Dataset, ReadDailyDatasets'])
p('C68','The programs of the original protocol agree through their files: what setup prints is what party zero reports',
  'If original/setup (keys, data sets, encrypted and plaintext tree, elements.ec) reports success in any environment and over any earlier file contents, and the strings drawn were all different and hash to different points, then both parties, started later as processes of their own with the same --data_dir, --out_dir and --days, and --trees exactly if there is an initial set, run every day; party zero reports the number of elements setup printed unless party one\'s stash overflowed, and at most that many otherwise; they end with this result or an error status. Whatever fails during setup, it changes only the four key files, the data sets and the three files for the initial sets, and without initial sets not the latter. Finding: run imports trees by default; after a setup without initial sets in a fresh directory party zero aborts.',
  'all groups, hashes, hashes to the group, key draws, days, sizes, directories, earlier file contents, I/O faults of setup, random draws of both parties',
  'Three programs meet only through files; a wrong name, a swapped directory or key shows up only for some directories, sizes and draws, and failures can strike at every system call.',
  ['upsi/original/setup.cc: WriteHX, GenerateData, main', 'upsi/original/run.cc: RunPartyZero, RunPartyOne', 'upsi/original/party.h: Party', 'upsi/original/party_zero.h: PartyZero', 'upsi/original/party_one.h: PartyOne', 'upsi/util/setup_util.cc: GenerateElGamalKeys, GenerateTrees'])
p('C69','The deletion programs agree through their files: what setup prints is what party zero reports, if --import is given',
  'If deletion/setup or deletion-psi/setup (keys, data sets with deletions, initial trees) reports success in any environment and over any earlier file contents, then both parties, started later as processes of their own with the same --data_dir, --out_dir and --days, and with --import exactly if there is an initial set, run every day: party zero\'s cardinality or sum is the change of the result from the initial to the current sets, after the last day the number setup printed (modulo 2^64); deletion-psi\'s set is the difference of the intersections. They end with this result or an error status (deletion). Whatever fails during setup, it changes only the four key files, the data sets and the four tree files. Finding: run ignores the trees unless --import is given, whose default is false (the README speaks of --trees, which these programs do not have); the result is then that of the daily rows alone.',
  'all hash functions, key pairs, days, sizes, functionalities, directories, earlier file contents, I/O faults of setup, random draws of both parties',
  'Three programs meet only through files; a wrong name, a swapped directory or key shows up only for some directories, sizes and draws, and failures can strike at every system call.',
  ['upsi/deletion/setup.cc: GenerateData, main', 'upsi/deletion-psi/setup.cc: GenerateData, main', 'upsi/deletion/run.cc: RunPartyZero, RunPartyOne', 'upsi/deletion-psi/run.cc: RunPartyZero, RunPartyOne', 'upsi/deletion/party.h: Party', 'upsi/util/setup_util.cc: GeneratePaillierKeys, GenerateTrees', 'README.md'])
p('C70','Messages survive their bytes: what is serialized is what is parsed',
  'For every message type of the four .proto files, every value the generated class can hold (32-bit integers) and every size up to 2 GB: parsing the serialized bytes gives the message; for ClientMessage and ServerMessage there is no condition but the size. Each field is written with the number and wire type of the .proto file. Fields the type does not know are ignored wherever they stand; of a repeated optional field the last one counts. The key and tree messages the programs build keep all their contents, so that the other properties\' assumption of a faithful message encoding is met by protobuf. A file written and read with success gives the message back, whatever happened. Findings: a file whose record is not a message of the type is read without an error (FromString ignores the result of ParseFromArray), and a key file of one kind is accepted as one of another kind.',
  'all message types of the schema, all values, all sizes below 2 GB, all unknown fields, all I/O faults',
  'The nesting, the repetitions, lengths of one to five bytes and negative integers make infinitely many encodings; a duplicated field number or a sign error shows up only for particular values.',
  ['upsi/network/upsi.proto', 'upsi/crypto/elgamal.proto', 'upsi/crypto/paillier.proto', 'upsi/crypto/ec_key.proto', 'upsi/util/proto_util.h: FromString, ReadProtoFromFile, WriteProtoToFile', 'upsi/util/elgamal_proto_util.cc: SerializePublicKey, DeserializeCiphertext', 'upsi/crypto_node.cc: SerializeNode'])
p('C71','The protocols over serialized messages, and how large they may be',
  'With every call of the stub serialized, limited to 1 GiB in both directions, parsed, handled, and the reply serialized and parsed again, every run of every protocol, over any number of days, ends exactly as with messages passed directly if none of the messages of that run is larger than a gigabyte, and with an Internal error otherwise; a request that is too large never reaches the handler, and a reply that is too large leaves the server with the call handled. The results of cardinality, intersection, sum, secret shares, the original protocol and the deletion protocols hold over the bytes; the traffic counters count real sizes. A message with E elements, L lists and H hashes has at most 50 + 10 bytes for each of them besides their own; eight million elements of 33-byte points fit; elements with more than a gigabyte do not.',
  'all states, programs, days, random coins, messages and injective point encodings',
  'Whether each message of a run survives its bytes and stays below the limit depends on all data and coins; a message of a gigabyte is out of reach of a unit test.',
  ['upsi/network/connection.h: Connection::Send', 'upsi/network/service.cc: UPSIService::Handle', 'upsi/addition/run.cc: SetMaxMessageSize, GRPC_ARG_MAX_RECEIVE_MESSAGE_LENGTH', 'upsi/deletion/run.cc', 'upsi/deletion-psi/run.cc', 'upsi/original/run.cc', 'upsi/network/upsi.proto: ClientMessage, ServerMessage'])
p('C72','Whole deployments: every file and every message as bytes',
  'Setup writes its files, each party starts from them, and then the parties talk over gRPC, each with its own keys: with every file and every message serialized, limited and parsed, a deployment of any of the protocols ends exactly as it would with messages passed directly, or with an Internal error if one of its messages is larger than a gigabyte; and if it ends with a result, the result is what setup announced (cardinality, intersection, sum, shares, the original protocol, deletion, deletion-psi), under the conditions of C67-C69. The two parties may have different disks. This holds with the bytes of protobuf in the files and in the messages.',
  'all data directories, programs, days, random coins, environments and injective point encodings',
  'A deployment is setup, two processes, a dozen files per day and two messages per day; no test runs them all, and none runs all inputs.',
  ['upsi/addition/run.cc: RunPartyZero, RunPartyOne', 'upsi/original/run.cc', 'upsi/deletion/run.cc', 'upsi/deletion-psi/run.cc', 'upsi/network/connection.h: Connection::Send', 'upsi/network/service.cc: UPSIService::Handle', 'upsi/util/proto_util.h: ProtoUtils', 'upsi/crypto_tree.cc: Serialize, Deserialize'])
p('C73','The secure computations as the two programs run them',
  'Each party draws its own coins; party one draws masking bits with rand(), all of them before the first mask; the blocks of all positions lie in flat arrays moved by one oblivious transfer; in deletion-psi each party cuts the results by its own groups and party one alone shuffles. Every run of the two programs, over any number of days, ends in a state, with shares and results, that the computation position by position can end in with some coins; so the results of C20 and C22 hold for the programs themselves: the inner product, the intersection and its size. The two parties always agree on the number and grouping of comparisons. At every position both shares add up to the product of the payloads when the values are equal and to 0 when the circuit tells them apart. The bit party zero learns, together with the bit party one drew, says whether the values differ; alone it says nothing: every sequence of learned bits comes from exactly one sequence of drawn bits. The masks of a sender depend on its own generator and the number of positions only. What rand() returns (seeded with the time in seconds) influences no result, share or error. No such run crashes, with the one exception of deletion-psi opening 2^63.',
  'all batches, days, groups, group sizes, random coins of each party, masking bits and Paillier keys',
  'Whether indices into the flat arrays, choice bits, negated bits, roles and shared counters fit together at every position for every sequence of bits, in both directions, needs all bits, sizes and coins.',
  ['upsi/deletion/party.h: GarbledCircuit', 'upsi/deletion-psi/party.h: GarbledCircuit', 'upsi/deletion/party_zero.cc', 'upsi/deletion/party_one.cc', 'upsi/deletion-psi/party_zero.cc: SecondPhase', 'upsi/deletion-psi/party_one.cc: SecondPhase', 'upsi/deletion/run.cc: srand', 'upsi/deletion-psi/run.cc'])
p('C74','How much stack a day needs, and what happens when there is less',
  'The secure computations of the deletion protocols keep arrays on the stack with an entry for every comparison (deletion) or for every element (deletion-psi), and the choice bits of all. The number of comparisons is, for each of the day\'s elements, what a lookup finds in what the party knows of the other\'s tree: it follows from the stash, the node size, the hashes received so far and the hashes of the day\'s elements, not from payloads, keys, coins or stored elements; both parties and both directions agree on it. If the space left on the stack suffices on every day, at both parties, the run ends exactly as it would with unlimited stack; if it is too small on one day of a run that would otherwise succeed, the program crashes: no error is reported and no result appears. A stack with room for the number of the day\'s elements times the longest lookup is enough; as soon as the other party has sent an element, a stack smaller than the number of the day\'s elements times the stash (times the bytes per comparison) is too small. With the default parameters and 8 MiB a day with 536 elements is too large.',
  'all stack sizes, batches, days, coins, keys, stash and node sizes',
  'A test runs with one stack limit and small batches; that every larger batch crashes, that nothing else can change with the limit and how much is enough for any batch quantifies over sizes, histories and coins.',
  ['upsi/deletion/party.h: GarbledCircuit (a, b, eq_vct, chosen_bit)', 'upsi/deletion-psi/party.h: GarbledCircuit (a, b, eq_vct, chosen_bit)', 'upsi/deletion/run.cc', 'upsi/deletion-psi/run.cc', 'upsi/crypto_tree.cc: getPath'])
p('C75','Deletion deployments as the two processes run them',
  'The programs of the deletion protocols as two processes: each reads the files the setup program left on its own disk, draws from its own generator from its start on, exchanges messages as bytes over the network, and both run the garbled circuits as programs with rand() seeded at party one. What they announce is what the setup program printed (inner product, or with --func=PSI the size and the elements of the intersection), on every day as long as the comparisons of that day are lucky, for --import on after a non-empty start; without --import the initial trees are ignored. A run that does not succeed reports an error; it crashes only where the circuit library fails or, for deletion-psi, where C22 says so. Sending messages as bytes adds nothing but Internal errors. rand() does not influence the outcome, not even the errors. What a party starts with, and the generator it goes on with, depend only on the files and on its own coins.',
  'all successful setups, keys, data sets, days, functionalities, coins of each process and of rand(), contents of the disks that keep the files',
  'The results hold for every choice of the coins of three generators, every data set and key; a test sees a few of them, and cannot tell an outcome that depends on rand() from one that does not.',
  ['upsi/deletion/run.cc', 'upsi/deletion-psi/run.cc', 'upsi/deletion/setup.cc', 'upsi/deletion-psi/setup.cc', 'upsi/deletion/party_zero.cc', 'upsi/deletion/party_one.cc', 'upsi/deletion-psi/party_zero.cc', 'upsi/deletion-psi/party_one.cc', 'upsi/deletion/party.h: GarbledCircuit', 'upsi/deletion-psi/party.h: GarbledCircuit', 'upsi/network'])
p('C76','Deletion deployments with a limited stack',
  'Run as deployed - the files of the setup program, two processes with their own coins, messages as bytes - the programs of the deletion protocols end with a limited stack as they would with an unlimited one, or they crash; so whatever they announce is right. A deployment that would succeed succeeds exactly if on every day, at both parties, the arrays for the positions compared that day fit; if one day does not fit there is no result and no error. For empty start or without --import: enough is the number of elements of the day times the longest lookup (stash plus one node per level), and as soon as the other party has sent something, less than the number of elements of the day times the stash is too little.',
  'all successful setups, keys, data sets, stack sizes of each process, days, coins of both processes and of rand()',
  'A test has one stack limit and a few data sets. That a larger day always crashes, that smaller ones never do, and that the limit never changes a result, ranges over all data sets, histories, limits and coins.',
  ['upsi/deletion/party.h: GarbledCircuit', 'upsi/deletion-psi/party.h: GarbledCircuit', 'upsi/deletion/run.cc', 'upsi/deletion-psi/run.cc', 'upsi/deletion/setup.cc', 'upsi/deletion-psi/setup.cc'])
json_path=os.path.join(os.path.dirname(__file__),'..','properties.jsonl')
with open(json_path,'w') as f:
    for o in P: f.write(json.dumps(o)+'\n')
print(len(P))
