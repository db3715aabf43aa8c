# Formal model of ruidazeng/upsi-revisited in Rocq (Coq 8.16.1)

## Method

* `/repo` is read as text. Each C++ function that matters for a property is
  transcribed, function by function, into a total Gallina function; every
  definition carries a comment with the file and lines it models and says where
  it simplifies.
* `*Model.v` holds the program (definitions only), `*Spec.v` the vocabulary of the
  statements, `Props*.v` the property theorems with non-vacuity examples and
  `Print Assumptions`; everything else is proofs.
* C++ results: `outcome` = `Ok` | `Err code` (absl status) | `Abort` (CHECK,
  uncaught exception, a thrown `runtime_error`, `assert` in a debug build) | `UB`.
  The repository's `.bazelrc` builds with `-c opt`, i.e. NDEBUG: `assert`s are
  compiled out. Where this matters both builds are modelled (C05).
* Randomness (paths, paddings, masks, shuffles, keys, encryption coins) is an
  infinite tape of integers, universally quantified. Hash functions are arbitrary
  functions (SHA-256 is not modelled); only their output length is assumed, and
  absence of collisions among the elements in use where a property needs it.
* The elliptic-curve group is an arbitrary finite cyclic group of prime order
  given by a record (operations + laws, `Group.v`); a concrete instance is exhibited.
* Non-terminating loops (rejection sampling) are modelled with fuel; theorems are
  about runs that end, or say which runs end.

## Trusted base

* Coq 8.16.1's kernel, including `vm_compute` (used only in concrete examples).
* `Print Assumptions` of every theorem in MANIFEST.json: "Closed under the global
  context" - no axioms, neither ours nor the standard library's.
  `coqchk` reports seven axioms `Coq.ssr.ssrunder.Under_rel.*`: they are part of
  a file of Coq's own distribution (the opaque module of the `under` tactic) that
  is loaded by the standard library files we import; no theorem here depends on them.
* That the Gallina functions match the C++ text they cite.
* The compiler, libstdc++, BoringSSL, protobuf, gRPC and emp-toolkit behave as
  the modelled contracts say.

### What is modelled

| area of the code | model |
|---|---|
| `crypto_tree.{h,cc}`, `crypto_node.{h,cc}`, `utils.cc` (trees, paths, padding, nodes on the wire) | TreeModel, TreeDelModel, WireModel, SyncModel |
| `crypto/` ElGamal, threshold ElGamal, Paillier (any s), threshold Paillier, CRT, fixed-base exponentiation, commutative ciphers, BigNum byte codecs, random oracle / PRF | ElGamalModel, PaillierModel, CipherModel, BytesModel, ContextModel, NumTheory |
| `addition/` both parties, all four functionalities, both servers' `Handle` | AddModel |
| `deletion/`, `deletion-psi/` both parties (functional contract of circuits and OT) | DelModel, PsiModel; GcModel (as two processes); OwnModel (with files and network); StackModel, OwnStackModel (stack limits) |
| `original/` both parties | OrigModel; setup.cc, importing constructors, run.cc: OrigSetupModel |
| setup programs, key files, imported start state, programs through their files | SetupModel, DeployModel, KeyModel, ProgModel, OrigProgModel, DelProgModel |
| `util/data_util.*` (dataset files, mock data) | CsvModel, DataModel |
| `util/{file,recordio,proto_util,process_record_file_util}.*` on a file system in which every call may fail | FileModel, RecordModel |
| `*.proto`, the byte format of messages, which field holds what | ProtoModel, ProtoCodec |
| the stub's calls as bytes, message limits of the `run.cc`, the fields of the protocol messages | NetModel |
| flags, RPC sinks, error mapping | FlagModel, ServerSpec |
| traffic reports, mock trees, schedules of the original server | TrafficModel, DTrafficModel, MockModel, SchedModel |
| `test.cc` (self-test), `util/file.cc` (JoinPath), `util/ec_key_util.cc` | SelfTestModel, PathModel |

### What is not modelled

* The generated protobuf classes and runtime (ProtoModel follows the format's
  documentation, C70; elsewhere messages are the values of their fields, with any
  faithful codec where bytes matter, which C70 instantiates), gRPC transport (apart from serialization and size limits, C71, and broken connections, C46 and C60), timers, printing other than
  the traffic reports (C53, C62) and the announced output (C51), `openssl_init.cc`
  (locking callbacks, not compiled with BoringSSL), `status_matchers.h` (test
  helpers), `main` functions other than the sequence of steps named by a property.
* BoringSSL internals: BIGNUM arithmetic is exact integer arithmetic, EC points
  are group elements, `BN_is_prime_ex` is an exact primality test.
* emp-toolkit's garbled circuits and oblivious transfer: replaced by the values
  they deliver. Secrecy is stated only where it is exact: message shapes (C07) and
  the distribution of one mask or share over its draws (C63); computational
  secrecy is not expressible in this model.
* Concurrency: only where a property names it (C45, C46), at the granularity of
  the mutex / of the transformer calls.
* Process crash points: C44-C46 cover every system call failing at every point;
  the daily protocols keep no state on disk between days.

## Per-property plan

| id | model | theorem / method |
|----|-------|------------------|
| C01 | TreeModel (`insert`, `insert_dbg`) | induction over the path filling, then over batches: multiset conserved |
| C02 | `get_path`, `grow` | placement invariant: every entry lies on an ancestor of its leaf; preserved by growth and insertion |
| C03 | `insert` | capacity invariant, induction over histories |
| C04 | `grow`, `insert`, `replace_nodes` | loop invariant for the growth loop; minimality |
| C05 | `insert` vs `insert_dbg` | exact characterisation of loss; pigeonhole construction of a losing batch for every hash (TreeOverflow) |
| C06 | SyncModel: sender `Update`, receiver `Update` | simulation invariant `mirrors` between sender tree and receiver tree |
| C07 | SyncModel | message shape computed from public data; proved equal |
| C08 | `extract_path_indices` | queue-loop invariant (strictly decreasing, closed under parents) |
| C09 | `compute_index` | arithmetic; naturality of the whole insertion under payload erasure |
| C10 | `path_up`, `get_path` | closed form of the path |
| C11, C12 | TreeDelModel `InsertWithDeletions` | per-element sum invariant; bucket merge leaves unique non-zero entries |
| C13, C14 | WireModel: tree files, node and candidate readers | round trip by induction; inversion |
| C15 | WireModel `pad` | induction on number of pads, range of pad elements |
| C16-C19 | AddModel: whole daily exchange, coin tapes of both parties | simulation: decrypted candidates = differences; invariant over days (AddRun) |
| C20, C21 | DelModel | algebra mod n and mod 2^64; exact count of the shares that wrap |
| C22 | PsiModel | invariant over days (PsiRun) + set-level argument (PsiSets); counterexamples. No crash (PropsPsiCrash; PropsDelCrash for C56, C69, C71): the same invariant, every step total except `-num` of the smallest long long, which on a lucky day is not among the opened values |
| C23 | OrigModel | invariant over days (OrigRun) |
| C24-C27 | servers of all four protocols | induction over arbitrary request sequences (ServerSpec) |
| C28-C31 | ElGamalModel | group algebra |
| C32 | PaillierModel | any s: binomial theorem modulo b^(s+1), falling factorials and the Damgard-Jurik extraction loop (PaillierS) |
| C33 | PaillierModel | binomial expansion mod n^2, Carmichael exponent (NumTheory) |
| C34 | CRT | uniqueness mod p*q |
| C35 | FixedBaseExp | induction on exponent bytes |
| C36 | CipherModel | Fermat inverse mod prime order |
| C37-C39 | BytesModel | induction on digits |
| C40 | ContextModel | loop invariants, mod bounds |
| C41 | CsvModel: in-place splitter with cursors | refinement to the column grammar of CsvSpec |
| C42, C43 | DataModel | counting; coupon invariants |
| C44-C46 | FileModel, RecordModel | "success under faults = fault-free run" (okle) + fault-free refinement; k-way merge; thread interleavings |
| C47 | FlagModel | case analysis over strings |
| C48 | FlagModel / sinks | case analysis |
| C49, C50 | SetupModel: tree generation, tree files, loading, runs from loaded trees | file round trip of C13 + simulation invariant of C16-C19 started from arbitrary agreeing trees (AddStart) |
| C51 | DeployModel: GenerateData, CSV files, trees, both run.cc | composition of C41, C42, C49 and the runs from agreeing trees |
| C52 | KeyModel: key generation of setup_util.cc over the failing files of FileModel; the parties' constructors | what each file holds is followed through all writes; `reads_back` quantifies over every later environment |
| C53 | AddModel/OrigModel `comm`, TrafficModel (PrintComm) | every handler adds request and reply sizes to the current day's entry; induction over request sequences |
| C54 | OrigSetupModel (WriteHX, GenerateData, importing constructors, run.cc) over OrigModel, SetupModel, DataModel | the invariant of C23 generalised to initial sets; setup files load to it (OrigSetupProofs) |
| C55 | CurveModel (ECGroup's hash-to-curve, point conversions, ECPointUtil) over ContextModel | Euler's criterion proved for odd primes (Euler.v: a monic polynomial of degree n has at most n roots); induction on the rounds of the digest chain (CurveProofs, PropsCurve) |
| C56 | DelSetupModel: GenerateData of both constructions with deletions, trees, CSV files, both run.cc | composition of C41, C43, C49 with the runs of C20 and C22 started from trees holding a first batch; invariants for differences against the initial sets (DelSetupProofs, PropsDelSetup) |
| C57 | MontModel: MontContext, MontBigNum, the 2^k-ary exponentiation over them; OpenSSL's Montgomery functions by contract | representation invariant (stored number = x R mod m) preserved by every operation, induction on programs over the API (MontSpec); refinement of PaillierModel's exponentiation (MontProofs, PropsMont) |
| C58 | ShapeSpec: nodes written by a history of updates, size of a lookup; the message functions of AddModel, DelModel, PsiModel | invariant: a replica node is full iff some received update covered it, empty otherwise (ShapeProofs); induction on the history; lengths through mapM and shuffle; the leak by computing the two cases |
| C59 | SchedModel: a generic transition system (party zero, handler thread, main thread of party one, all interleavings) and its two instances made of the pieces of DelModel and PsiModel | invariant over all reachable worlds tying each to a prefix of the sequential run; a decreasing measure for termination; SchedRun shows that the sequential runs are those of C20 and C22 |
| C60 | OnceModel: clients as trees of calls (all days in a row), a handler thread and the server's main thread, all interleavings; instances made of the pieces of AddModel and OrigModel | the tree of calls run against the handler is shown to be the sequential program of C13-C18/C23; invariant over all reachable worlds; decreasing measure |
| C61 | MockModel: CreateMockTrees of the four programs as one parametrised function; exchanges from given starting trees (MockSpec) | the view invariant of C58 generalised to a starting size with full nodes; path-index lengths for the crash; monotonicity of the written-node sets for the bound |
| C62 | DTrafficModel: the counters of deletion and deletion-psi around the parties of DelModel/PsiModel, each run against an arbitrary peer | invariant: the vectors after i days are the sums so far followed by zeros; counts of replies by the number still needed to end the day; the counting parties project to dc_run / exchange |
| C63 | the mask and share steps of AddModel, DelModel and OrigModel, run with one coin fixed at a time (MaskSpec.each_once) | powers of a non-identity element run through all others once (prime order); shifts modulo n are bijections (PropsMask) |
| C64 | SelfTestModel.v: test.cc (both tests and main), file names included; sizes and table limit are parameters | the ElGamal body by Forall2 along the lists (decrypt of product, inverse, power, partial decryption), the Paillier body with ct_of; the programs by the reads of C52; the finding from the lists of files setup may touch |
| C65 | PathModel.v: JoinPathImpl statement by statement (substr with its size_t length); PathSpec.v: trim, directory, dotted | induction on the arguments; injectivity by the first dot |
| C66 | PathModel.v: GenerateEcKey, DeserializeEcKey over FileModel/KeyModel | the write and read lemmas of C52 |
| C67 | ProgModel.v: addition/setup.cc and run.cc of both parties over the file system of FileModel, with each party's own keys and Paillier object | a successful setup leaves exactly the files of a `deployed` of C51 (data sets, trees) and C52 (keys); the parties read them back; then C51 |
| C68 | OrigProgModel.v: original/setup.cc and run.cc of both parties over the file system of FileModel | a successful setup leaves exactly the files of an `og_deployed` of C54 and the keys of C52; the parties read them back; then C54 |
| C69 | DelProgModel.v: deletion and deletion-psi setup.cc and run.cc of both parties over the file system of FileModel | a successful setup leaves exactly the files of a `del_deployed` of C56 and the keys of C52; the parties read them back; then C56. Finding: the README's `--trees` does not exist here, and `--import` is off by default, so the trees are ignored (C69_not_imported, then C20) |
| C70 | ProtoModel.v: the protobuf wire format, every message type of the .proto files, proto_util.h's FromString; ProtoCodec.v: which field holds what | each field constructor (optional, repeated, oneof, nested) is shown to give back what it wrote when its numbers are apart from the others' (`sound`), then every type by composition; layouts by computation; tokens of a written field list by induction. The codecs of C52 and C66-C69 are instantiated |
| C71 | NetModel.v: `over_wire` around a handler; what each message puts into which field; the deletion days with their calls apart | a call over the wire is the call, guarded by two size tests (C70 plus `of (to m) = m` for the messages the programs build); induction over the client's program, then C60's equality of the program with AddModel's and OrigModel's days; sizes by lemmas on each field constructor |
| C72 | EndModel.v: setup's files, both starts, then the client's Run against the server's Handle over serialized messages, each party with its own keys and disk | C71 restated for two key pairs (each day equals the wired client and server), put behind the same starts as in C67-C69; the results follow from C67-C69 through the equality; C72_protobuf_all (PropsEndAll.v) gives one choice of codecs with the bytes of protobuf for all protocols |
| C73 | GcModel.v: GarbledCircuit and SecondPhase of deletion and deletion-psi as two processes with three coin sources, flat block arrays, one OT; the days around them | the flat call equals a version without bits (the bits cancel), whose every position is a possible outcome of DelModel's `gc_item`; 'possible' (reachable before any rest of the tape) composes over binds, so each whole run is a possible outcome of the one-tape run; group shapes agree by an invariant of the exchange; independence of rand() compositionally; crashes: every crash of the programs is a crash of the one-tape run, which C20/C22 exclude |
| C74 | StackModel.v: GcModel's days with a number of bytes of stack at each party; every GarbledCircuit(bool) that needs more for its variable-length arrays is undefined | the limited run equals the unlimited one or is UB (case analysis per call); a run that succeeds without limit succeeds with it exactly if every day fits; the positions of each day from C58's view of the other tree, by an invariant over the days (one update per day and party in deletion, two in deletion-psi); bounds of lookups from above (C58_bound) and below (the stash is full after the first update) |
| C75 | OwnModel.v: the programs of C69 as two processes: each with its own generator from its start on, messages as the bytes of C71, circuits and SecondPhase as the programs of C73 | the starts read back what setup left (C69); the wired days equal the direct ones or end with Internal (C71 lifted to three coin sources); direct days are possible runs of the one-tape model (C73), so the results and crash cases of C69 apply; independence of rand() compositionally |
| C76 | OwnStackModel.v: the programs of C75 with the limited stack of C74 | the day with limits equals the day without or is undefined, whatever the handler (case analysis on the circuits of C74); lifted through the days and the starts; what fits by the key sizes the starts read back; sizes by C74 on the direct days, which agree with the wired days of a successful run |
