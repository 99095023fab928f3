# Formal model of private-join-and-compute: design

Source: `/repo` (C++), read as text only. Model and proofs: `rocq/theories`, logical name `Verif`, Coq 8.16.1.

## Conventions

* **Outcomes.** Every fallible C++ function is a total Gallina function into
  `outcome A := Ok a | Err code | Crash | UB | Diverge` (`Base.v`). `Err` is an `absl::Status` with its code, `Crash` is a
  failed `CHECK`/`LOG(FATAL)`/`StatusOr::value()` on an error (process abort), `UB` is undefined or unspecified behaviour
  (out-of-bounds access, uninitialised read, division by zero, oversized shift), `Diverge` is an explicit fuel argument running out in a loop
  that the C++ code does not bound (rejection sampling, prime search). They are never conflated.
* **Integers.** `BigNum` is `Z`. Fixed-width integers are `Z`/`N`/`nat` with explicit wrap or bound wherever the property depends on it.
* **Bytes.** `Coq.Init.Byte.byte`; strings and files are `list byte`.
* **Randomness** is an explicit argument: the value(s) drawn. Theorems quantify over every value the sampler may return.
* **External code** (hash functions, HMAC, BoringSSL's curve arithmetic and point codec, the file system) appears as Section variables
  or record fields; what is assumed of it is a hypothesis that is visible in the theorem statement, never an axiom.
* **Concurrency** is modelled as all interleavings of mutex-protected atomic calls.
* **Files**: `M_*.v` model, `S_*.v` small independent specifications, `L_*.v` lemmas, `P_*.v` property theorems, each with an `Example` and
  `Print Assumptions`.

## Plan per property

| id | model | proof |
|----|-------|-------|
| C01 | `to_bytes`/`of_bytes` on `Z` (big_num.cc) | induction on bytes; canonical-form uniqueness |
| C02 | each arithmetic method on `Z` with `Crash`/`Err` | `Z` number theory; ModNegate refuted on non-zero multiples, exact characterisation otherwise |
| C03, C04 | varint codec, record reader/writer over a byte stream | round-trip by induction on record list; prefix theorem by induction over cut; `_refuted` for cut inside a varint (UB) |
| C05 | `fgets` buffer semantics, `ReadLine`, `LineWriter` | refinement to a line-splitting spec; refutations for long lines/NUL/CR |
| C06–C08 | `ShardingWriter` as state machine with file-fault oracle | invariant over op list; interleavings of thread lists as `Permutation`; sticky failure |
| C09, C10 | `MultiSortedReader` with nondeterministic heap tie choice, `ShardMerger` | invariant: output ++ heap ++ remaining is a permutation and sortedness bound |
| C11, C12 | `ProcessRecordFile` with chunking and thread ranges | composition of C03, C06, C10 |
| C13, C14 | CSV escape/split on C strings, dataset reader/writer, `SimpleAtoi` | induction over fields; refutation by witnesses |
| C15 | `GenerateRandomDatabases` with oracle draws and arbitrary shuffles | fold invariant |
| C16 | `JoinPathImpl` | refinement to spec |
| C17, C18 | random oracle and PRF over an arbitrary hash | range by `Z.mod` / rejection loop with fuel |
| C19 | CRT | uniqueness by coprimality |
| C20, C21 | fixed-base and simultaneous exponentiation incl. precomputed tables | invariants over the byte/bit loops |
| C22 | Shanks over an abstract cyclic group | invariant on loop; `Z` division |
| C23–C27 | Damgård–Jurik as coded | binomial theorem mod p^(s+1), Fermat/Euler via mathcomp, DJN loop correctness by induction on j |
| C28–C32 | EC cipher over an abstract prime-order group with codec | group algebra, Fermat for scalar inverse |
| C33, C34 | Weierstrass equation over Z/p, try-and-increment | loop invariant, refutation with real P-256 constants by `vm_compute` |
| C35–C37 | ElGamal over abstract group | induction over expressions / parties |
| C38, C39 | both protocol parties on full messages | composition of C23–C30; multiset algebra of `std::set_intersection` |
| C40–C42 | handlers as step functions, sinks | invariants over message lists |
| C43–C46 | Camenisch–Shoup | as Paillier, with per-level corruption check |
| C47, C48 | Pedersen over Z_n, parameter proofs | algebra mod n; extraction of exponent |
| C49 | Dodis–Yampolskiy VRF | algebra in group exponent and mod n |
| C50 | oblivious BB signature | homomorphic evaluation without wrap-around |
| C51 | challenge transcripts as byte strings | injectivity of length-prefixed encoding, refutation for plain concatenation |
| C52 | proto messages as records of byte strings | round-trip |
| C53 | hash input of one random-oracle block | injectivity while the counter is one byte, collision witness above |
| C54 | Montgomery form of the exponentiation tables | equality with plain modular arithmetic |
| C55 | `ec_point_util.cc` | case analysis over the point codec |
| C56 | `client.cc`/`server.cc` drivers | case analysis over every handler result |
| C57 | `VerifyResponse` of the oblivious signature | special soundness from two accepting proofs; counterexample below the needed bound |
| C58, C59 | every handler and proof check on arbitrary messages | `within` calculus (`L_Within.v`): a weakest-precondition style predicate over outcomes excluding `Crash` and `UB` |
| C60 | Pedersen parameter proofs for false statements | counting argument over challenges |
| C61 | Message files: writing and reading back, faults, truncation, garbage | M_KeyFile: wire parser, ProtoUtils, record files; round trip by the messages' own parser; garbage refuted by a witness |
| C62 | Key files of several holders | refinement to the ElGamal theorems (C35-C37) over file states, any number of holders |
| C63 | The file object over its whole life | M_File: PosixFile as a state machine with faults; induction on call histories; refuted for failing fclose |
| C64 | The multi-file reader over its whole life | M_File: MultiSortedReader object; simulation of the pure reader (C09), induction on histories; re-use after failure refuted; files in any readable form (P_MergerAny) |
| C65 | The proofs reveal nothing beyond what they prove | S_Hide: counting over uniform draws, statistical distance; a simulator per proof that sees only the statement and the challenge; the masked secrets are a small shift of the mask's range (L_Hide.shift_close); requests and responses of the oblivious signature in S_HideBB, L_HideReq, L_HideRsp, P_HideBB |
| C66 | A Pedersen commitment hides the committed vector | counting over the draw below n (S_Hide); all bases are powers of h and h^(p'q') = 1, so the commitment is a periodic function of draw + constant (L_HideCom.periodic_shift); equivocation with an explicit opening; refuted for received parameters (h = 1 is accepted) | P_HideCom |
| C67 | The server's last message tells the client only the size and the sum | `second_reply` (S_HideSum) as a function of the last draw: base^d times the product of the client's ciphertexts (L_HideReply); minus a square generates every unit of order dividing (p-1)(q-1) with Jacobi symbol 1 (L_Jacobi, L_HideSum), so equal size, sum and symbol make the replies shifts of one periodic function; the symbol equals the parity of the client's exponents over the intersection (L_HideLeak), which refutes the statement without the parity | P_HideSum |
| C68 | One identifier under a fresh key is perfectly hidden | count over all keys; multiplication by the ratio of two points permutes the keys; lists refuted (equality shows) | P_HideKey |
| C69 | Re-randomizing an ElGamal ciphertext hides how it was computed | count over all exponents: all residues but one against all residues but another, for any ciphertext | P_HideKey |
| C70 | The issuer of an oblivious signature learns nothing about the messages from the request | count over the three blocks of draws (multipliers, offsets, encryption randomness): a (m + k + y r) = its residue + q w, the offset absorbs w, multiplication permutes the multipliers, the randomness is periodic in the order of g (L_HideMix, L_HideMask) | P_HideMask |
| C71 | Everything the issuer of an oblivious signature sees could have been made up without the messages | the draws form blocks (openings, masks, dummies) that can be varied one after the other in any order (Fubini for counts, L_HideView): dummies absorb the secrets of the proof (C65), openings are periodic in the order of h and absorb the logarithms of the commitments, masks as in C70; unusable draws are counted by multiples of the two primes | P_HideView |
| C72 | An accepted request for oblivious signatures is answered with signatures on the committed messages only | refuted by an explicit dishonest requester (S_Cheat) who makes the masks negative: its proof is accepted for every hash function (L_Cheat: inverse = power T-1 for a common exponent T), the decrypted value is n^s minus the honest one, and a mask is computed that turns it into any wanted message (L_CheatRsp). The part that holds is proved by extraction from two proofs with one hashed string: VerifyRequest is inverted (L_BBrequest), the quotients are read in the group of units with integer exponents (L_ZPow), every commitment is opened twice or every decrypted value is the expected combination modulo n^s (L_BBopen, L_BBissue), which is an equation of integers if the decrypted value is below the honest bound | P_Cheat, P_BBrequest |
| C73 | Any file, however damaged, is divided into records in one way only | an independent relation `divided` between files, records and endings (S_RecordIO); every file has a division (induction on its length) and the reading loop computes it (L_RecordIO) | P_RecordIO |
| C74 | A false statement about Pedersen generators is accepted only by luck with the hash function | provers as decision trees over the answers of a random function, success counted over all answers (S_Oracle); if one string can be answered helpfully by one challenge only, q questions help with probability at most (q + 1) / 2^t (L_Oracle, induction on the tree); refuted for the repeated one-bit proof by dividing one run of bytes after the challenge is known (L_Resplit) | P_Oracle, P_Resplit |
| C75 | A wrong response to an oblivious request is accepted only by luck with the hash function | the same counting argument; one string fixes the response (C51), and two challenges for one response make it right (C57) | P_Oracle |
| C76 | Proofs of a wrong evaluation or an ill-formed key of the verifiable random function open a commitment in two ways | subtract the two verification equations and insert the known openings: the differences of the masked values are the wanted multiples, or the two sides are different openings of one commitment | P_VRFbind |
| C77 | A prover who succeeds more often than by luck can be run twice to answer two challenges | the forking lemma, counted over all answers: induction on the decision tree yields either a fork or the bound (S_Fork, L_Fork); combined with C72 and C76 | P_Fork |
| C78 | Requests that reach the server at the same time | a step machine with one step per access to a shared member (M_Conc); invariants over all schedules, with the sequential handler as reference | P_Conc |
| C79 | Proofs reveal nothing to someone who can compute hashes | S_Zk: observers as decision trees that question a random function on a tape, the real game and the game with a simulator who programs one answer; for each tape and draws the games are deterministic and reduce to C65 with the challenge fixed (L_Zk.games_close); the verifier's question is the prover's by completeness; guesses are counted with the injectivity of the hashed strings (C51) and the order of h (L_Zk.guesses_counted) | P_Zk, P_ZkBB, P_ZkGuess, P_ZkGuessBB |
| C80 | The server's first message looks like random curve points | Explicit reduction by a hybrid argument: the decisional Diffie-Hellman game is defined by counting (S_Ddh), and for every observer the gap between the real first message and random points is at most the sum of the gaps of n explicit players, each running the observer once. The hash function is a random table; every table of even points is given by some SHA-256 (C80_every_table). | P_Ddh |
| C81 | The client's message shows the server only which rows are common | Explicit reduction: the message is shown equal to a function of the mask of common rows, points under one key and ciphertexts (S_ClientView); the points are replaced with random ones as in C80, the plaintexts one by one with random numbers by a second hybrid argument to the decisional composite residuosity game (S_Dcr, L_Dcr). The client's randomness modulo the two primes is shown to be a uniform unit modulo their product (L_DcrUnits). C81_rows_known shows that the mask is really revealed. | P_ClientView |
| C82 | The server's messages show the client only the sum, the size and a parity | Outside draws with a hash collision the reply is shown to be a function of the common rows' ciphertexts and the server's encryption draw, independent of the server's key (L_ServerView); the first message is then replaced with random points as in C80. Collisions are counted exactly (L_Collide, C82_collisions). For two servers the counts are regrouped over a permutation of the hash table and combined with the statistical closeness of replies behind C67 (L_TwoServers). | P_ServerView |
| C83 | ElGamal ciphertexts and re-randomised ciphertexts hide what is in them | Explicit reduction by a hybrid argument over the turns of an adaptive conversation (S_Secrecy): the real answers are the players' answers to a Diffie-Hellman triple (answer_is), and with a random third point any two alternatives are alike up to 2 order - 1 draws, by a sheared window sum over a whole period (L_Secrecy). C83_last_share gives the share with which the last share holder owns the combined key. | P_Secrecy |
| C84 | Processing a record file on a failing device | `ProcessRecordFile`, `ShardMerger` and the multi-file reader with a fault argument for every file operation and with the destructors at the end (M_ProcessFault); simulation: the faulty run ends like the fault-free one of M_Process or in an outcome explained by a fault of the right kind (L_ProcessFault); C11 then gives the output | P_ProcessFault |
| C85 | The dummy data tool does what it prints | `main` over a file system with failing writes, composed with the dataset round trips (C14), the generator (C15) and the client program (C56) | P_Dummy |
| C86 | The C++, Java and Python ciphers agree byte for byte | the three ciphers modelled separately; hashing loops related candidate by candidate, the even square root being unique; layers related on encodings of points; induction over the parties; b is a square on P-256 and P-384 (root given) and not on P-224 (Euler's criterion evaluated) | P_Port |
| C87 | Numbers and bytes convert the same way in every language | converters over 32-bit units and two's complement related to the big-endian value | P_Convert |
| C88 | Python BigNums are values | heap of objects with shared constants and a cache; invariant over all histories of calls | P_PyNum |
| C89 | The Python generator reads its stream once, in order, without bias | refinement of the buffer to positions in one byte stream; counting of byte strings | P_PyPrng |
| C90 | The Python functions on plain integers and the safe prime test | equations for each case of the arguments; heap invariant of C88 for the prime test | P_PyInt |
| C91 | Record readers and writers after a failed call | refinement of the reader object to an ideal reader; exact file content of writer sessions with partial writes | P_RecordObj |
| C92 | Line readers and writers after a failed call | as C91, with lines for records | P_LineObj |
| C93 | Python points, curves and keys behave like values with owners | heap of points, curves and keys with the references that keep them alive; frame, results and an exact condition for undefined calls for every history | P_PyPoint |
| C94 | File and directory utilities do exactly what they were asked | RenameFile, DeleteFile, FileExists, RecursivelyCreateDir and RecursivelyDeleteDir over a tree of entries, with string views as pieces of memory, faults as arguments, and the order of a traversal as an argument. Independent spec of names, well-formed trees and moves; induction over paths, traversals and histories | P_Dir |
| C95 | Ciphertexts made with a public key hide what is in them | A conversation with an adaptive observer, counted over all draws, for Camenisch-Shoup Encrypt and the two Paillier encryptions; a hybrid argument to explicit players who tell a mask (an encryption of zero) from a blurred mask (an encryption of random plaintexts), where random powers of 1 + n absorb every plaintext. That these gaps are small is the hardness assumption and is not proved; that the game is about the library's own encryptions is (`…_game`). `C95_same_randomness_refuted`: the claim fails for EncryptWithRand with a repeated random number | P_PubHide |
| C96 | Random numbers, keys and parameters are drawn without bias | `S_Uniform` counts for how many draws a process gives a result; retrying keeps all units equally likely (the count of draws ending in a given unit does not depend on it), powers of units have fibres of equal size (multiplying by a unit moves one fibre to another), and independent parts multiply. | P_Uniform, P_UniformKeys |
| C97 | The verifier of the random function learns the function values and nothing else | Three steps over one tuple of draws: the key proof is replaced by a drawn one (C65), the proof of the values by a drawn one (C65), both commitments by random powers of h (shifting an opening hardly moves a periodic function). | P_VrfView |
| C98 | Requests never race for memory or use a key that was freed | `M_Race` refines the machine of C78: keys live in memory behind a pointer, using one takes two steps, and every step says which memory it touches. Proved by a simulation in both directions, by invariants for one start and for a lock, and refuted by schedules that exist for all requests of a kind. | P_Race |
| C99 | The requester of oblivious signatures learns the signatures and nothing else | C65_response_hides now names what its simulator sees (signatures divided by the requester's masks, a commitment to m numbers); the opening is drawn too and the commitment replaced by a random power of h as in C97. | P_RspView |
| C100 | Encrypting with the private Paillier key is exactly as random as encrypting with the public key | The exponents of a full-order generator run through the residues of each prime (L_DcrUnits), remainders modulo p and q through those modulo n; a sum over pairs of draws becomes a sum over units. | P_PrivUniform |
| C101 | set-up and locks of the library | interleaved instructions of any number of threads with call_once and mutexes; an invariant for all programs gives the single set-up, a second one for programs that make a Context first gives exclusion, and a decreasing weight the absence of deadlock | P_Init |
| C102 | How much a sharding writer collects before it writes a shard | The spec `S_ShardSize.cut` groups the records by volume without mentioning the writer; invariant over the session: the shards written so far and the cache are a cut of the records so far, and the 32-bit count is the volume of the cache. Refuted for max_bytes = 2^31-1 and for the header's "maximum size of each shard" | P_ShardSize |
| C103 | Which files the Close of a sharding writer names | The spec `S_ShardNames.created` reads the file operations off the trace; invariant over all histories and faults: the list of shards is what was created since the last Close. Refuted: the header's "since the last call to SetShardPrefix", and that a caller can delete all shards after a failed Close | P_ShardNames |
| C104 | A shard merger used for several merges | M_Merger: the merger as an object, built from the multi-file reader object of M_File and the state of the writer's file; a merge that returns OK resets the object (induction over the history), a failed one leaves a reader in it, which is preserved; the output from C09 through the simulation of C64 | P_Merger, P_MergerAny (shards in any form that can be read) |
| C105 | A record file is mapped whatever wrote it, and never if it is damaged | the loop of M_Process on a file and on what a writer makes of its records is the same (induction over the chunks, `read_chunk` through `divided` of S_RecordIO); on a damaged file the loop ends in the error of the reader or the function, with the invariant of the sharding writer giving the frame | P_ProcessAny |

## Reading the theorems

* A theorem `Cxx_…` is about property `Cxx` of `properties.jsonl`; `MANIFEST.json` lists all of them.
* `…_refuted` proves that the property, as a user would first state it, is false of the code, by a concrete witness. The guarded statement that does
  hold is proved next to it (`…_partial` when the guard is a real loss). `…_aborts`, `…_undefined` and similar names record exact bad outcomes.
* Special soundness: for proofs of knowledge (C48, C49, C57) the theorem takes two hash functions under which two proofs with the same hashed first
  message are accepted. This is the usual programmable random-oracle statement; the rewinding argument that yields such a pair is outside the model.
* Elliptic curves: theorems quantify over every record `C : ec` with `ec_laws C` (a prime-order Weierstrass curve with a point codec).
  `L_Toy.v` constructs such a curve (y^2 = x^3 - 3x + 36 over F_67, order 79) and proves `ec_laws toy`, so the hypothesis is satisfiable, and all examples run on it.
* Hash functions, HMAC and the square root modulo p are universally quantified.

## Trusted base

1. Coq 8.16.1's kernel (re-checked with `coqchk` by `vcheck`) and, inside proofs that use `vm_compute`, its bytecode VM.
2. The reading of the C++ recorded in the comments of the `M_*.v` files. Each comment cites file and lines and names the simplification, if any.
3. `Print Assumptions`: every theorem in `MANIFEST.json` prints "Closed under the global context". No axiom is used, neither our own nor the
   standard library's. (`vcheck` lists seven constants `Coq.ssr.ssrunder.Under_rel.*`: they belong to a module type instance loaded with ssreflect through
   mathcomp, which `L_NT.v` uses for Fermat's theorem and binomials; no theorem depends on them.)
4. Hypotheses about external code, visible in each statement: `ec_laws` for curve arithmetic, a square-root oracle that returns a root when one exists,
   primality of the generated primes, and that `GenerateRandLessThan` returns a value in range (raw entropy is an argument and is reduced modulo the bound).
5. BoringSSL's `BN_*` functions compute exact integer arithmetic; protobuf's varints and wire format are as in `M_RecordIO.v` and `M_Wire.v`
   (sub-messages of the hashed messages are always present, unknown fields are absent).

### Modelled

All of `crypto/*.cc` (`big_num`, `context` except prime generation, `two_modulus_crt`, `mont_mul`, `fixed_base_exp`, `simultaneous_fixed_bases_exp`,
`shanks_discrete_log`, `paillier`, `camenisch_shoup`, `pedersen_over_zn`, `ec_group`, `ec_point`, `ec_point_util`, `ec_commutative_cipher`, `elgamal`,
`commutative_elgamal`, `proto/proto_util`, `openssl_init` except the static destructor), both files of `crypto/dodis_yampolskiy_prf`, `util/recordio.cc`, `util/file.cc`, `util/file_posix.cc`,
`util/process_record_file_util.h`, `util/proto_util.h`, `util/elgamal_proto_util.cc`, `util/elgamal_key_util.cc`, `util/ec_key_util.cc`, `data_util.cc`, `client_impl.cc`, `server_impl.cc`,
`private_join_and_compute_rpc_impl.cc`, and the drivers in `client.cc`, `server.cc` and `generate_dummy_data.cc`. The Java cipher (`EcCommutativeCipherBase.java`,
`EcCommutativeCipher.java`) and, of the Python code, `ec_cipher.py`, `elliptic_curve.py`, `converters.py`, `supported_hashes.py` and, of `ssl_util.py`, the
conversions, the random oracle, the `BigNum` objects, the `BigNumCache`, the `PRNG`, `TempBNs` and
the functions on plain integers.

### Not modelled

BoringSSL internals and failure of its allocations, prime generation (its result is a hypothesis), constant-time behaviour, computational hardness itself (the hardness of the Diffie-Hellman and composite residuosity problems is not proved; C80 to C83 give explicit reductions to them; statistical hiding is covered by C65-C71),
gRPC transport (its threads are modelled as schedules of accesses, C78 and C98; what happens after a data race is not), flag parsing,
integer overflow outside the places named in the model, BouncyCastle, the Java and Python runtimes, build files.

## What the proofs found in the code

Each item is a theorem or follows from the model directly.

* Files: a record file cut inside a length prefix reads an uninitialised length (C04). Lines longer than 2047 bytes, NUL bytes and a trailing CR do not survive a line
  file (C05). Changing the prefix of a `ShardingWriter` mid-session can overwrite a shard (C06). After a failed `fclose` the writer keeps a dangling stream (C08).
  `ProcessRecordFile` overwrites and deletes its input if that is named like a shard (C11). Zero threads divide by zero, a zero chunk never ends (C12).
  After a failed `fclose`, closing again or destroying the file object is undefined (C63). A multi-file reader is useless for ever after a failed `Open`, may deliver out of order after a
  read error, and may report an error together with a record (C64). Messages are loaded without checking the parser's verdict: a garbage file loads as private key 0 (C61).
  Key generation replaces the public key file even if the private key cannot be written; key shares over different generators abort the combination (C62).
* `ShardMerger::Merge` calls `HasMore().value()` in its loop condition: a device error on the first access to the shards aborts the process instead of being
  returned (C84). A failing `fclose` anywhere in `ProcessRecordFile` is reported as an error status, but the destructor then closes the released stream again.
  On an error return the shard files stay on disk.
* `generate_dummy_data` prints the client's size as the size of the server dataset (line 84 uses the wrong flag), accepts the same name for both files, and can exit
  with code 1 after it has replaced the server file (C85).
* Java and Python: when a hash candidate is zero and the curve has no point above zero (P-224, the default curve of Python), Java throws, and C++ and Python hash
  different strings, because zero is written as an exception, no bytes, or one zero byte (C86, C87). Java refuses key 1, which its own key generator may draw; Python
  accepts keys above the group order, and takes empty key bytes as a request for a new key. The default hash types differ (SHA-256 and SHA-512). Python's `EncryptPoint`
  multiplies the caller's point in place, so encrypting the same object twice encrypts doubly (C86). Python's conversions from OpenSSL numbers drop the sign (C87).
* Python `BigNum`: the in-place shifts do not look at the immutable flag, and `Mutable` can be called on the shared constants and on cached numbers. After `x = BigNum.One(); x <<= 1`,
  One is 2 in the whole process; after One has been shifted to 0 the random generator of a curve may be the point at infinity; after Zero has been changed, exact divisions are refused
  and inexact ones accepted. Equal numbers hash differently (C88). The first block of a PRNG with a five-byte counter is that of one with a four-byte counter whose seed starts with a
  zero byte (C89).
* Text: unquoted bytes above 0x7f are passed to `isspace` as negative values (C13). Embedded line breaks break data sets (C14). Sums and sizes in random databases overflow (C15).
* Numbers: `ModNegate` returns m on multiples of m (C02). The documented random-oracle limit is not the enforced one (C17). Counters above 255 make the
  hashed block non-injective (C53). The PRF may return 0 (C18). Simultaneous exponentiation shifts too far for batches of 31 or more and uses the magnitude of negative exponents (C21).
  Shanks' table shifts too far when max and precomputed bits are 31 or more apart (C22).
* Paillier/Camenisch-Shoup: decrypting an in-range non-unit aborts (C27); equal primes abort the constructor (C23); short ciphertexts are accepted and later read out of bounds, hostile
  keys abort the constructor (C46).
* Curves: padding admits x = p (C34). A key derived from a seed may be 0, and seeds abort on orders above 512 bits (C31). The ElGamal encryption of the identity cannot be
  decrypted to bytes (C35). Combining shares over different generators aborts (C36).
* Protocol: the client accepts round two after a rejected round one (C41). An even or zero Paillier modulus in round one aborts the server (so does 1 when the flag two_k_ary_exp is set), a non-unit sum aborts the client (C58).
  The server marks itself finished before the reply is sent (C40). `server.cc` polls a non-atomic flag from another thread and calls the handler without a lock: simultaneous requests
  are all answered, and overlapping starts replace the key, after which an honest client gets a wrong result without an error (C78).
  The server masks the encrypted sum with powers of minus a square (Jacobi symbol 1), but the client's ciphertexts, made with the private key, have random symbols known to the client: the symbol
  of the reply tells the client the parity of its exponents over the rows in the intersection, one bit more than size and sum (C67).
* Proofs: the Pedersen parameter challenge concatenates numbers ambiguously (C51), and this breaks the proof: a prover who knows the logarithms of six short numbers hashes one run of equal
  bytes and divides it afterwards into a first message that suits the challenge bits, so that it proves a false statement with any number of repetitions, for every hash function (C74). Its trusted-modulus variant is unsound without coprimality (C48) and lets the prover choose
  repetitions and challenge length (C59, C60). In the oblivious signature, several repeated fields are indexed without a length check (C59), a bound is computed and never compared, and the
  bound `Create` enforces is too small for response soundness (C57). The VRF prover reads out of bounds when sizes differ (C49).
  The response masks the opening of its commitment with a draw sized for the Camenisch-Shoup modulus although the opening ranges up to the Pedersen modulus, which `Create` does not
  relate to it: with s > 1 the response can give the opening away (C65).
  `VerifyRequest` bounds the masked values from above only, so it accepts proofs made with negative masks. The issuer then decrypts n^s - a (m + k + y r) - q b, which it does not compare
  with any bound, and the requester, committed to m, extracts the signature on m - n^s / a modulo q, for a mask a of its choice: on any message it likes (C72). Comparing the decrypted values with
  the largest honest one, and a modulus one bit longer than `Create` demands, would close the gap (C72_signs_committed_bounded_partial).
* ElGamal key shares: `GeneratePublicKeyFromShares` multiplies whatever shares it is given. Who publishes a share last can choose it so that the combined key belongs to a private key of their
  choice (C83_last_share); callers must have the share holders prove that they know their private keys.
* Record files after a failure: the reader stays failed after a device error, but resumes in the middle of the data after an overlong length prefix; the writer forgets that a write failed, so
  that the next record, accepted with OK, may be swallowed by the incomplete one, and the file reads without an error as a record nobody wrote (C91).
  Line files have no trace of an incomplete line at all: it reads like any other, and the next one is glued to it (C92).
* Python integers: `TempBNs` promises to take bytes, but takes any bytes object as the number 0, and leaks the numbers made so far when a later one is negative. `IsSafePrime` raises ValueError
  for the number 2, and an error of OpenSSL's prime test is reported as "prime" (C90).
* A Python ECPoint keeps the address of the group of its curve but no reference to the EllipticCurve, which frees the group when it is
  collected. A point that outlives its curve and cipher works on freed memory from then on (C93_lifetime_refuted). The same holds for the address
  that priv_key_bn hands out, and a plain int as a scalar is taken for an address (C93_scalar_refuted). EncryptPoint multiplies the point object
  of its caller, so encrypting it twice gives two different results (C93_encrypt_point_refuted).
* `DeleteFile` and `RenameFile` hand `data()` of a `string_view` to C functions. A view that ends inside a longer string acts on the file that the whole string names and reports success: deleting the view "a" of "ab" deletes "ab" (`C94_view_refuted`). Without a NUL in the memory behind the view the call is undefined. `FileExists` and the functions on directories copy the view first, but cut a name at its first NUL (`C94_cut_refuted`).
* `FileExists` uses the throwing form of `std::filesystem::exists`, so an unreadable directory ends the program instead of returning a status (`C94_exists_refuted`).
* `RecursivelyCreateDir` returns AlreadyExists for a directory that is there, although file.h says that it usually returns OK; `RecursivelyDeleteDir` removes a plain file and is OK for a missing name; `DeleteFile` removes an empty directory (`C94_create`, `C94_delete_dir`, `C94_delete_file`).
* The server shares a Context, a key and a plain flag between threads without a lock (C98): two overlapping start requests can make one of them use a freed key, two requests of the second round race for a Context that its header says must not be shared, and the busy loop of the main thread in server.cc races with the handler in every completed run.
* The constructor of Context makes its members with the library before it calls OpenSSLInit, so the first Contexts use a library whose locks are not installed yet (C101; only for libraries other than BoringSSL, and only if making the members uses a lock).
* `ShardingWriter::Get` documents `max_bytes` as "the maximum size of each shard to write". `Write` compares the count before it adds the record, so a shard
  goes above the limit by up to one record even if every record fits (C102_limit_refuted). The count is an `int32_t`; with max_bytes = 2^31-1 it never
  exceeds the limit, and the writer keeps everything in memory until `Close` (C102_no_limit_refuted).
* `ShardingWriter::Close` documents that it returns the files written "since the last call to SetShardPrefix"; it returns those since the last `Close`
  (C103_since_prefix_refuted). When it fails it names nothing, and the shards written before stay on disk (C103_unnamed_shards_refuted).
* A `ShardMerger` whose `Merge` failed once (a shard was missing, a write failed) refuses every later `Merge`: `Merge` returns without closing the reader and
  the output, and there is no call to do it (C104_failure_is_final, C104_retry_refuted).
* C105: when ProcessRecordFile fails on a damaged input (or on an error of the function) the shards already written stay on disk under output + number; nothing removes them, and nothing tells the caller their names (C105_cleanup_refuted).

## Mutation tests

`seeded/LOG.jsonl` has one line per wrong program: the definition edited in a scratch copy, the edit, the claim it breaks, the theorems that stopped proving (directly or because
a lemma below them no longer proves) and the theorems tightened as a result.
