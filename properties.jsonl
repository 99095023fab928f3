{"id": "C01", "title": "BigNum byte serialization round-trips", "statement": "Converting a non-negative BigNum to bytes and creating a BigNum from those bytes gives back the same number; the encoding is the unique big-endian string without a leading zero byte (0 is the empty string), decoding accepts every byte string, and re-encoding a decoded string only strips its leading zero bytes. Converting a negative number to bytes aborts instead of returning bytes.", "quantifier": "every integer and every byte string", "why_tests_cant": "The domain is infinite; tests check a few sizes, while the sign, zero, leading-zero and length-boundary cases interact.", "anchors": ["private_join_and_compute/crypto/big_num.cc BigNum::ToBytes, BigNum::BigNum(bytes)", "private_join_and_compute/crypto/context.cc Context::CreateBigNum"]}
{"id": "C02", "title": "BigNum modular arithmetic meets its documented contract", "statement": "Mod/ModAdd/ModSub/ModMul/ModSqr/ModExp with a positive modulus return the unique representative in [0,m) of the exact result; ModInverse succeeds exactly when the operand is coprime to m and then returns the inverse; Div returns the exact quotient or aborts when there is a remainder; ModNegate returns -a mod m in [0,m); shifts move the bits of the magnitude and a negative shift aborts; BitLength, IsBitSet and GetLastNBits describe the magnitude in binary; DivAndTruncate rounds towards zero; a zero divisor aborts.", "quantifier": "all integers a, b, exponents e and moduli m", "why_tests_cant": "The contract quantifies over all operands including negatives, multiples of the modulus and zero; ModNegate's representative is wrong exactly on non-zero multiples of m, which no random test hits.", "anchors": ["private_join_and_compute/crypto/big_num.cc ModAdd ModSub ModMul ModExp ModInverse ModNegate Div ToIntValue"]}
{"id": "C03", "title": "Record files round-trip", "statement": "Writing any sequence of records with a RecordWriter and reading the file with a RecordReader yields exactly the same records in the same order; HasMore is true before each record and false after the last one.", "quantifier": "every finite sequence of byte-string records each shorter than 2^32 bytes (including empty records and records containing any byte)", "why_tests_cant": "Varint length boundaries (127/128, 16383/16384, ...) times arbitrary record contents and sequence lengths cannot be enumerated.", "anchors": ["private_join_and_compute/util/recordio.cc ExtractVarint32 RecordReaderImpl::Read RecordWriterImpl::Write", "private_join_and_compute/util/file_posix.cc PosixFile"]}
{"id": "C04", "title": "A truncated record file never yields a wrong record", "statement": "If a record file is cut at an arbitrary byte, reading it yields a prefix of the original records and then either a clean end (only when the cut falls on a record boundary) or an error; no record that was not written is ever returned.", "quantifier": "every record sequence and every cut point", "why_tests_cant": "Crash points: every byte offset of every possible file. The code ignores the result of ReadVarint32, so a cut inside a length prefix reads an uninitialised size.", "anchors": ["private_join_and_compute/util/recordio.cc ExtractVarint32 RecordReaderImpl::Read"]}
{"id": "C05", "title": "Line reader returns the lines of the file", "statement": "Reading a file written by LineWriter returns the written lines in order. What the reader returns is determined by the bytes of the file: pieces end at a newline or after 2047 bytes, a trailing newline and one preceding carriage return are dropped, and each piece is cut at its first NUL; so lines without newline/NUL, not ending in carriage return and shorter than 2047 bytes are returned unchanged.", "quantifier": "every sequence of lines / every file content", "why_tests_cant": "The failing inputs are long lines, embedded NULs and lines ending in CR; any content may occur in user identifiers.", "anchors": ["private_join_and_compute/util/file_posix.cc PosixFile::ReadLine", "private_join_and_compute/util/recordio.cc LineReader LineWriterImpl"]}
{"id": "C06", "title": "Sharding writer loses, duplicates and reorders nothing", "statement": "For every sequence of Write calls between SetShardPrefix and a Close (the prefix staying the same within the session), if all calls return OK then the shard files named by Close together contain exactly the written records (as a multiset), every shard is sorted by the key, shard names are pairwise distinct and formed from prefix and a counter, and no shard is empty.", "quantifier": "every record sequence, every key function, every max_bytes threshold, every prior history of the writer object", "why_tests_cant": "Flush positions depend on record sizes and the threshold; losing or duplicating one record at a flush boundary is visible only for particular size patterns.", "anchors": ["private_join_and_compute/util/recordio.cc ShardingWriterImpl::Write WriteCacheToFile Close"]}
{"id": "C07", "title": "Sharding writer is linearizable under concurrent writers", "statement": "When several threads call Write concurrently, every interleaving of the (mutex protected) calls leads to shards whose union is the union of all threads' records, independent of the schedule.", "quantifier": "any number of threads, any per-thread record sequences, every interleaving", "why_tests_cant": "Schedules cannot be enumerated by tests.", "anchors": ["private_join_and_compute/util/recordio.cc ShardingWriterImpl"]}
{"id": "C08", "title": "Sharding writer failure is sticky and visible", "statement": "If opening a shard or writing a record into it fails, the call during which that happened returns an error, every later Write and the Close of that session return an error, and Close always resets the writer so that a new session behaves like a fresh writer. A session in which every call returned OK had no failed file operation.", "quantifier": "every operation history and every fault pattern of the underlying file operations", "why_tests_cant": "Fault points times histories; tests inject one fault in one place.", "anchors": ["private_join_and_compute/util/recordio.cc ShardingWriterImpl::Write Close TryClose WriteCacheToFile"]}
{"id": "C09", "title": "Multi-file sorted reader merges", "statement": "Opening several files that are each sorted by the key and reading until HasMore is false returns every record of every file exactly once, in non-decreasing key order, whatever way the heap resolves key ties, and returns with each record the index of the file it came from.", "quantifier": "any number of files of any length, any key function, every tie-breaking", "why_tests_cant": "The number of files, their lengths, ties and exhaustion order are unbounded.", "anchors": ["private_join_and_compute/util/recordio.cc MultiSortedReaderImpl::Read HasMore ReadHeapDataFromReader"]}
{"id": "C10", "title": "Shard merge produces one sorted file", "statement": "Merging shard files produces an output record file that is sorted by key and is a permutation of all shard records; with no shards it is an empty file.", "quantifier": "any shards produced by the sharding writer, any key", "why_tests_cant": "As for the merge: unbounded inputs; plus the codec of every record must survive the write/read cycle.", "anchors": ["private_join_and_compute/util/recordio.cc ShardMerger::Merge Delete"]}
{"id": "C11", "title": "ProcessRecordFile is a sorted map", "statement": "If the transformation succeeds on every input record, the output file holds exactly the transformed records, sorted by the key, independent of the chunk size, the number of threads and the shard size; intermediate shard files are deleted and other files are untouched (provided the input file is not itself named output name + number). If it fails on some record the call returns an error.", "quantifier": "every input file, every transformation, all chunk sizes >= 1, thread counts >= 1 and every thread schedule", "why_tests_cant": "Off-by-one errors in the chunk/thread split only show for particular (chunk, threads, length) triples.", "anchors": ["private_join_and_compute/util/process_record_file_util.h ProcessRecordFile"]}
{"id": "C12", "title": "Parallel split of a chunk covers it exactly once", "statement": "The index ranges given to the worker threads are disjoint, in order and cover the chunk, for every chunk length and thread count; concatenating the workers' outputs in thread order is the map over the chunk. A thread count of zero or a chunk size of zero is a crash or an endless loop.", "quantifier": "all chunk sizes and thread counts", "why_tests_cant": "Two unbounded parameters; the last ranges may start beyond the end of the chunk.", "anchors": ["private_join_and_compute/util/process_record_file_util.h ProcessRecordFile"]}
{"id": "C13", "title": "CSV escaping is inverted by CSV splitting", "statement": "Splitting a line made of escaped fields joined by commas returns exactly the original fields, for all fields without NUL bytes; quotes, commas, whitespace and newlines inside fields are preserved. A NUL byte truncates.", "quantifier": "every list of byte strings", "why_tests_cant": "Quote runs, delimiters and whitespace in all positions of arbitrary fields.", "anchors": ["private_join_and_compute/data_util.cc EscapeForCsv SplitCSVLineWithDelimiter SplitCsvLine"]}
{"id": "C14", "title": "Dataset files round-trip", "statement": "Writing a server (client) dataset and reading it back returns the same identifiers (and associated values) in the same order, provided identifiers contain no newline or NUL and values are non-negative; a file violating the column count or containing an unparsable or negative value is rejected with INVALID_ARGUMENT rather than partially loaded.", "quantifier": "every dataset", "why_tests_cant": "All identifiers and all 63-bit values; the failing cases (newline, NUL, negative) are rare in samples.", "anchors": ["private_join_and_compute/data_util.cc WriteServerDatasetToFile ReadServerDatasetFromFile WriteClientDatasetToFile ReadClientDatasetFromFile"]}
{"id": "C15", "title": "Generated random databases are consistent", "statement": "Whatever random bytes are drawn, GenerateRandomDatabases returns databases of the requested sizes sharing at least the requested number of identifiers, and an intersection sum equal to the sum of the values of client rows whose identifier occurs in the server set; illegal sizes are rejected.", "quantifier": "all sizes and all outcomes of the random number generator", "why_tests_cant": "Random generators: tests see only typical draws, never collisions between random identifiers.", "anchors": ["private_join_and_compute/data_util.cc GenerateRandomDatabases"]}
{"id": "C16", "title": "JoinPath concatenates with single separators", "statement": "JoinPath of any list of components drops empty components, never produces a doubled slash at a seam, and keeps every other byte in order.", "quantifier": "every list of byte strings", "why_tests_cant": "Slash/empty component combinations are unbounded; the code reads the byte before the output cursor.", "anchors": ["private_join_and_compute/util/file.cc JoinPathImpl"]}
{"id": "C17", "title": "Random oracle output range and totality", "statement": "The random oracle returns a value in [0,max) that depends only on the input and max, for every input and every max > 0 whose bit length is within the supported bound, and aborts otherwise.", "quantifier": "all inputs, all hash functions, all max values", "why_tests_cant": "Holds for every hash behaviour and bit length; tests use a handful of sizes.", "anchors": ["private_join_and_compute/crypto/context.cc Context::RandomOracle"]}
{"id": "C18", "title": "PRF output is below the bound", "statement": "PRF returns a value in [0,max) determined by key, data and max whenever it returns; it aborts for keys under 80 bits or max longer than 512 bits.", "quantifier": "all keys, data, max values and all MAC functions", "why_tests_cant": "The rejection loop only iterates for unlucky MAC outputs that a test cannot force.", "anchors": ["private_join_and_compute/crypto/context.cc Context::PRF"]}
{"id": "C19", "title": "Two-modulus CRT", "statement": "For coprime moduli the CRT object returns the unique value in [0, m1*m2) congruent to both inputs; for non-coprime moduli construction aborts.", "quantifier": "all moduli and all residues", "why_tests_cant": "Unbounded integers.", "anchors": ["private_join_and_compute/crypto/two_modulus_crt.cc TwoModulusCrt"]}
{"id": "C20", "title": "Fixed-base exponentiation equals modular exponentiation", "statement": "Both fixed base exponentiation implementations return base^e mod m for every exponent e >= 0 and reject negative exponents with INVALID_ARGUMENT.", "quantifier": "all bases below an odd modulus, all exponents of any length", "why_tests_cant": "Bytewise windowing: every byte pattern of every exponent length, including zero bytes.", "anchors": ["private_join_and_compute/crypto/fixed_base_exp.cc SimpleBaseExpImpl TwoKAryFixedBaseExp"]}
{"id": "C21", "title": "Simultaneous exponentiation equals the product of powers", "statement": "SimultaneousExp returns the product of base_i^exponent_i mod m for every number of bases and every batch size from 1 to the number of bases; illegal batch sizes are rejected.", "quantifier": "all lists of bases and non-negative exponents and all batch sizes", "why_tests_cant": "Combination of batch sizes, partial last batch and exponent bit lengths is unbounded.", "anchors": ["private_join_and_compute/crypto/simultaneous_fixed_bases_exp.cc Precompute SimultaneousExp"]}
{"id": "C22", "title": "Bounded discrete log is sound and complete", "statement": "GetDiscreteLog(g^x) = x for every 0 <= x < 2^max_bits, and whenever it returns a value x then g^x is the input; otherwise it returns an error. Holds when the group order exceeds 2^max_bits.", "quantifier": "all x, all precomputation sizes, all groups", "why_tests_cant": "2^40 inputs per parameter choice, all table sizes.", "anchors": ["private_join_and_compute/crypto/shanks_discrete_log.cc PrecomputeTable Create GetDiscreteLog"]}
{"id": "C23", "title": "Paillier private-key encryption decrypts correctly", "statement": "For distinct primes p,q > s (in particular safe primes), every message 0 <= m < n^s and all random choices, PrivatePaillier::Decrypt(PrivatePaillier::Encrypt(m)) = m.", "quantifier": "all primes, all s, all messages, all randomness", "why_tests_cant": "Cryptographic arithmetic over unbounded integers; Damgard-Jurik loop for every s.", "anchors": ["private_join_and_compute/crypto/paillier.cc PrivatePaillier PrimeCrypto ComputeByBinomialExpansion GetDecryptPrecomp"]}
{"id": "C24", "title": "Paillier public-key encryption decrypts correctly", "statement": "PrivatePaillier::Decrypt(PublicPaillier::Encrypt(m)) = m for every message in range, via the generator path, the explicit-randomness path and EncryptAndGetRand, whatever randomness is used.", "quantifier": "all keys, messages and randomness values", "why_tests_cant": "As above; public and private sides use different formulas.", "anchors": ["private_join_and_compute/crypto/paillier.cc PublicPaillier::Encrypt EncryptUsingGeneratorAndRand EncryptWithRand PrivatePaillier::Decrypt"]}
{"id": "C25", "title": "Paillier homomorphism over any expression", "statement": "Evaluating any expression built with Add, Multiply by a non-negative scalar and LeftShift over ciphertexts and decrypting gives the value of the expression over the plaintexts mod n^s.", "quantifier": "all expressions of any depth over any ciphertexts", "why_tests_cant": "Unbounded sequences of homomorphic operations.", "anchors": ["private_join_and_compute/crypto/paillier.cc PublicPaillier::Add Multiply LeftShift"]}
{"id": "C26", "title": "Paillier EncryptAndGetRand reports the real randomness", "statement": "The randomness returned by PrivatePaillierWithRand::EncryptAndGetRand reproduces the same ciphertext through PublicPaillier::EncryptWithRand, and PrivatePaillierWithRand::Encrypt makes the same ciphertext from the same draws.", "quantifier": "all keys, messages and random draws", "why_tests_cant": "Relies on lifting congruences from mod p to mod p^(s+1); a test only samples.", "anchors": ["private_join_and_compute/crypto/paillier.cc PrimeCryptoWithRand::EncryptAndGetRand PrivatePaillierWithRand PublicPaillier::EncryptWithRand"]}
{"id": "C27", "title": "Paillier input validation", "statement": "Encrypt rejects negative or too large messages and Decrypt rejects negative or too large ciphertexts with INVALID_ARGUMENT; every ciphertext in range that is a unit decrypts to a value in [0,n^s) without aborting.", "quantifier": "all integers as messages/ciphertexts", "why_tests_cant": "Adversarial ciphertexts: Decrypt aborts the process on in-range non-units (e.g. 0), which the contract does not mention.", "anchors": ["private_join_and_compute/crypto/paillier.cc PublicPaillier::Encrypt PrivatePaillier::Encrypt PrivatePaillier::Decrypt LFunc"]}
{"id": "C28", "title": "Commutative cipher decryption inverts encryption", "statement": "Decrypt(Encrypt(x)) is the encoding of the hash-to-curve point of x, and Decrypt(ReEncrypt(c)) = c, for every valid key.", "quantifier": "all keys in [1,order), all inputs and all valid ciphertexts", "why_tests_cant": "Algebraic law over a 256-bit key space.", "anchors": ["private_join_and_compute/crypto/ec_commutative_cipher.cc Encrypt ReEncrypt Decrypt InvertPrivateScalar"]}
{"id": "C29", "title": "Commutative cipher commutes", "statement": "Encrypting under key A then B gives the same bytes as under B then A, and layers can be removed in any order.", "quantifier": "all key lists of any length and any permutation of layers, all inputs", "why_tests_cant": "All permutations of arbitrary many layers.", "anchors": ["private_join_and_compute/crypto/ec_commutative_cipher.cc Encrypt ReEncrypt Decrypt"]}
{"id": "C30", "title": "Ciphertexts match exactly when hashed points match", "statement": "Double-encrypted values of two identifiers are equal bytes iff the identifiers hash to the same curve point.", "quantifier": "all identifiers and all keys", "why_tests_cant": "The private-join result depends on it for every pair.", "anchors": ["private_join_and_compute/crypto/ec_commutative_cipher.cc Encrypt ReEncrypt", "private_join_and_compute/server_impl.cc ComputeIntersection"]}
{"id": "C31", "title": "Cipher key handling", "statement": "CreateFromKey accepts exactly the keys whose value lies in (0, order) and rejects others with INVALID_ARGUMENT; a cipher re-created from its exported key bytes behaves identically; keys derived from a seed are deterministic and below the order; too short seeds and unknown hash types are rejected.", "quantifier": "all byte strings as keys/seeds, all hash type values", "why_tests_cant": "All byte strings; the seed path does not exclude key 0.", "anchors": ["private_join_and_compute/crypto/ec_commutative_cipher.cc CreateFromKey CreateWithKeyFromSeed GetPrivateKeyBytes", "private_join_and_compute/crypto/ec_group.cc CheckPrivateKey"]}
{"id": "C32", "title": "Malformed points are rejected", "statement": "ReEncrypt, Decrypt and ElGamal re-encryption never return OK for bytes that do not decode to a point on the curve other than infinity.", "quantifier": "all byte strings", "why_tests_cant": "All byte strings.", "anchors": ["private_join_and_compute/crypto/ec_commutative_cipher.cc ReEncrypt Decrypt ReEncryptElGamalCiphertext", "private_join_and_compute/crypto/ec_group.cc CreateECPoint"]}
{"id": "C33", "title": "Hash-to-curve gives a curve point", "statement": "The try-and-increment hash to the curve returns, whenever it returns, a point satisfying the curve equation with even y, depends only on the input, and is never the point at infinity.", "quantifier": "all inputs, all hash functions, all odd primes p and curve coefficients", "why_tests_cant": "Number of iterations depends on the hash values; all inputs.", "anchors": ["private_join_and_compute/crypto/ec_group.cc GetPointByHashingToCurveInternal GetPointByHashingToCurveSha256"]}
{"id": "C34", "title": "Message padding into curve points is invertible", "statement": "RecoverXFromPaddedPoint(GetPointByPaddingX(m,k)) = m whenever padding succeeds.", "quantifier": "all messages m and padding lengths k, all curves", "why_tests_cant": "The boundary x_max = p is accepted by the code but wraps around the field; one message in 2^255 triggers it.", "anchors": ["private_join_and_compute/crypto/ec_group.cc GetPointByPaddingX RecoverXFromPaddedPoint"]}
{"id": "C35", "title": "ElGamal decryption, homomorphism and re-randomization", "statement": "Decrypt(Encrypt(m)) = m; Mul/Exp/ReRandomize of ciphertexts decrypt to the product/power/same plaintext, for any sequence of operations.", "quantifier": "all keys, randomness, plaintexts and all expressions", "why_tests_cant": "Unbounded expressions over a 256-bit group.", "anchors": ["private_join_and_compute/crypto/elgamal.cc Encrypt Decrypt Mul Exp ReRandomize"]}
{"id": "C36", "title": "Threshold ElGamal", "statement": "With a public key combined from any number of shares, partial decryption by all share holders (any order) leaves exactly the plaintext in e after the last step; combining requires at least one share with equal generators.", "quantifier": "any number of share holders and any order", "why_tests_cant": "Unbounded number of parties and orders.", "anchors": ["private_join_and_compute/crypto/elgamal.cc GeneratePublicKeyFromShares PartialDecrypt"]}
{"id": "C37", "title": "Commutative cipher acts on ElGamal ciphertexts", "statement": "Re-encrypting an ElGamal ciphertext of a point under the commutative cipher and decrypting it gives the cipher's encryption of the point, i.e. ElGamal decryption and commutative encryption commute.", "quantifier": "all keys and plaintexts", "why_tests_cant": "Two key spaces at once.", "anchors": ["private_join_and_compute/crypto/ec_commutative_cipher.cc ReEncryptElGamalCiphertext", "private_join_and_compute/crypto/commutative_elgamal.cc"]}
{"id": "C38", "title": "Private intersection-sum protocol computes the right answer", "statement": "When both parties follow the protocol on datasets with distinct identifiers, the client ends with the exact size of the intersection and the sum mod n^2 of the client values of common identifiers (the exact sum if it is below n^2).", "quantifier": "all datasets, keys and randomness, assuming hash-to-curve is injective on the identifiers involved", "why_tests_cant": "End-to-end for every dataset; tests use tiny ones.", "anchors": ["private_join_and_compute/client_impl.cc ReEncryptSet DecryptSum", "private_join_and_compute/server_impl.cc EncryptSet ComputeIntersection"]}
{"id": "C39", "title": "Protocol with duplicate identifiers", "statement": "With repeated identifiers the reported size is the multiset intersection size, and the sum uses for every identifier the values of min(count) of its client occurrences.", "quantifier": "all multisets", "why_tests_cant": "Which duplicates are used depends on an unstable sort.", "anchors": ["private_join_and_compute/server_impl.cc ComputeIntersection"]}
{"id": "C40", "title": "Server message ordering is enforced", "statement": "For any sequence of client messages the server sends a round-one reply at most once, a round-two reply at most once and only after round one, never replies after it has finished, and reports finished exactly after a successful round two.", "quantifier": "every sequence of messages including malformed and repeated ones, every internal failure", "why_tests_cant": "All message histories.", "anchors": ["private_join_and_compute/server_impl.cc Handle EncryptSet ComputeIntersection"]}
{"id": "C41", "title": "Client message ordering is enforced", "statement": "The client finishes only through a successful round-two message received after it has been given a round-one message (even one whose contents it then rejected); before that PrintOutput fails; after that every message is rejected and the result never changes.", "quantifier": "every sequence of server messages", "why_tests_cant": "All message histories.", "anchors": ["private_join_and_compute/client_impl.cc Handle DecryptSum PrintOutput"]}
{"id": "C42", "title": "RPC layer reports faithfully", "statement": "The RPC handler returns OK iff the protocol handler did, maps INVALID_ARGUMENT and INTERNAL to the same gRPC codes and all other errors to UNKNOWN, and accepts at most one response message per request.", "quantifier": "all statuses and all handler behaviours", "why_tests_cant": "Finite map but every handler behaviour.", "anchors": ["private_join_and_compute/private_join_and_compute_rpc_impl.cc ConvertStatus SingleMessageSink Handle"]}
{"id": "C43", "title": "Camenisch-Shoup decryption inverts encryption", "statement": "Decrypting an encryption of a message vector returns the messages (missing messages are zero), for every s, vector length and randomness.", "quantifier": "all keys, message vectors and randomness", "why_tests_cant": "Damgard-Jurik loop for every s and vector length.", "anchors": ["private_join_and_compute/crypto/camenisch_shoup.cc CommonEncryptWithRand Decrypt"]}
{"id": "C44", "title": "Camenisch-Shoup homomorphism", "statement": "Adding ciphertexts and multiplying by scalars corresponds to component-wise addition and scaling of the message vectors mod n^s.", "quantifier": "all ciphertexts and scalars", "why_tests_cant": "Unbounded values and sequences.", "anchors": ["private_join_and_compute/crypto/camenisch_shoup.cc Add Multiply Decrypt"]}
{"id": "C45", "title": "Camenisch-Shoup decryption is sound", "statement": "Decrypt never aborts: for every ciphertext it returns either an error or the unique message vector m in [0,n^s) with e_i = u^{x_i}(1+n)^{m_i} mod n^{s+1}; it rejects everything else.", "quantifier": "all ciphertext values, including adversarial ones", "why_tests_cant": "Adversarial inputs.", "anchors": ["private_join_and_compute/crypto/camenisch_shoup.cc PrivateCamenischShoup::Decrypt"]}
{"id": "C46", "title": "Camenisch-Shoup protos are validated and round-trip", "statement": "Parsing a serialized key or ciphertext returns the original; values outside the group are rejected with INVALID_ARGUMENT.", "quantifier": "all protos", "why_tests_cant": "All byte strings.", "anchors": ["private_join_and_compute/crypto/camenisch_shoup.cc ParsePublicKeyProto ParsePrivateKeyProto CommonParseCiphertextProto"]}
{"id": "C47", "title": "Pedersen commitments open and are homomorphic", "statement": "A commitment always verifies with its own opening; Add/Multiply of commitments commit to component-wise sums/multiples under the sum/multiple of the randomness; Verify accepts exactly the openings whose commitment equals the given one.", "quantifier": "all parameters, message vectors and randomness", "why_tests_cant": "Unbounded.", "anchors": ["private_join_and_compute/crypto/pedersen_over_zn.cc Commit CommitWithRand Verify Add Multiply"]}
{"id": "C48", "title": "Pedersen parameter proofs: completeness and special soundness", "statement": "Honestly generated parameter proofs verify, in both variants. For the repeated one-bit proof, two accepting transcripts with the same first message and different challenges yield an exponent x with h^x = g mod n. For the single-challenge proof meant for a trusted modulus the same holds when the difference of the challenges is coprime to an exponent of the group, in particular for squares modulo a product of safe primes longer than the challenge. Each verifier accepts exactly the proofs satisfying its equations.", "quantifier": "all parameters, randomness, challenges", "why_tests_cant": "Universal statement over transcripts.", "anchors": ["private_join_and_compute/crypto/pedersen_over_zn.cc ProveParametersCorrectlyGenerated VerifyParamsProof VerifyParamsProofForTrustedModulus"]}
{"id": "C49", "title": "Dodis-Yampolskiy VRF correctness", "statement": "Apply returns g^{1/(k+m)} for every message (error iff k+m = 0 mod order); honest key and evaluation proofs verify; an evaluation that differs from the committed key's PRF is rejected except for challenge coincidences (two accepting transcripts determine the PRF value).", "quantifier": "all keys, messages, randomness, challenges", "why_tests_cant": "Universal algebraic statement.", "anchors": ["private_join_and_compute/crypto/dodis_yampolskiy_prf/dy_verifiable_random_function.cc"]}
{"id": "C50", "title": "Oblivious Boneh-Boyen signature computes the PRF", "statement": "Running request, response and extraction yields for every message m_i and r_i the value g^{1/(m_i + k + y r_i)}, whatever masks are drawn, when bounds hold; honest proofs verify.", "quantifier": "all keys, messages, masks and batch sizes", "why_tests_cant": "Depends on no wrap-around in the homomorphic arithmetic for all random masks.", "anchors": ["private_join_and_compute/crypto/dodis_yampolskiy_prf/bb_oblivious_signature.cc"]}
{"id": "C51", "title": "Proof challenges bind the whole statement", "statement": "Two different statements never feed the same byte string into the Fiat-Shamir hash.", "quantifier": "all statements", "why_tests_cant": "Requires injectivity of an encoding over all inputs; the Pedersen parameter proof concatenates variable-length integers without length prefixes.", "anchors": ["private_join_and_compute/crypto/pedersen_over_zn.cc GetGenProofChallenge", "private_join_and_compute/crypto/dodis_yampolskiy_prf/dy_verifiable_random_function.cc GenerateApplyProofChallenge", "private_join_and_compute/crypto/dodis_yampolskiy_prf/bb_oblivious_signature.cc"]}
{"id": "C52", "title": "Serialized key and ciphertext messages round-trip", "statement": "Serializing and parsing vectors of big numbers and curve points, ElGamal keys and ciphertexts returns the original values; the point at infinity is rejected with an error instead of being serialized.", "quantifier": "all values", "why_tests_cant": "All vectors of all lengths.", "anchors": ["private_join_and_compute/crypto/proto/proto_util.cc", "private_join_and_compute/util/elgamal_proto_util.cc"]}
{"id": "C53", "title": "Random oracle calls on different inputs never share a hash input", "statement": "Within one oracle call and between calls on different inputs, the byte strings handed to the hash function (counter followed by input) are pairwise different.", "quantifier": "all inputs, all counters", "why_tests_cant": "Injectivity of an encoding over all inputs.", "anchors": ["private_join_and_compute/crypto/context.cc RandomOracle"]}
{"id": "C54", "title": "Montgomery arithmetic is transparent", "statement": "Any product chain computed in Montgomery form and converted back equals the product modulo the modulus; conversion to bytes and back is the identity; an even or trivial modulus is refused.", "quantifier": "all odd moduli, all values below the modulus", "why_tests_cant": "Universal over moduli and values.", "anchors": ["private_join_and_compute/crypto/mont_mul.cc"]}
{"id": "C55", "title": "Point utilities agree with the cipher", "statement": "IsCurvePoint(s) holds iff s decodes to a finite curve point, which is exactly when the cipher re-encrypts s; random points are always accepted; hashing through the point utility gives the same bytes as through the cipher, and unsupported hash types are rejected.", "quantifier": "all byte strings, all ciphers, all randomness", "why_tests_cant": "Quantifies over all encodings and keys.", "anchors": ["private_join_and_compute/crypto/ec_point_util.cc ECPointUtil::GetRandomCurvePoint HashToCurve IsCurvePoint"]}
{"id": "C56", "title": "The client program's exit code can be trusted", "statement": "If the client program exits with code 0, no remote call failed, both data files were readable, and the two numbers printed are the size of the (multiset) intersection of the two files and the sum of the chosen values modulo n^2, a number below 2^64. A lost request, lost reply, dead server, unreadable file, unusable reply or a sum of 2^64 or more gives exit code 1 or a crash, never a wrong number. Files written by the dataset writer with storable identifiers give exit code 0 with the exact numbers when the sum fits.", "quantifier": "all file contents, keys, randomness, and failures of either remote call", "why_tests_cant": "End-to-end over all files and every failure point of the two remote calls.", "anchors": ["private_join_and_compute/client.cc ExecuteProtocol InvokeServerHandleClientMessageSink::Send", "private_join_and_compute/server.cc RunServer", "private_join_and_compute/client_impl.cc PrintOutput"]}
{"id": "C57", "title": "A response that verifies is the right one", "statement": "For an honest request, a response whose proof verifies lets the requester extract exactly the values of the signature function at the requested points: no issuer that can answer two different challenges for one first message can have sent anything else.", "quantifier": "every curve, parameter set accepted by Create, key pair, honest request, response, pair of accepting proofs with the same hashed string and different challenges, and hash function", "why_tests_cant": "a test can only check that honest proofs pass and a few tampered ones fail; soundness quantifies over all provers", "anchors": ["private_join_and_compute/crypto/dodis_yampolskiy_prf/bb_oblivious_signature.cc: VerifyResponse, ExtractResults, Create"]}
{"id": "C58", "title": "A message from the other party is answered or refused, never fatal", "statement": "Whatever messages were exchanged before, handling a message from the other party ends with a status: it does not abort the process and has no undefined behaviour, on the server and on the client.", "quantifier": "every history of messages, every next message with arbitrary bytes in every field, all inputs, keys and randomness", "why_tests_cant": "an attacker chooses every byte; tests send well-formed messages and a few malformed ones", "anchors": ["private_join_and_compute/server_impl.cc PrivateIntersectionSumProtocolServerImpl::Handle", "private_join_and_compute/client_impl.cc PrivateIntersectionSumProtocolClientImpl::Handle", "private_join_and_compute/crypto/paillier.cc PublicPaillier PrivatePaillier::Decrypt"]}
{"id": "C59", "title": "Proofs, keys, requests and responses from the other party never abort the checker", "statement": "Checking a key proof, an evaluation proof, an oblivious-signature request or response, or a proof of parameter generation ends with OK or an error for every input, as do making a request for a received public key, answering an accepted request and extracting the results of an accepted response: never an abort or an out-of-bounds read.", "quantifier": "every public key, request, response and proof the other party can send, every hash function, all parameters Create accepts (challenge length up to 120000 bits)", "why_tests_cant": "Tests feed well-formed proofs and a few corrupted fields; a missing vector entry in one of dozens of fields needs a universally quantified statement.", "anchors": ["private_join_and_compute/crypto/dodis_yampolskiy_prf/bb_oblivious_signature.cc VerifyRequest GenerateResponseAndProof VerifyResponse ExtractResults GenerateRequestAndProof", "private_join_and_compute/crypto/dodis_yampolskiy_prf/dy_verifiable_random_function.cc VerifyGenerateKeysProof VerifyApplyProof", "private_join_and_compute/crypto/pedersen_over_zn.cc VerifyParamsProof VerifyParamsProofForTrustedModulus", "private_join_and_compute/crypto/camenisch_shoup.cc Multiply Add ParseCiphertextProto"]}
{"id": "C60", "title": "A proof of parameter generation for a wrong generator is accepted with probability at most 2^-k for the verifier's k", "statement": "If g is not a power of h, every first message leaves at most one challenge out of 2^k for which some response is accepted, and k is at least what the verifier requires.", "quantifier": "all moduli, generators, first messages, hash functions and numbers of repetitions", "why_tests_cant": "A soundness error cannot be observed by running examples.", "anchors": ["private_join_and_compute/crypto/pedersen_over_zn.cc VerifyParamsProof GetGenProofChallenge"]}
{"id": "C61", "title": "Messages kept in files come back unchanged", "statement": "If WriteProtoToFile or WriteRecordsToFile returns OK, then ReadProtoFromFile returns the (first) message and ReadProtosFromFile returns all messages, unchanged and in order, and no other file was touched; every failing file operation is reported; a file that lost its tail never reads as something that was not written; a file whose content is not a message is refused.", "quantifier": "every list of messages, file system, file name and pattern of file faults; every cut point", "why_tests_cant": "Tests write a few messages to a healthy disk.", "anchors": ["private_join_and_compute/util/proto_util.h ProtoUtils", "private_join_and_compute/util/recordio.cc RecordWriterImpl"]}
{"id": "C62", "title": "Key files of several holders work together", "statement": "If several holders each generate an ElGamal key pair into files and the public key files are combined into a joint key file, then anything computed under the loaded joint key is decrypted by all loaded private keys, in any order; combining fails, without touching a file, only when the keys sum to zero, a share cannot be loaded or no share is given; an EC key file yields the generated key for its own curve identifier only.", "quantifier": "every curve, number of holders, entropy, file names without clashes, fault pattern, ciphertext expression and decryption order", "why_tests_cant": "Tests use two holders and fresh temporary files.", "anchors": ["private_join_and_compute/util/elgamal_key_util.cc GenerateElGamalKeyPair", "private_join_and_compute/util/elgamal_key_util.cc ComputeJointElGamalPublicKey", "private_join_and_compute/util/ec_key_util.cc GenerateEcKey"]}
{"id": "C63", "title": "The file object over its whole life", "statement": "On one file object, whatever sequence of calls is made and whatever device faults occur: no call is undefined; calls without an open file and a second Open over an open file are refused; reads deliver the file's bytes from the start with nothing skipped or repeated and HasMore is right about the rest and never takes a device error for the end; if all writes and the Close succeed the file holds exactly the bytes given; reading a record file under faults delivers a beginning of its records and an error, or all of them.", "quantifier": "all sequences of Open, Close, HasMore, Read, ReadLine, Write and destruction, all file contents, all fault patterns", "why_tests_cant": "Device faults at every position and call histories cannot be enumerated in tests.", "anchors": ["private_join_and_compute/util/file_posix.cc PosixFile", "private_join_and_compute/util/recordio.cc RecordReaderImpl"]}
{"id": "C64", "title": "The multi-file reader over its whole life", "statement": "A session on a multi-file sorted reader (open, read until nothing is left, close) merges the files and leaves the object as new, so sessions can be repeated; a second Open during a session is refused without disturbing it; after an Open that failed for a missing file, or after a read error, the object can still be used.", "quantifier": "all files, all histories of calls on one object, all choices among equal keys", "why_tests_cant": "Tests open one object once.", "anchors": ["private_join_and_compute/util/recordio.cc MultiSortedReaderImpl"]}
{"id": "C65", "title": "The proofs reveal nothing beyond what they prove", "statement": "For every challenge, the proof an honest prover sends (VRF key proof, VRF evaluation proof, Pedersen parameter proofs, oblivious-signature request and response proofs) differs from what a simulator that is given only the public statement would send by at most a stated fraction of all random choices, namely a small multiple of 2^-s where s is the security parameter in use.", "quantifier": "all keys, messages, openings, parameters, challenges and tests an observer may apply to the proof", "why_tests_cant": "A distribution over about 2^1000 random choices cannot be sampled, and a missing factor in the size of a random mask changes no test result.", "anchors": ["private_join_and_compute/crypto/dodis_yampolskiy_prf/dy_verifiable_random_function.cc GenerateKeyPair GenerateApplyProof", "private_join_and_compute/crypto/pedersen_over_zn.cc ProveParametersCorrectlyGenerated", "private_join_and_compute/crypto/dodis_yampolskiy_prf/bb_oblivious_signature.cc GenerateRequestAndProof GenerateResponseAndProof"]}
{"id": "C66", "title": "A Pedersen commitment hides the committed vector", "statement": "With parameters made by the library for a modulus that is a product of two safe primes, the published commitment (without its opening) says nothing about the committed vector: for any two vectors and any test applied to the commitment, the numbers of random draws for which the test succeeds differ by at most about the square root of the modulus, and every commitment can be opened to every vector by some opening. Parameters received from another party are only checked to be invertible, and then this can fail.", "quantifier": "all pairs of distinct safe primes, all generated parameters, all pairs of vectors, all tests", "why_tests_cant": "hiding is a statement about the distribution over all random draws and about every possible test; a unit test sees single commitments", "anchors": ["private_join_and_compute/crypto/pedersen_over_zn.cc PedersenOverZn::Commit", "private_join_and_compute/crypto/pedersen_over_zn.cc PedersenOverZn::CommitWithRand", "private_join_and_compute/crypto/pedersen_over_zn.cc PedersenOverZn::GenerateParameters", "private_join_and_compute/crypto/pedersen_over_zn.cc PedersenOverZn::FromProto"]}
{"id": "C67", "title": "The server's last message tells the client only the size and the sum", "statement": "For a client that follows the intersection-sum protocol, the server's last message (intersection size and encrypted sum) has, over the server's own encryption randomness, almost the same distribution for any two server datasets that have the same number of identifiers in common with the client and the same sum of values over them: no test applied to the message can tell which of the client's identifiers the server holds.", "quantifier": "every curve, key pair, client dataset, client randomness, pair of server datasets and server keys, and every test of the message; counting over all draws of the server's encryption of zero", "why_tests_cant": "the claim compares distributions over about 2^1536 draws and quantifies over all tests; a unit test sees one ciphertext", "anchors": ["private_join_and_compute/server_impl.cc ComputeIntersection", "private_join_and_compute/client_impl.cc ReEncryptSet", "private_join_and_compute/crypto/paillier.cc PublicPaillier::Encrypt, PrivatePaillier::Encrypt, GetGeneratorForSafeModulus, GetGeneratorForSafePrime"]}
{"id": "C68", "title": "One identifier under a fresh key is perfectly hidden", "statement": "When a cipher with a newly generated key encrypts one identifier (or re-encrypts one received point), the result is distributed exactly like a random curve point chosen without knowledge of the identifier: any test on the result succeeds for exactly as many keys, and each point is the result for exactly one key. This does not extend to lists: under one key, whether two identifiers are equal shows.", "quantifier": "all curves satisfying the group laws, all hash types, identifiers whose hash is a point, received points and tests on the result; exact counts over all keys", "why_tests_cant": "A distribution over all keys cannot be sampled completely, and a biased key would pass every round-trip test.", "anchors": ["private_join_and_compute/crypto/ec_commutative_cipher.cc ECCommutativeCipher::CreateWithNewKey", "private_join_and_compute/crypto/ec_commutative_cipher.cc ECCommutativeCipher::Encrypt", "private_join_and_compute/crypto/ec_commutative_cipher.cc ECCommutativeCipher::ReEncrypt", "private_join_and_compute/crypto/ec_group.cc ECGroup::GeneratePrivateKey", "private_join_and_compute/crypto/ec_point_util.cc ECPointUtil::GetRandomCurvePoint"]}
{"id": "C69", "title": "Re-randomizing an ElGamal ciphertext hides how it was computed", "statement": "The result of re-randomizing a ciphertext is distributed like a fresh encryption of the same plaintext: whatever the ciphertext and whatever test is applied, the number of exponents for which the test succeeds differs by at most one. Hence two computations on ciphertexts with the same plaintext result cannot be told apart after re-randomization.", "quantifier": "all curves satisfying the group laws, matching key pairs, ciphertexts (also ones made by an adversary), homomorphic computations and tests; exact counts over all exponents", "why_tests_cant": "It is a statement about the whole distribution and every possible distinguisher.", "anchors": ["private_join_and_compute/crypto/elgamal.cc ElGamalEncrypter::ReRandomize", "private_join_and_compute/crypto/elgamal.cc ElGamalEncrypter::Encrypt", "private_join_and_compute/crypto/elgamal.cc elgamal::Mul", "private_join_and_compute/crypto/elgamal.cc elgamal::Exp"]}
{"id": "C70", "title": "The issuer of an oblivious signature learns nothing about the messages from the request", "statement": "The issuer can decrypt the ciphertexts in a request. Still, for messages whose signature exists, the request is distributed like encryptions of random values that do not depend on messages, nonces or keys, up to a stated small fraction of all random choices (number of messages plus a multiple of the number of ciphertexts, over 2^(challenge + security length)); so requests for any two message lists of the same length cannot be told apart, even with the issuer's secret keys.", "quantifier": "all curves, systems, keys, message and nonce lists, openings and tests on the request; counts over all choices of multipliers, offsets and encryption randomness", "why_tests_cant": "A leak of this kind is a statistical dependence over about 2^(hundreds) random choices; a wrong range for one mask passes every functional test.", "anchors": ["private_join_and_compute/crypto/dodis_yampolskiy_prf/bb_oblivious_signature.cc BbObliviousSignature::GenerateRequestAndProof", "private_join_and_compute/crypto/dodis_yampolskiy_prf/bb_oblivious_signature.cc BbObliviousSignature::GenerateResponseAndProof"]}
{"id": "C71", "title": "Everything the issuer of an oblivious signature sees could have been made up without the messages", "statement": "With library-made parameters, the commitments to messages and nonces, the encrypted request and its proof, taken together, are distributed almost like a view computed from the public parameters and the hash answer alone: whatever test the issuer applies, also one using its secret keys, the share of random draws for which it succeeds differs by at most a small multiple of 2^-s (s the security parameter) plus the share of draws whose encryption randomness is unusable, and that share is at most 2k(1/p+1/q) for k ciphertexts modulo n = pq. Hence requests for different messages cannot be told apart.", "quantifier": "all parameters, keys, messages and nonces with m + k + y r not 0 modulo the group order, hash answers and tests; exact counts over all draws of openings, masks, encryption randomness and proof dummies together", "why_tests_cant": "the claim compares distributions over all random draws and quantifies over all tests; the separate parts (ciphertexts, commitments, proof) share secrets, so hiding of each part alone does not settle it", "anchors": ["private_join_and_compute/crypto/dodis_yampolskiy_prf/bb_oblivious_signature.cc BbObliviousSignature::GenerateRequestAndProof", "private_join_and_compute/crypto/pedersen_over_zn.cc PedersenOverZn::Commit", "private_join_and_compute/crypto/camenisch_shoup.cc PublicCamenischShoup::EncryptWithRand"]}
{"id": "C72", "title": "An accepted request for oblivious signatures is answered with signatures on the committed messages only", "statement": "When the issuer accepts a request for oblivious signatures against commitments to messages and nonces, what the requester can extract from the answer is the signatures on those messages with those nonces. Wherever this fails, the failing requests are characterised.", "quantifier": "all parameters, key pairs, hash functions, committed messages and nonces, and all messages a dishonest requester might want signed instead", "why_tests_cant": "the requester is an adversary who may deviate from the protocol; tests run honest requests and a few random corruptions, none of which passes the proof check", "anchors": ["private_join_and_compute/crypto/dodis_yampolskiy_prf/bb_oblivious_signature.cc BbObliviousSignature::VerifyRequest", "private_join_and_compute/crypto/dodis_yampolskiy_prf/bb_oblivious_signature.cc BbObliviousSignature::GenerateResponseAndProof", "private_join_and_compute/crypto/dodis_yampolskiy_prf/bb_oblivious_signature.cc BbObliviousSignature::ExtractResults"]}
{"id": "C73", "title": "Any file, however damaged, is divided into records in one way only", "statement": "Reading a record file to its end finds the only division of its bytes into length headers and records: it returns the records before the first damage and then reports a clean end exactly at the end of the file, an error for a record shorter than announced and for a header longer than five bytes. A header announces its number modulo 2^32; a record of 2^32 bytes or more therefore is written with a wrong length, and a header cut short gives an undefined length.", "quantifier": "all files (byte strings) and all records of any length", "why_tests_cant": "the files a reader may meet are arbitrary; tests read files the library wrote", "anchors": ["private_join_and_compute/util/recordio.cc ExtractVarint32", "private_join_and_compute/util/recordio.cc RecordReaderImpl::Read", "private_join_and_compute/util/recordio.cc RecordWriterImpl::Write"]}
{"id": "C74", "title": "A false statement about Pedersen generators is accepted only by luck with the hash function", "statement": "If g is no power of h, a prover who may put q questions to the hash function (and may know every secret, and choose its proof to suit the answers) gets a proof that g is a power of h accepted for at most the fraction (q+1)/2^t of all answers, where t is the number of repetitions (repeated one-bit proof) or the challenge length (proof for a trusted modulus). True for the second proof with squares modulo a product of safe primes. False for the first: the challenge hashes the numbers of the first message without their lengths, so a prover hashes one string and divides it into numbers afterwards, to suit the challenge bits; this succeeds for every hash function. It becomes true if the lengths are prescribed.", "quantifier": "all provers (decision trees over hash answers), all numbers of questions, all hash functions, all repetitions or challenge lengths", "why_tests_cant": "no test can try all provers, and the attack needs a proof made by other code than the library's prover", "anchors": ["private_join_and_compute/crypto/pedersen_over_zn.cc VerifyParamsProof", "private_join_and_compute/crypto/pedersen_over_zn.cc GetGenProofChallenge", "private_join_and_compute/crypto/pedersen_over_zn.cc VerifyParamsProofForTrustedModulus"]}
{"id": "C75", "title": "A wrong response to an oblivious request is accepted only by luck with the hash function", "statement": "An issuer who answers an honest request, who may put q questions to the hash function and choose response and proof to suit the answers, has a response accepted from which the requester extracts anything but the right values for at most the fraction (q+1)/2^c of all answers, c being the challenge length, provided the parameters leave one half more room than Create demands.", "quantifier": "all issuers (decision trees over hash answers), all numbers of questions, all honest requests, all responses and proofs", "why_tests_cant": "no test can try all issuers or all answers of the hash function", "anchors": ["private_join_and_compute/crypto/dodis_yampolskiy_prf/bb_oblivious_signature.cc VerifyResponse", "private_join_and_compute/crypto/dodis_yampolskiy_prf/bb_oblivious_signature.cc ExtractResults"]}
{"id": "C76", "title": "Proofs of a wrong evaluation or an ill-formed key of the verifiable random function open a commitment in two ways", "statement": "Whoever knows openings of the public key and of the commitment to the messages, and answers two different challenges for the same hashed string, either has proved the right statement (every slot of the key opening holds the same key; every evaluation is base^(1/(key+message))) or opens one commitment with two different vectors that are explicit functions of the two proofs. No assumption about the order of the group is needed.", "quantifier": "all parameters that Create accepts, all keys, messages, evaluations, proofs and pairs of hash functions", "why_tests_cant": "the proofs concerned are made by dishonest provers; tests contain only a few altered honest proofs", "anchors": ["private_join_and_compute/crypto/dodis_yampolskiy_prf/dy_verifiable_random_function.cc VerifyGenerateKeysProof", "private_join_and_compute/crypto/dodis_yampolskiy_prf/dy_verifiable_random_function.cc VerifyApplyProof"]}
{"id": "C77", "title": "A prover who succeeds more often than by luck can be run twice to answer two challenges", "statement": "For every verifier that asks the hash function one question and decides on the message and the answer: a prover with q questions that is accepted for more than the fraction (q+1)/2^k of all answers has two runs that agree up to one question, get different answers to it and end with accepted messages for which the verifier asks that question. Hence a prover of wrong evaluations of the verifiable random function that succeeds that often opens a commitment in two ways; and a requester of oblivious signatures that succeeds that often against an issuer that also compares the decrypted values with their honest bound either opens a commitment in two ways or is given signatures on the messages it is committed to.", "quantifier": "all provers (decision trees over hash answers), all numbers of questions, all sets of answers of the stated size", "why_tests_cant": "a statement about all provers and about fractions of all hash functions; no test can run it", "anchors": ["private_join_and_compute/crypto/dodis_yampolskiy_prf/bb_oblivious_signature.cc VerifyRequest", "private_join_and_compute/crypto/dodis_yampolskiy_prf/dy_verifiable_random_function.cc VerifyApplyProof", "private_join_and_compute/crypto/context.cc RandomOracle"]}
{"id": "C78", "title": "Requests that reach the server at the same time", "statement": "However the server interleaves requests that arrive at the same time, it replies as if it had taken them one after the other: at most one encrypted set and one result leave it, all made with one key, and an honest client that is told no error gets the size and sum of the true intersection.", "quantifier": "all lists of requests, all schedules of the server's threads, all curves and inputs", "why_tests_cant": "The outcome depends on the order in which threads reach two shared members; the gRPC server runs the handler on several threads without a lock, and the losing schedules are rare.", "anchors": ["private_join_and_compute/server_impl.cc PrivateIntersectionSumProtocolServerImpl::Handle", "private_join_and_compute/server_impl.cc EncryptSet", "private_join_and_compute/private_join_and_compute_rpc_impl.cc Handle", "private_join_and_compute/server.cc RunServer"]}
{"id": "C79", "title": "Proofs reveal nothing to someone who can compute hashes", "statement": "An observer who may evaluate the hash function on anything, before and after seeing a proof of correct parameters, keys, evaluation, request or response, with the hash function a random function, cannot tell the proof from one made without the secret by someone who chooses the challenge first and sets the hash function's answer accordingly: its advantage is at most a small multiple of 2^-s for the security parameter s, plus the chance that it had asked the prover's question beforehand, which with few questions and a base of large order is small, plus the chance that the draws are unusable.", "quantifier": "all statements, secrets, observers (decision trees of questions of any depth), numbers of questions, security parameters", "why_tests_cant": "It compares two distributions over all random functions and draws for every possible strategy of an observer.", "anchors": ["private_join_and_compute/crypto/pedersen_over_zn.cc ProveParametersCorrectlyGenerated", "private_join_and_compute/crypto/dodis_yampolskiy_prf/dy_verifiable_random_function.cc GenerateKeyPair", "private_join_and_compute/crypto/dodis_yampolskiy_prf/dy_verifiable_random_function.cc GenerateApplyProof", "private_join_and_compute/crypto/dodis_yampolskiy_prf/bb_oblivious_signature.cc GenerateRequestAndProof", "private_join_and_compute/crypto/dodis_yampolskiy_prf/bb_oblivious_signature.cc GenerateResponseAndProof", "private_join_and_compute/crypto/context.cc RandomOracleSha512"]}
{"id": "C80", "title": "The server's first message looks like random curve points", "statement": "Someone who sees the points that identifiers hash to, and the server's first message, cannot tell the message from a list of independent random points better than the players derived from them (one for each of the server's identifiers, each of which runs them once) can tell a Diffie-Hellman triple from a random one. The message therefore shows nothing about the server's identifiers but their number, as long as the decisional Diffie-Hellman problem is hard on the curve.", "quantifier": "all curves, server inputs of any number, further identifiers, and all observers; probabilities over the key and a random hash function, as exact counts", "why_tests_cant": "a test observes a few messages; that no observer can tell them from random points is a statement about all observers and needs a reduction", "anchors": ["private_join_and_compute/crypto/ec_commutative_cipher.cc ECCommutativeCipher::Encrypt", "private_join_and_compute/server_impl.cc EncryptSet", "private_join_and_compute/crypto/ec_group.cc GetPointByHashingToCurveSha256"]}
{"id": "C81", "title": "The client's message shows the server only which rows are common", "statement": "A server that follows the protocol, and even knows the points that all identifiers hash to, cannot tell the client's message from one made of random points in place of the client's identifiers and encryptions of random numbers in place of its values, better than explicit players can solve the decisional Diffie-Hellman problem (one player for each identifier) and the decisional composite residuosity problem (one for each row). Of the client's data the made-up message depends only on the number of rows and on which rows are common. The places of the common rows are really shown: the server can compute them from the message, because the rows are sent in the order of the input.", "quantifier": "all curves, keys, datasets of distinct identifiers, associated values in range, hash tables and observers; probabilities over the client's key, a random hash function and the encryption randomness, as exact counts", "why_tests_cant": "a test observes a few messages; that no observer can tell them from made-up ones is a statement about all observers and needs a reduction", "anchors": ["private_join_and_compute/client_impl.cc ReEncryptSet", "private_join_and_compute/crypto/ec_commutative_cipher.cc ECCommutativeCipher::Encrypt", "private_join_and_compute/crypto/ec_commutative_cipher.cc ECCommutativeCipher::ReEncrypt", "private_join_and_compute/crypto/paillier.cc PrivatePaillier::Encrypt"]}
{"id": "C82", "title": "The server's messages show the client only the sum, the size and a parity", "statement": "A client that follows the protocol, and even knows the points that all identifiers hash to, cannot tell the server's two messages from ones made of random points and of the ciphertexts of the common rows alone, better than explicit players can solve the decisional Diffie-Hellman problem (one for each identifier of the server), up to the chance that two identifiers hash to the same point, which is at most N(N-1)/(order-1) for N identifiers. Two servers with as many identifiers, the same size and sum of the intersection, and the same parity of the client's encryption exponents over the common rows, look alike to every such client up to twice these gaps and a share (p+q-1)/(pq) of the server's encryption randomness.", "quantifier": "all curves, safe primes, server and client datasets of any size with distinct identifiers, client keys and encryption draws, and all observers; probabilities over the server's key, a random hash function and the server's encryption randomness, as exact counts", "why_tests_cant": "a test observes a few runs; that the messages of two different servers look alike to every client is a statement about all observers and needs a reduction", "anchors": ["private_join_and_compute/server_impl.cc EncryptSet", "private_join_and_compute/server_impl.cc ComputeIntersection", "private_join_and_compute/crypto/ec_commutative_cipher.cc ECCommutativeCipher::Encrypt", "private_join_and_compute/crypto/paillier.cc PublicPaillier::Encrypt"]}
{"id": "C83", "title": "ElGamal ciphertexts and re-randomised ciphertexts hide what is in them", "statement": "Someone who adaptively asks for encryptions of one of two points of their choice, and for re-randomisations of one of two ciphertexts of their choice, cannot tell whether all answers are about the first or the second alternatives, better than explicit players (two for each request) can solve the decisional Diffie-Hellman problem, up to a share of about 2/order for each request. This holds for a key combined from several shares as long as one share is fresh and the other shares' owners know their private keys. The last condition is needed: who publishes the last share can choose it so that the combined key belongs to a private key of their choice, and the library does not notice.", "quantifier": "all curves, positions of the honest share among any number of shares, conversations of any length, adaptive requests and observers; probabilities over the key and the encryption randomness, as exact counts", "why_tests_cant": "a test observes a few ciphertexts; that no observer learns anything from them is a statement about all observers and needs a reduction", "anchors": ["private_join_and_compute/crypto/elgamal.cc ElGamalEncrypter::Encrypt", "private_join_and_compute/crypto/elgamal.cc ElGamalEncrypter::ReRandomize", "private_join_and_compute/crypto/elgamal.cc elgamal::GeneratePublicKeyFromShares", "private_join_and_compute/crypto/elgamal.cc elgamal::GenerateKeyPair"]}
{"id": "C84", "title": "Processing a record file on a failing device never reports success with a wrong output", "statement": "Suppose any open, peek, read, write, close or delete that ProcessRecordFile performs - on its input, on the shards while they are written and read back, and on the output - may fail. If the call returns OK, the transform succeeded on every input record and the output holds exactly the results in key order, with the shards removed; in every case no file is touched other than the output and the files named like its shards; and every failure ends in an error status, not in an abort or undefined behaviour.", "quantifier": "all inputs, transforms, keys, chunk sizes, thread counts and tie resolutions, and every pattern of device faults", "why_tests_cant": "tests run on a healthy disk; the number of fault patterns is unbounded, and a fault in a rarely executed branch decides whether a damaged output is reported as complete", "anchors": ["private_join_and_compute/util/process_record_file_util.h ProcessRecordFile", "private_join_and_compute/util/recordio.cc ShardMerger::Merge", "private_join_and_compute/util/recordio.cc ShardMerger::Delete", "private_join_and_compute/util/recordio.cc MultiSortedReaderImpl::HasMore", "private_join_and_compute/util/file_posix.cc PosixFile"]}
{"id": "C85", "title": "The dummy data tool does what it prints", "statement": "If the dummy data tool exits with code 0 and was given two different file names, both files could be written, they read back as datasets of the requested sizes sharing at least the requested number of identifiers, values are in range, no other file changed, and the printed sum is the sum over the shared identifiers; running server and client on the two files makes the client print the same intersection size and sum unless identifiers drawn at random collide. An illegal request or a failing write gives exit code 1, and an illegal request changes no file.", "quantifier": "all flag values, random draws, initial file systems and write failures", "why_tests_cant": "needs every combination of sizes, random draw and failing write, and a statement about the whole protocol run on the generated files", "anchors": ["private_join_and_compute/generate_dummy_data.cc main", "private_join_and_compute/data_util.cc GenerateRandomDatabases", "private_join_and_compute/data_util.cc WriteServerDatasetToFile", "private_join_and_compute/data_util.cc WriteClientDatasetToFile", "private_join_and_compute/client.cc ExecuteProtocol"]}
{"id": "C86", "title": "The C++, Java and Python ciphers agree byte for byte", "statement": "The commutative cipher exists in three languages that promise to be compatible. For the same key bytes, curve, hash type and message, hashing to the curve and encrypting give the same bytes in all three, or go on searching together; and a message that is encrypted in one language and then has layers added and removed by any number of parties, each using any of the languages, is at every point the ciphertext that C++ alone would produce. The one condition is that zero is never a rejected candidate of the hash, which holds on every curve Java supports. The same key bytes are accepted by all three, a new key can be stored and restored, encrypting a point twice gives the same ciphertext, and bytes that are not a point other than infinity are refused with the documented exception, which Java's validateCiphertext predicts.", "quantifier": "all curves satisfying the curve laws, all digests of the right lengths, all messages, keys and hash types, all sequences of parties with their languages, keys and operations", "why_tests_cant": "Interoperability tests compare a few recorded vectors; zero candidates, keys at the edge of the range and repeated calls on one object do not occur in them.", "anchors": ["private_join_and_compute/java/com/google/privacy/private_join_and_compute/encryption/commutative/EcCommutativeCipher.java createFromKey, encrypt, reEncrypt, decrypt, hashIntoTheCurve", "private_join_and_compute/java/com/google/privacy/private_join_and_compute/encryption/commutative/EcCommutativeCipherBase.java randomOracle, getPrivateKeyBytes", "private_join_and_compute/py/ciphers/ec_cipher.py EcCipher", "private_join_and_compute/py/crypto_util/elliptic_curve.py ECKey, EllipticCurve, ECPoint", "private_join_and_compute/crypto/ec_commutative_cipher.cc ECCommutativeCipher"]}
{"id": "C87", "title": "Numbers and bytes convert the same way in every language", "statement": "Converting bytes to a number gives the big-endian value in C++, Java and Python, for every length and any number of leading zeros. Converting a non-negative number to bytes gives the same shortest byte string in all three, and reading it back gives the number. Python's block size pads with leading zeros to the next multiple and no further, and negative numbers are refused.", "quantifier": "all byte strings, all integers, all block sizes", "why_tests_cant": "The converters work in 32-bit units, two's complement or words; an error shows only at particular lengths or at zero, and tests cover a few values.", "anchors": ["private_join_and_compute/py/crypto_util/converters.py LongToBytes, BytesToLong", "private_join_and_compute/py/crypto_util/ssl_util.py BnToLong, BnToBytes, LongtoBn", "private_join_and_compute/java/com/google/privacy/private_join_and_compute/encryption/commutative/EcCommutativeCipherBase.java bigIntegerToByteArrayCppCompatible, byteArrayToBigIntegerCppCompatible", "private_join_and_compute/crypto/big_num.cc BigNum::ToBytes"]}
{"id": "C88", "title": "Python BigNums behave as values: a call changes only its target, immutable numbers never change, and the shared constants keep their values", "statement": "For every history of calls on Python BigNum objects (construction, the class constants Zero, One and Two, Clone, Mutable, arithmetic into new objects and in place, shifts, division, AddOne/SubtractOne, ModNegate, random numbers, and the BigNumCache): a call changes no object but the one it names, an in-place operation on an immutable number raises ValueError and changes nothing, and a number that was neither made mutable nor shifted in place keeps its value and hash for ever. If no shared object (constant or cached number) is made mutable or shifted in place, every call succeeds exactly when its mathematical result exists and returns it: the constants are 0, 1 and 2, the cache returns the number asked for and stays within its bound, a division is refused exactly when there is a remainder. Equal numbers have equal hashes and the negation modulo m lies in [0, m) (both refuted).", "quantifier": "all finite sequences of calls with any aliasing of arguments, all numbers, any value left behind by a failing OpenSSL function, any modular square root function", "why_tests_cant": "Aliasing and the lazily created shared objects make the effect of a call depend on the whole history of the process; tests use fresh numbers and never in-place shifts of a constant.", "anchors": ["private_join_and_compute/py/crypto_util/ssl_util.py BigNum", "private_join_and_compute/py/crypto_util/ssl_util.py BigNumCache"]}
{"id": "C89", "title": "The Python pseudorandom generator reads each number once, in order, from the stream of hashed counters, without bias", "statement": "For every seed, counter width and sequence of upper limits, the numbers a PRNG object returns are the ones read off one fixed stream of bytes, the SHA-512 digests of the fixed-width counters 0, 1, 2, ... followed by the seed: each call takes the next whole bytes that hold enough bits for its limit, keeps the first bits, skips candidates that are not below the limit, and never uses a byte twice. When the counters of the given width are used up the call fails with an AssertionError, and every call ends. Each number lies in [0, limit); limits that are not positive never get an answer. Uniform bytes give unbiased numbers: every candidate comes from equally many byte strings. No two blocks hash the same string, nor do generators of the same counter width with different seeds (with different widths they can: refuted). Seeds below 32 bytes (numbers below 256^31) are refused.", "quantifier": "all seeds (bytes or numbers), counter widths, sequences of calls and limits, any 64-byte hash function", "why_tests_cant": "The buffered bytes and the counter carry over between calls, so the claim is about whole histories; exhaustion of the counter needs 2^32 blocks with the default width, and bias cannot be seen in samples.", "anchors": ["private_join_and_compute/py/crypto_util/ssl_util.py PRNG"]}
{"id": "C90", "title": "The Python functions on plain integers give the mathematical result, refuse what has none, and free what they allocate", "statement": "GetRandomInRange(start, end) returns a number of [start, end), every one for some draw, and raises for an empty or negative interval. ModExp and ModInverse return the power and the inverse that the C++ library returns for the same numbers, and raise for negative numbers, a zero modulus or a missing inverse. Temporary OpenSSL numbers are freed however the computation ends, and may be given as numbers or bytes. IsSafePrime tells exactly the safe primes, and changes no number.", "quantifier": "all integers and byte strings, all draws, all histories of BigNum calls before IsSafePrime", "why_tests_cant": "The failures sit at single values (0, 2, an empty interval), in argument types nobody passes in the tests, and in exception paths whose only effect is a leak.", "anchors": ["private_join_and_compute/py/crypto_util/ssl_util.py GetRandomInRange", "private_join_and_compute/py/crypto_util/ssl_util.py ModExp", "private_join_and_compute/py/crypto_util/ssl_util.py ModInverse", "private_join_and_compute/py/crypto_util/ssl_util.py TempBNs", "private_join_and_compute/py/crypto_util/ssl_util.py BigNum.IsSafePrime"]}
{"id": "C91", "title": "A record reader or writer that has failed does not hand out or accept records as if nothing had happened", "statement": "For every sequence of HasMore and Read calls on an open record reader and every pattern of device faults, the answers up to the first failure are those of an ideal reader of the file. After a failed call no record that is not in the file is delivered, and a device error is never followed by a report that the file has ended. A record writer that reported success for every record leaves exactly these records in the file; if a Write failed, the records whose Write succeeded can be read back.", "quantifier": "all file contents, all call sequences, all positions and extents of device faults, all lists of records", "why_tests_cant": "The calls after a failure, and writes that fail after some bytes, happen only with a failing device, and their effect shows up when the file is read much later.", "anchors": ["private_join_and_compute/util/recordio.cc RecordReaderImpl", "private_join_and_compute/util/recordio.cc RecordWriterImpl", "private_join_and_compute/util/file_posix.cc PosixFile"]}
{"id": "C92", "title": "A line reader or writer that has failed does not hand out or accept lines as if nothing had happened", "statement": "For every sequence of HasMore and Read calls on an open line reader and every pattern of device faults, the answers up to the first failure are those of an ideal reader of the lines of the file, no call is undefined, and after a failed call no line is delivered and the end of the file is not reported. A line writer that reported success for every line leaves exactly these lines in the file; if a Write failed, the lines whose Write succeeded, and only those, can be read back.", "quantifier": "all file contents, all call sequences, all positions and extents of device faults, all lists of lines without NUL or newline that fit the line buffer", "why_tests_cant": "The text and the newline of a line are written separately, so a fault can hit between them; the calls after a failure happen only with a failing device.", "anchors": ["private_join_and_compute/util/recordio.cc LineReader", "private_join_and_compute/util/recordio.cc LineWriterImpl", "private_join_and_compute/util/file_posix.cc PosixFile"]}
{"id": "C93", "title": "Python points, curves and keys behave like values with owners", "statement": "Operations on Python points return the result of the group operation, in a new object (* and +) or in the object itself (*= and +=), and change no other point; a call that raises changes nothing. == tells whether two points are equal, and the bytes or the number of a point other than infinity give the same point back. As long as the program keeps a cipher its methods on bytes work whatever became of other objects. No call on objects that the program holds is undefined.", "quantifier": "all histories of calls on curves, points and ciphers, including the moments at which the program lets go of a curve or cipher", "why_tests_cant": "a use after free shows only when a curve is collected before its points, and an in-place change only through a second reference; both depend on the history", "anchors": ["private_join_and_compute/py/crypto_util/elliptic_curve.py ECPoint, EllipticCurve, ECKey", "private_join_and_compute/py/ciphers/ec_cipher.py EcCipher"]}
{"id": "C94", "title": "File and directory utilities do exactly what they were asked", "statement": "FileExists is OK exactly when the name leads to something. RecursivelyCreateDir adds exactly the directories that are missing, never loses or changes an entry whatever fails on the way, and can be repeated after a failure. RecursivelyDeleteDir removes exactly the named entry and everything in it, touches nothing else even when it fails half-way. DeleteFile and RenameFile remove or move exactly the named entry, and a failure of theirs changes nothing. After any calls every entry is in a directory and every file has content it had before.", "quantifier": "all directory trees, names, views, orders of traversal, fault points, and histories of calls", "why_tests_cant": "Tests use a handful of names in a temporary directory; names inside larger strings, faults between two system calls, and histories are out of their reach.", "anchors": ["private_join_and_compute/util/file_posix.cc RenameFile", "private_join_and_compute/util/file_posix.cc DeleteFile", "private_join_and_compute/util/file_posix.cc FileExists", "private_join_and_compute/util/file_posix.cc RecursivelyCreateDir", "private_join_and_compute/util/file_posix.cc RecursivelyDeleteDir"]}
{"id": "C95", "title": "Ciphertexts made with a public key hide what is in them", "statement": "Take any Camenisch-Shoup or Paillier public key and an observer who holds it, names two plaintexts (or vectors) in every turn, depending on all ciphertexts so far, and gets a fresh encryption of the first ones, or always of the second ones. However it decides, it tells the two cases apart at most as well as explicit players, who know only what is public, tell the masks of zero plaintexts from masks with random plaintexts, added up over the turns. This holds for Camenisch-Shoup Encrypt, Paillier Encrypt and Paillier EncryptAndGetRand without the random number. Using a random number twice shows whether the plaintexts were the same.", "quantifier": "every modulus, s, key, number of components and turns, adaptive choice of plaintexts, decision of the observer and all draws", "why_tests_cant": "A test compares a few ciphertexts; secrecy is a statement about the distribution over all draws and about every strategy of an observer.", "anchors": ["private_join_and_compute/crypto/camenisch_shoup.cc PublicCamenischShoup::Encrypt", "private_join_and_compute/crypto/camenisch_shoup.cc PublicCamenischShoup::EncryptWithRand", "private_join_and_compute/crypto/paillier.cc PublicPaillier::Encrypt", "private_join_and_compute/crypto/paillier.cc PublicPaillier::EncryptAndGetRand"]}
{"id": "C96", "title": "Random numbers, keys and parameters are drawn without bias", "statement": "When the underlying random number generator is uniform, every result that may come about comes about equally often, and no other result ever does. This holds for GenerateRandLessThan and GenerateRandBetween over their range; for RelativelyPrimeRandomLessThan over the numbers prime to its argument, however often it has to draw again; for the generator of a Paillier key over the negated squares modulo n; for the generator and all secret exponents of a Camenisch-Shoup key together; for the base h and all secret exponents of new Pedersen parameters together; for the private keys of ElGamal, the commutative cipher and stored EC keys over the numbers above 0 and below the order; for the key and opening of the Dodis-Yampolskiy function together and for the two secrets of the Boneh-Boyen function together; and for GetRandomCurvePoint and new ElGamal public keys over the points other than infinity.", "quantifier": "every range, modulus, s, number of draws and components, hash type and curve that satisfies the laws, and every possible result", "why_tests_cant": "A test can look at a few draws or at a histogram for one modulus; a small bias, for instance from reducing a draw or from reusing one, does not show up there.", "anchors": ["private_join_and_compute/crypto/context.cc Context::GenerateRandLessThan", "private_join_and_compute/crypto/context.cc Context::GenerateRandBetween", "private_join_and_compute/crypto/context.cc Context::RelativelyPrimeRandomLessThan", "private_join_and_compute/crypto/paillier.cc GetGeneratorForSafeModulus", "private_join_and_compute/crypto/camenisch_shoup.cc GenerateCamenischShoupKey", "private_join_and_compute/crypto/pedersen_over_zn.cc PedersenOverZn::GenerateParameters", "private_join_and_compute/crypto/ec_group.cc ECGroup::GeneratePrivateKey", "private_join_and_compute/crypto/ec_point_util.cc ECPointUtil::GetRandomCurvePoint", "private_join_and_compute/crypto/elgamal.cc elgamal::GenerateKeyPair", "private_join_and_compute/util/ec_key_util.cc GenerateEcKey", "private_join_and_compute/crypto/dodis_yampolskiy_prf/dy_verifiable_random_function.cc DyVerifiableRandomFunction::GenerateKeyPair", "private_join_and_compute/crypto/dodis_yampolskiy_prf/bb_oblivious_signature.cc BbObliviousSignature::GenerateKeys"]}
{"id": "C97", "title": "The verifier of the random function learns the function values and nothing else", "statement": "Take a holder with a new key for the verifiable random function and any messages for which it is defined. The public key with its proof, the commitment to the messages, the function values and the proof of these values, taken together, are distributed almost like a view computed from the public parameters, the function values and the hash answer alone: whatever test is applied, the share of draws for which it succeeds differs by at most (m + 5) 2^-s for m messages, plus the distance of the openings from whole periods of h. Hence two holders with different keys and messages that give the same values cannot be told apart.", "quantifier": "all curves satisfying the laws, parameters whose bases are powers of h, keys, numbers of messages, messages, hash answers and tests; exact counts over all draws of openings and dummy values together", "why_tests_cant": "A test can check that a proof verifies; what the messages reveal together is a statement about all draws and every possible observer.", "anchors": ["private_join_and_compute/crypto/dodis_yampolskiy_prf/dy_verifiable_random_function.cc DyVerifiableRandomFunction::GenerateKeyPair", "private_join_and_compute/crypto/dodis_yampolskiy_prf/dy_verifiable_random_function.cc DyVerifiableRandomFunction::Apply", "private_join_and_compute/crypto/dodis_yampolskiy_prf/dy_verifiable_random_function.cc DyVerifiableRandomFunction::GenerateApplyProof", "private_join_and_compute/crypto/pedersen_over_zn.cc PedersenOverZn::Commit"]}
{"id": "C98", "title": "Requests never race for memory or use a key that was freed", "statement": "However the server's threads interleave requests, a request never uses the server's key after another request has replaced and freed it, and no two threads are ever about to touch the same memory (the key, the pointer to it, the arithmetic context, the flag that the protocol is finished) when one of them writes it. As long as no freed key is used, the requests behave as if reading the pointer to the key and using the key were one indivisible step.", "quantifier": "all curves that satisfy the laws, inputs, lists of requests, states of the server and schedules of its threads", "why_tests_cant": "Races and uses of freed memory depend on the schedule; a test runs one schedule and usually sees nothing even when a race is there.", "anchors": ["private_join_and_compute/server_impl.cc PrivateIntersectionSumProtocolServerImpl::Handle", "private_join_and_compute/server_impl.cc PrivateIntersectionSumProtocolServerImpl::EncryptSet", "private_join_and_compute/server_impl.cc PrivateIntersectionSumProtocolServerImpl::ComputeIntersection", "private_join_and_compute/server.cc RunServer", "private_join_and_compute/private_join_and_compute_rpc_impl.cc PrivateJoinAndComputeRpcImpl::Handle", "private_join_and_compute/crypto/context.h Context"]}
{"id": "C99", "title": "The requester of oblivious signatures learns the signatures and nothing else", "statement": "Take the issuer's response to an honestly made request for signatures on messages where the signatures are defined. The response and its proof, over all draws of the issuer, are distributed almost like a response computed from the public parameters, the masks the requester chose, the signatures themselves and the hash answer: whatever test is applied, the share of draws for which it succeeds differs by at most (2 m + l + u) 2^-s for m messages and l ciphertext slots, where the Pedersen modulus is at most u times the Camenisch-Shoup modulus, plus the distance of the opening from whole periods of h. Hence two issuers with different signing keys, asked for different messages with the same masks, cannot be told apart by responses that give the same signatures.", "quantifier": "all curves satisfying the laws, systems whose bases are powers of h, signing keys, honest requests, messages and nonces with defined signatures, hash answers and tests; exact counts over all draws of the opening and the masks together", "why_tests_cant": "A test can extract and check the signatures; that nothing else is in the response is a statement about all draws and every possible observer.", "anchors": ["private_join_and_compute/crypto/dodis_yampolskiy_prf/bb_oblivious_signature.cc BbObliviousSignature::GenerateResponseAndProof", "private_join_and_compute/crypto/dodis_yampolskiy_prf/bb_oblivious_signature.cc BbObliviousSignature::ExtractResults", "private_join_and_compute/crypto/pedersen_over_zn.cc PedersenOverZn::Commit"]}
{"id": "C100", "title": "Encrypting with the private Paillier key is exactly as random as encrypting with the public key", "statement": "The private-key encryptions draw one exponent for each prime instead of one random number modulo n. Counted over these draws, any test succeeds on PrivatePaillier::Encrypt, or on the ciphertext and random number returned by PrivatePaillierWithRand::EncryptAndGetRand, exactly as often as on PublicPaillier::EncryptWithRand over all random numbers below n that are coprime to n. Each such number is reported for exactly one pair of draws.", "quantifier": "all pairs of safe primes, s, messages, tests on the result; exact counts over all draws", "why_tests_cant": "Needs that the searched generators have full order and that the remainder reconstruction is a bijection; a test sees single draws.", "anchors": ["private_join_and_compute/crypto/paillier.cc PrivatePaillier::Encrypt", "private_join_and_compute/crypto/paillier.cc PrivatePaillierWithRand::EncryptAndGetRand", "private_join_and_compute/crypto/paillier.cc GetGeneratorOfPrimePowersFromSafePrime", "private_join_and_compute/crypto/paillier.cc PublicPaillier::EncryptWithRand"]}
{"id": "C101", "title": "Threads that start at the same time set the library up once and are kept apart by its locks", "statement": "With a cryptographic library that needs set-up (one other than BoringSSL), the set-up done on behalf of the first Context runs exactly once, however many threads construct Contexts at the same time, and is complete before any of those constructors returns. From then on two threads are never inside library code that one lock guards, unlocking is always legal, and the threads cannot block each other for good.", "quantifier": "every number of threads, every sequence of constructions and library calls of each, and every schedule", "why_tests_cant": "A test runs a few threads under the schedules the machine happens to produce; a race in set-up needs a particular interleaving of the first calls.", "anchors": ["private_join_and_compute/crypto/openssl_init.cc OpenSSLInit", "private_join_and_compute/crypto/openssl_init.cc CryptoLockingCallback", "private_join_and_compute/crypto/context.cc Context::Context"]}
{"id": "C102", "title": "How much a sharding writer collects before it writes a shard", "statement": "If all calls of a session of a sharding writer succeed, its shards are the records in the order written, cut into groups, each sorted: a group takes records until it holds more than max_bytes bytes, and the next record starts a new group. So a shard, and what the writer holds in memory at any moment, is above max_bytes by at most one record.", "quantifier": "every key function, every max_bytes, every earlier history of the writer, every session, every list of records, every fault pattern that leaves all calls successful", "why_tests_cant": "The sizes depend on the whole sequence of records; a test writes a few records with one limit, and no test can reach the sizes at which a 32-bit count wraps", "anchors": ["private_join_and_compute/util/recordio.h ShardingWriter::Get", "private_join_and_compute/util/recordio.cc ShardingWriterImpl::Write", "private_join_and_compute/util/recordio.cc ShardingWriterImpl::WriteCacheToFile"]}
{"id": "C103", "title": "Which files the Close of a sharding writer names", "statement": "A Close of a sharding writer that returns OK names the files it created since the Close before it, in the order created, and every file whose content has changed since then is among them, whatever prefixes were set, whatever was written and whatever failed in between.", "quantifier": "every key function, every max_bytes, every history of the writer, every fault pattern", "why_tests_cant": "The list is collected over all calls since the last Close; tests set one prefix per session and inject single failures", "anchors": ["private_join_and_compute/util/recordio.h ShardingWriter::Close", "private_join_and_compute/util/recordio.cc ShardingWriterImpl::Close", "private_join_and_compute/util/recordio.cc ShardingWriterImpl::TryClose", "private_join_and_compute/util/recordio.cc ShardingWriterImpl::WriteCacheToFile"]}
{"id": "C104", "title": "A shard merger used for several merges", "statement": "A shard merger may be used for any number of merges while they succeed: each that returns OK found every shard and read it to its end, leaves a file of all their records, sorted if the shards are, and changes no other file; and it does return OK if nothing fails. After a merge of some shards that returned an error, every later merge with the same object returns an error; one with shards changes no file.", "quantifier": "every history of merges on one object, every state of the files before each of them, every missing or unopenable shard, unopenable output, failed write and damaged shard, every resolution of equal keys", "why_tests_cant": "The outcome of a merge depends on what earlier calls left in the object; tests use a new merger for every merge", "anchors": ["private_join_and_compute/util/recordio.h ShardMerger", "private_join_and_compute/util/recordio.cc ShardMerger::Merge", "private_join_and_compute/util/recordio.cc MultiSortedReaderImpl::Open", "private_join_and_compute/util/recordio.cc MultiSortedReaderImpl::Close", "private_join_and_compute/util/file_posix.cc PosixFile::Open"]}
{"id": "C105", "title": "A record file is mapped whatever wrote it, and never if it is damaged", "statement": "ProcessRecordFile maps every input file that can be read to its end, also one whose length headers no writer of this library would make: the output is the sorted file of the results, the shards are gone and no other file has changed. If the input ends inside a record or inside a header, or has a header longer than five bytes, the call does not return OK: it reports the damage or an error of the function on a record before it, and the output file and all files not named like a shard are as before. So it returns OK exactly if the file can be read to its end and the function succeeds on all of its records. On a device that may fail anywhere, an OK still means all of this. (That a failing call also removes the shards it has written is false.)", "quantifier": "every content of the input file, every function, key, order, chunk size, number of threads and shard size", "why_tests_cant": "tests map files they have just written; truncated files and headers in longer forms at every position of every chunk are too many to try", "anchors": ["private_join_and_compute/util/process_record_file_util.h ProcessRecordFile", "private_join_and_compute/util/recordio.cc RecordReaderImpl::Read"]}
