{"id": "C01", "title": "Bloom filter has no false negatives", "statement": "After any sequence of Insert/vector-Insert/Contain calls on a BloomFilter, Contain(x) returns true for every x inserted since the last Clear (or construction), also when the per-hash bit writes of parallel insertions are interleaved in any order.", "quantifier": "every filter capacity and statistical parameter with a non-empty table, every hash function, every operation history, every interleaving of the atomic bit-set steps", "why_tests_cant": "the space of histories and interleavings is infinite; a test only samples some keys and one schedule", "anchors": ["filter/bloom_filter.hpp: PlainInsert, PlainContain, Insert, Contain, Clear"]}
{"id": "C02", "title": "Bloom filter serialization round-trips", "statement": "Writing a Bloom filter to a buffer/file with WriteObject and reading it into a freshly constructed object with ReadObject gives a filter that answers every Contain query exactly as the original did, and exactly ObjectSize() bytes are written.", "quantifier": "every reachable filter state", "why_tests_cant": "needs every table content and every query", "anchors": ["filter/bloom_filter.hpp: WriteObject, ReadObject, ObjectSize"]}
{"id": "C03", "title": "Bloom filter answers exactly the bit-set specification", "statement": "Contain(x) is true iff all of x's probe bits have been set by inserted elements; a cleared or fresh filter contains nothing; inserting never turns a positive answer negative.", "quantifier": "every history and every query", "why_tests_cant": "quantifies over all histories and hash functions", "anchors": ["filter/bloom_filter.hpp: PlainInsert, PlainContain, Clear"]}
{"id": "C04", "title": "Cuckoo filter without deletions has no false negatives", "statement": "If only Insert/Contain calls are made, every element whose Insert returned true is reported by every later Contain, whatever random eviction choices were made and also when the victim slot is in use.", "quantifier": "every power-of-two bucket count, hash functions, random choices, insert histories", "why_tests_cant": "long random eviction chains and victim-slot states are practically never exercised by tests", "anchors": ["filter/cuckoo_filter.hpp: PlainInsert, PlainContain, InsertTagToBucket, FindTagInBucket"]}
{"id": "C05", "title": "Cuckoo filter deletion only removes the deleted element", "statement": "Deleting an inserted element x never makes Contain return false for another element y that was inserted and not deleted.", "quantifier": "every history of inserts and deletes", "why_tests_cant": "depends on fingerprint collisions that random tests do not hit", "anchors": ["filter/cuckoo_filter.hpp: PlainDelete, DeleteTagFromBucket, TrySaveVictim"]}
{"id": "C06", "title": "Cuckoo filter alternate bucket is an involution inside the table", "statement": "For every bucket index and fingerprint the alternate bucket is inside the table and its alternate is the original bucket, for every capacity the constructor computes.", "quantifier": "all 32-bit indices/tags and all constructor capacities", "why_tests_cant": "2^48 combinations per table size", "anchors": ["filter/cuckoo_filter.hpp: ComputeAnotherBucketIndex, CuckooFilter", "utility/bit_operation.hpp: upperpower2"]}
{"id": "C07", "title": "Cuckoo filter serialization round-trips", "statement": "WriteObject to a buffer followed by ReadObject reproduces the filter (same answers, same victim state).", "quantifier": "every reachable filter state", "why_tests_cant": "states with a used victim are not produced by the unit tests", "anchors": ["filter/cuckoo_filter.hpp: WriteObject, ReadObject, ObjectSize"]}
{"id": "C08", "title": "Cuckoo filter lookup of EC points is deterministic", "statement": "Insert(ECPoint A) followed by Contain(A) returns true independently of memory contents not determined by A.", "quantifier": "every point and every content of uninitialised stack memory", "why_tests_cant": "tests run with one accidental stack content", "anchors": ["filter/cuckoo_filter.hpp: Insert(ECPoint), Contain(ECPoint)"]}
{"id": "C09", "title": "Power-of-two helpers", "statement": "upperpower2(x) is the least power of two >= x for every 1<=x<=2^31, and IsPowerOfTwo(x) holds iff x is a power of two; the excluded inputs give 0.", "quantifier": "all 32/64-bit inputs", "why_tests_cant": "exhaustive testing of all inputs is not done and intended spec needs the quantifier", "anchors": ["utility/bit_operation.hpp: upperpower2", "utility/routines.hpp: IsPowerOfTwo"]}
{"id": "C10", "title": "Bit-matrix transposition is exact", "statement": "For every supported shape, BitMatrixTranspose writes the transposed matrix: output bit (j,i) equals input bit (i,j), so transposing twice is the identity; shapes outside the supported set are the ones with undefined behaviour.", "quantifier": "all row/column counts that are multiples the code admits and all matrix contents", "why_tests_cant": "unbounded shapes and contents", "anchors": ["crypto/block.hpp: BitMatrixTranspose"]}
{"id": "C11", "title": "Block comparator is a strict total order and set difference is exact", "statement": "The block comparison used for sorting is irreflexive, transitive and total on distinct blocks, and ComputeSetDifference(A,B) returns exactly the elements of A not in B.", "quantifier": "all pairs/triples of 128-bit blocks, all finite vectors", "why_tests_cant": "2^384 triples", "anchors": ["crypto/block.hpp: IsLessThan, BlockCompare, ComputeSetDifference"]}
{"id": "C12", "title": "Block bit accessors change exactly one bit", "statement": "SetBit(a,i) sets bit i and keeps all others; ClearBit(a,i) clears bit i and keeps all others.", "quantifier": "all blocks and positions", "why_tests_cant": "2^128 blocks", "anchors": ["crypto/block.hpp: SetBit, ClearBit, GenMaskBlock"]}
{"id": "C13", "title": "AES decryption inverts encryption", "statement": "With the derived decryption key, Dec(Enc(b))=b for single blocks, ECB vectors and CBC vectors of any length, and the pipelined FastECBEnc produces the same ciphertexts as ECBEnc.", "quantifier": "all keys, all blocks, all vector lengths", "why_tests_cant": "2^256 key/block pairs and unbounded lengths", "anchors": ["crypto/aes.hpp: GenEncKey, DeriveDecKeyFromEncKey, Enc, Dec, ECBEnc, ECBDec, FastECBEnc, CBCEnc, CBCDec"]}
{"id": "C14", "title": "PRG streams are deterministic, splittable and non-repeating", "statement": "Two seeds set from the same key yield the same stream; drawing n blocks and then m blocks yields the same data as drawing n+m blocks; no two blocks of one stream coincide within the counter period; GenRandomBytes(LEN) returns LEN bytes that are a prefix of the block stream.", "quantifier": "all keys, ids, lengths and split points", "why_tests_cant": "unbounded lengths and split points; batches of 8 create boundary cases", "anchors": ["crypto/prg.hpp: SetSeed, GenRandomBlocks, GenRandomBytes, GenRandomBits, GenRandomBitMatrix"]}
{"id": "C15", "title": "One-time-pad helpers round-trip", "statement": "OTP decryption with the same key recovers the plaintext for byte vectors of every length.", "quantifier": "all keys and plaintexts of all lengths", "why_tests_cant": "unbounded lengths", "anchors": ["crypto/otp.hpp: XOR, Enc, Dec"]}
{"id": "C16", "title": "Primitive serialization round-trips", "statement": "Reading back what was written recovers integers, strings, blocks and containers (the reader having pre-sized vectors), also when several objects are concatenated in one stream.", "quantifier": "all values and all concatenations", "why_tests_cant": "unbounded data", "anchors": ["utility/serialization.hpp", "crypto/block.hpp: serialization"]}
{"id": "C17", "title": "BigInt serialization round-trips", "statement": "Writing a BigInt to a stream or byte vector and reading it back gives the same number.", "quantifier": "all integers the type can hold", "why_tests_cant": "tests use random residues; negative and too large numbers are excluded", "anchors": ["crypto/bigint.hpp: operator<<, operator>>, ToByteVector, FromByteVector, ToByteString, FromByteString"]}
{"id": "C18", "title": "Polynomial multiplication agrees with evaluation", "statement": "Evaluating PolyMul(A,B) at x equals the product of the evaluations of A and B modulo the group order, also for products of any number of polynomials.", "quantifier": "all polynomials, all points", "why_tests_cant": "unbounded degree and coefficients", "anchors": ["utility/polymul.hpp: PolyMul, EvalPoly"]}
{"id": "C19", "title": "The CBC-AES hash depends only on the input bytes", "statement": "CBCAES hashing of an input of a given length depends only on those bytes of input.", "quantifier": "all inputs and all memory following the input buffer", "why_tests_cant": "a test reads whatever follows the buffer in that run", "anchors": ["crypto/hash.hpp: CBCAES"]}
{"id": "C20", "title": "Modular BigInt helpers satisfy their algebraic laws", "statement": "ModNegate returns the canonical negation in [0,m), Mod is in [0,m), ModInverse is an inverse for units, vector helpers (inner product, Hadamard, scalar, power vector) are the pointwise operations modulo the order.", "quantifier": "all integers, moduli and vector lengths", "why_tests_cant": "unbounded integers; the edge at multiples of m is missed by random tests", "anchors": ["crypto/bigint.hpp: ModNegate, Mod, ModInverse, BigIntVector*"]}
{"id": "C21", "title": "Twisted ElGamal decryption is correct", "statement": "Dec(sk, Enc(pk,m;r)) = m for every key pair with invertible secret key, every randomness and every message in the configured message space, for every interleaving of the parallel discrete-log search.", "quantifier": "all keys, randomness, messages in range, table parameters and schedules", "why_tests_cant": "message space 2^32 times keys times schedules", "anchors": ["pke/twisted_exponential_elgamal.hpp: KeyGen, Enc, Dec, DecECPoint", "pke/calculate_dlog.hpp"]}
{"id": "C22", "title": "Twisted ElGamal is homomorphic, re-randomizable and re-encryptable", "statement": "HomoAdd/HomoSub/ScalarMul of ciphertexts decrypt to the sum/difference/multiple; ReRand and ReEnc produce a ciphertext of the same message; ReEnc's result equals a fresh encryption with the given randomness.", "quantifier": "all ciphertexts, scalars, keys", "why_tests_cant": "infinite family of algebraic identities", "anchors": ["pke/twisted_exponential_elgamal.hpp: HomoAdd, HomoSub, ScalarMul, ReRand, ReEnc"]}
{"id": "C23", "title": "Multi-recipient twisted ElGamal gives every recipient the same message", "statement": "Every recipient i decrypts (X_i, Y) of a multi-recipient ciphertext to the encrypted message, for any number of recipients.", "quantifier": "any number of recipients, all keys/randomness/messages", "why_tests_cant": "unbounded number of recipients", "anchors": ["pke/twisted_exponential_elgamal.hpp: Enc(vector), MRCT", "pke/exponential_elgamal.hpp: Enc(vector)"]}
{"id": "C24", "title": "Exponential ElGamal correctness and homomorphism", "statement": "Decryption, homomorphic operations, ReRand and ReEnc of standard exponential ElGamal preserve the plaintext as specified.", "quantifier": "all keys, randomness, messages and ciphertexts", "why_tests_cant": "infinite input space", "anchors": ["pke/exponential_elgamal.hpp: Enc, Dec, ReEnc, ReRand, HomoAdd, HomoSub, ScalarMul"]}
{"id": "C25", "title": "ElGamal correctness (EC and X25519 variants)", "statement": "Dec(Enc(m))=m and Dec(ReRand(Enc(m)))=m for the EC variant; Dec(Enc(m))=m for the X25519 variant; CT<->bytes conversions round-trip.", "quantifier": "all keys, randomness and messages", "why_tests_cant": "infinite input space", "anchors": ["pke/elgamal.hpp"]}
{"id": "C26", "title": "X25519 ElGamal keys are fresh", "statement": "Key generation and encryption of the X25519 ElGamal variant use fresh randomness: two runs are not forced to produce the same secret key and ephemeral randomness.", "quantifier": "all executions", "why_tests_cant": "a functional test passes with constant keys", "anchors": ["pke/elgamal.hpp: KeyGen, Enc"]}
{"id": "C27", "title": "Discrete-log search is sound and complete", "statement": "ShanksDLOG on g^x returns x for every x in the search range, and whenever it reports success the returned exponent is a discrete log, for every table trade-off, every interleaving of the worker tasks and every early exit.", "quantifier": "all ranges, trade-offs, targets and schedules", "why_tests_cant": "2^32 targets times schedules", "anchors": ["pke/calculate_dlog.hpp: BuildSaveTable, LoadTable, SearchSlicedRange, ShanksDLOG"]}
{"id": "C28", "title": "Loading a table replaces the previous table", "statement": "After LoadTable of a second table, discrete-log answers depend only on the second table.", "quantifier": "every sequence of table loads", "why_tests_cant": "tests load a single table per process", "anchors": ["pke/calculate_dlog.hpp: LoadTable"]}
{"id": "C29", "title": "Schnorr signatures verify and bind to the key", "statement": "Every signature produced with sk verifies under g^sk for the same message, and two accepting answers for the same commitment and different challenges reveal the secret key.", "quantifier": "all keys, messages, randomness and hash functions", "why_tests_cant": "infinite space; soundness is a universally quantified statement", "anchors": ["signature/schnorr.hpp: Sign, Verify"]}
{"id": "C30", "title": "Pedersen commitments open correctly, are homomorphic and binding", "statement": "Commit is additively homomorphic, perfectly hiding (every message vector is consistent with every commitment), and two different openings of one commitment yield a non-trivial discrete-log relation between the bases.", "quantifier": "all vectors of any length", "why_tests_cant": "unbounded vectors", "anchors": ["commitment/pedersen.hpp: Commit"]}
{"id": "C31", "title": "Proof of discrete-log knowledge: completeness and special soundness", "statement": "Honest proofs verify; two accepting proofs with equal commitment and different challenges yield the witness.", "quantifier": "all statements, witnesses, randomness, transcripts, hash functions", "why_tests_cant": "infinite space", "anchors": ["zkp/nizk/nizk_dlog_knowledge.hpp: Prove, Verify"]}
{"id": "C32", "title": "Proof of discrete-log equality: completeness and special soundness", "statement": "Honest proofs verify; two accepting proofs with equal commitments and different challenges yield one witness for both discrete logs.", "quantifier": "all statements, witnesses, randomness, transcripts, hash functions", "why_tests_cant": "infinite space", "anchors": ["zkp/nizk/nizk_dlog_equality.hpp: Prove, Verify"]}
{"id": "C33", "title": "Proof of plaintext knowledge: completeness and special soundness", "statement": "Honest proofs verify; two accepting proofs with equal commitments and different challenges yield message and randomness of the ciphertext.", "quantifier": "all keys, ciphertexts, randomness, transcripts, hash functions", "why_tests_cant": "infinite space", "anchors": ["zkp/nizk/nizk_plaintext_knowledge.hpp: Prove, Verify"]}
{"id": "C34", "title": "Proof of plaintext equality: completeness and special soundness", "statement": "Honest proofs verify for any number of recipients; two accepting proofs with equal commitments and different challenges yield common randomness and message.", "quantifier": "any number of recipients", "why_tests_cant": "unbounded number of recipients", "anchors": ["zkp/nizk/nizk_plaintext_equality.hpp: Prove, Verify"]}
{"id": "C35", "title": "Plaintext-equality proof encoding binds the whole proof", "statement": "ProofToByteString of two different plaintext-equality proofs differ.", "quantifier": "all pairs of proofs", "why_tests_cant": "requires a colliding pair", "anchors": ["zkp/nizk/nizk_plaintext_equality.hpp: ProofToByteString"]}
{"id": "C36", "title": "One-out-of-many encryption proof is complete", "statement": "For every ring size N = n^m and every index l, a prover who knows the randomness of the l-th ciphertext being an encryption of zero produces a proof that Verify accepts.", "quantifier": "all n, m, indices, randomness and hash functions", "why_tests_cant": "unbounded dimensions", "anchors": ["zkp/nizk/nizk_enc_relation.hpp: Prove, Verify, Decompose"]}
{"id": "C37", "title": "One-out-of-many encryption proof is sound", "statement": "No proof is accepted for a list in which no ciphertext encrypts zero, except by breaking the hash function.", "quantifier": "all statements and all hash functions", "why_tests_cant": "no test can rule out a forging strategy", "anchors": ["zkp/nizk/nizk_enc_relation.hpp: Verify"]}
{"id": "C38", "title": "Accountable ring signatures: completeness, opening and justification", "statement": "A signature made with the secret key of a ring member verifies; Open returns the signer's key; Justify accepts the opening.", "quantifier": "all ring sizes that are powers of two, members, messages, randomness, hash functions", "why_tests_cant": "unbounded rings", "anchors": ["signature/accountable_ring_sig.hpp: Sign, Verify, Open, Justify"]}
{"id": "C39", "title": "Accountable ring signatures are unforgeable and non-frameable", "statement": "Nobody without the secret key of ring member l can produce an accepted signature that Open attributes to member l.", "quantifier": "all adversarial strategies, rings, messages and hash functions", "why_tests_cant": "no test can rule out a forging strategy", "anchors": ["signature/accountable_ring_sig.hpp: Verify, Open"]}
{"id": "C40", "title": "Inner-product argument is complete and both verifiers agree", "statement": "For every power-of-two length, the honest argument is accepted by Verify and by FastVerify, and the two verifiers accept exactly the same proofs.", "quantifier": "all lengths 2^k, vectors, hash functions", "why_tests_cant": "unbounded recursion depth", "anchors": ["zkp/bulletproofs/innerproduct_proof.hpp: Prove, Verify, FastVerify, ComputeVectorSS, FastComputeVectorSS"]}
{"id": "C41", "title": "Aggregated Bulletproof range proof is complete", "statement": "For every vector of values in [0,2^n), with n times the number of values a power of two, an honest proof is accepted by Verify and FastVerify; a value outside the range is rejected when honestly generated; other aggregate lengths terminate the program.", "quantifier": "all aggregation sizes, bit lengths, values, randomness, hash functions", "why_tests_cant": "unbounded parameters", "anchors": ["zkp/bulletproofs/bullet_proof.hpp: Prove, Verify, FastVerify"]}
{"id": "C42", "title": "Bulletproof fast verification agrees with verification", "statement": "Every proof accepted by Verify is accepted by FastVerify for every random combiner; a proof accepted by FastVerify for two different combiners is accepted by Verify.", "quantifier": "all proofs, statements, combiners", "why_tests_cant": "quantifies over adversarial proofs", "anchors": ["zkp/bulletproofs/bullet_proof.hpp: Verify, FastVerify"]}
{"id": "C43", "title": "Bulletproof range proofs bind the commitments", "statement": "No one can produce an accepted range proof together with a commitment whose (known) opening is outside the range.", "quantifier": "all adversarial strategies and hash functions", "why_tests_cant": "no test can rule out a forging strategy", "anchors": ["zkp/bulletproofs/bullet_proof.hpp: Prove, Verify"]}
{"id": "C44", "title": "Gadget range proofs accept exactly in-range openings when honestly generated", "statement": "For every value in [LEFT,RIGHT) with 0<=LEFT and RIGHT<=2^n (n a power of two), the two gadget provers (known randomness / known secret key) produce proofs their verifiers accept; values outside [LEFT,RIGHT) yield rejected proofs, and a refreshed ciphertext cannot be switched to another message.", "quantifier": "all bounds, values, keys, randomness", "why_tests_cant": "all bounds and values", "anchors": ["gadget/range_proof.hpp: AdjustBulletInstance, AdjustBulletWitness, Prove, Verify, CheckRange"]}
{"id": "C45", "title": "Honestly created confidential transactions verify", "statement": "CreateCTx by an account with sufficient balance for a transfer amount in range yields a transaction accepted by VerifyCTx (one-to-one and one-to-many).", "quantifier": "all balances, amounts, keys, randomness, numbers of receivers", "why_tests_cant": "infinite space", "anchors": ["adcp/adcp.hpp: ToOneCTx::CreateCTx, VerifyCTx, ToManyCTx::CreateCTx, VerifyCTx"]}
{"id": "C46", "title": "Confidential transactions conserve the total balance", "statement": "Applying any sequence of verified honest transactions leaves the sum of decrypted balances unchanged and each balance encryption stays consistent with the account's plaintext balance.", "quantifier": "all histories of transactions among any number of accounts", "why_tests_cant": "unbounded histories", "anchors": ["adcp/adcp.hpp: UpdateAccount, Miner"]}
{"id": "C47", "title": "A transaction cannot be replayed", "statement": "After Miner has accepted a transaction, submitting the same transaction again is rejected.", "quantifier": "all accepted transactions and all later states", "why_tests_cant": "tests submit each transaction once", "anchors": ["adcp/adcp.hpp: Miner, UpdateAccount"]}
{"id": "C48", "title": "Transactions survive SaveCTx/FetchCTx", "statement": "FetchCTx of a saved transaction returns the same transaction.", "quantifier": "all transactions", "why_tests_cant": "round-trip must hold for all field values", "anchors": ["adcp/adcp.hpp: SaveCTx, FetchCTx"]}
{"id": "C49", "title": "The supervisor recovers the transferred amount", "statement": "SuperviseCTx on every accepted (honestly created) transaction returns the transferred amount(s).", "quantifier": "all amounts, keys, randomness", "why_tests_cant": "infinite space", "anchors": ["adcp/adcp.hpp: SuperviseCTx"]}
{"id": "C50", "title": "Policy proofs are complete", "statement": "Honest open/rate/limit policy justifications are accepted by the corresponding audits when the policy holds.", "quantifier": "all transaction sets and policies", "why_tests_cant": "unbounded sets", "anchors": ["adcp/adcp.hpp: JustifyPolicy, AuditPolicy"]}
{"id": "C51", "title": "A one-to-many transaction credits every receiver it debits for", "statement": "If Miner accepts a one-to-many transaction, then what the sender is debited equals what receivers are credited.", "quantifier": "all accepted transactions and all receiver account lists", "why_tests_cant": "tests pass the full receiver list", "anchors": ["adcp/adcp.hpp: ToManyCTx::Miner, UpdateAccount"]}
{"id": "C52", "title": "Channel framing preserves messages", "statement": "For any interleaving of partial reads/writes, the receiver obtains exactly the sent objects in order when using the matching Receive calls with the same lengths.", "quantifier": "all message sequences and all fragmentations", "why_tests_cant": "unbounded fragmentations", "anchors": ["netio/stream_channel.hpp: SendDataInternal, ReceiveDataInternal, SendBytes, SendECPoints, SendBytesVector, SendStringVector"]}
{"id": "C53", "title": "Naor-Pinkas OT is correct", "statement": "For every selection bit vector the receiver obtains exactly the selected messages.", "quantifier": "all lengths, messages, bits, randomness", "why_tests_cant": "unbounded lengths", "anchors": ["mpc/ot/naor_pinkas_ot.hpp: Send, Receive"]}
{"id": "C54", "title": "IKNP OT extension is correct", "statement": "The receiver obtains exactly the chosen messages (standard, random and one-sided variants) for every length the parameter check admits.", "quantifier": "all admitted lengths, messages and bits", "why_tests_cant": "unbounded lengths", "anchors": ["mpc/ot/iknp_ote.hpp: RandomSend, RandomReceive, Send, Receive, OnesidedSend, OnesidedReceive"]}
{"id": "C55", "title": "ALSZ OT extension is correct", "statement": "Same as for IKNP, for block and byte-vector messages.", "quantifier": "all admitted lengths, messages and bits", "why_tests_cant": "unbounded lengths", "anchors": ["mpc/ot/alsz_ote.hpp"]}
{"id": "C56", "title": "DDH-OPRF: client output equals server evaluation", "statement": "For every input vector, the client's outputs equal Evaluate(k, x) (up to the permutation the server returns in the permuted variant).", "quantifier": "all inputs, keys, masks", "why_tests_cant": "unbounded", "anchors": ["mpc/oprf/ddh_oprf.hpp: Server, Client, Evaluate"]}
{"id": "C57", "title": "OT-extension OPRF: client output equals server evaluation", "statement": "The client's output on each of its inputs equals the server's Evaluate on that input, for every later call of Evaluate.", "quantifier": "all input sets, seeds and call sequences", "why_tests_cant": "depends on internal stream state across calls", "anchors": ["mpc/oprf/ote_oprf.hpp: Server, Client, Evaluate"]}
{"id": "C58", "title": "VOLE-OPRF: client output equals server evaluation", "statement": "The client's output on each of its inputs equals the server's Evaluate on that input.", "quantifier": "all input sets, VOLE correlations, OKVS encodings", "why_tests_cant": "unbounded", "anchors": ["mpc/oprf/vole_oprf.hpp: Server, Client, Evaluate"]}
{"id": "C59", "title": "mqRPMT answers membership of every queried item", "statement": "The server's indication bit for client item x_i is 1 whenever x_i is in the server set, and when it is not, the bit is 0 unless the PRF collides or the Bloom filter has a false positive.", "quantifier": "all sets, keys and permutations", "why_tests_cant": "unbounded sets", "anchors": ["mpc/rpmt/cwprf_mqrpmt.hpp: Server, Client"]}
{"id": "C60", "title": "PSI / cardinality / union protocols compute the set operation", "statement": "The receiver's output of the mqRPMT-based PSI is exactly X\u2229Y, of PSI-card |X\u2229Y|, of PSU X\u222aY, given correct indication bits.", "quantifier": "all sets", "why_tests_cant": "unbounded sets", "anchors": ["mpc/pso/mqrpmt_psi.hpp", "mpc/pso/mqrpmt_psi_card.hpp", "mpc/pso/mqrpmt_psu.hpp"]}
{"id": "C61", "title": "PSI-card-sum returns the intersection sum", "statement": "The sum returned equals the sum of the values attached to items in the intersection modulo the sum bound, for all set sizes.", "quantifier": "all set sizes and values", "why_tests_cant": "tests use equal set sizes", "anchors": ["mpc/pso/mqrpmt_psi_card_sum.hpp: Send, Receive"]}
{"id": "C62", "title": "Private-ID assigns equal identifiers exactly to equal items", "statement": "Both parties' identifiers agree on common items, and the union contains all identifiers of both parties.", "quantifier": "all sets", "why_tests_cant": "unbounded sets", "anchors": ["mpc/pso/mqrpmt_private_id.hpp: Send, Receive"]}
{"id": "C63", "title": "cwPRF-PSI outputs the intersection", "statement": "The receiver's output contains every common item, contains only its own items, in its own order, and any extra item implies a truncated-PRF collision.", "quantifier": "all sets, keys, statistical parameters", "why_tests_cant": "unbounded sets", "anchors": ["mpc/psi/cwprf_psi.hpp: Send, Receive"]}
{"id": "C64", "title": "Private equality test grid is correct up to the returned permutation", "statement": "The bit reported at the permuted position of (i,j) is 1 iff the items at (i,j) are equal (given an injective hash-to-group).", "quantifier": "all grid shapes, items, permutations", "why_tests_cant": "unbounded grids", "anchors": ["mpc/peqt/peqt_from_ddh.hpp: Send, Receive"]}
{"id": "C65", "title": "Precomputed division is exact", "statement": "For every non-zero 64-bit divisor d and every 64-bit n, dividing with the precomputed multiplier yields floor(n/d), and the 32-lane modular reduction yields n mod d.", "quantifier": "all 2^128 pairs", "why_tests_cant": "2^128 pairs", "anchors": ["mpc/okvs/okvs_utility.hpp: gen_divider, divide_u64_do, doMod32"]}
{"id": "C66", "title": "OKVS rows have distinct in-range columns", "statement": "For every hashed key and every sparse size >= weight, the sparse positions computed for a key are pairwise distinct and below sparse_size, in the scalar and in the 32-way code path, which agree.", "quantifier": "all keys, sizes, weights", "why_tests_cant": "2^128 keys", "anchors": ["mpc/okvs/paxos.hpp: set_sparse_1, set_sparse_32"]}
{"id": "C67", "title": "OKVS decode inverts encode", "statement": "After a successful encode of key/value pairs with distinct keys, decode(k_i) = v_i for every pair, with or without randomisation of free columns, and the batched decode agrees with the scalar decode.", "quantifier": "all key/value sets, sizes, random tapes", "why_tests_cant": "unbounded sets; rare gap rows", "anchors": ["mpc/okvs/paxos.hpp: set_keys, encode, decode, triangulate, backfill_binary, backfill_gf128"]}
{"id": "C68", "title": "Encoding twice with the same OKVS object", "statement": "Calling encode again on the same OKVS object with other values again yields a correct encoding.", "quantifier": "all values and key sets, including those with gap rows", "why_tests_cant": "gap rows are rare", "anchors": ["mpc/okvs/paxos.hpp: encode, backfill_binary"]}
{"id": "C69", "title": "Matrix inversion helpers are exact", "statement": "check_invert / check_invert_gf128 return true iff the matrix is invertible and then replace it by its inverse.", "quantifier": "all square matrices of any size", "why_tests_cant": "unbounded matrices", "anchors": ["mpc/okvs/okvs_utility.hpp: check_invert, check_invert_gf128"]}
{"id": "C70", "title": "GF(2^128) multiplication is the field multiplication", "statement": "gf128_mul is multiplication modulo x^128+x^7+x^2+x+1: commutative, associative, distributive over xor, with unit 1; gf128_inv(x) multiplied by x is 1 for x != 0.", "quantifier": "all pairs/triples of blocks", "why_tests_cant": "2^384 triples", "anchors": ["mpc/okvs/okvs_utility.hpp: gf128_mul, gf128_inv", "mpc/vole/basevole.hpp: gf128_mul"]}
{"id": "C71", "title": "Combination enumeration is complete", "statement": "Iterating prev_combination from (0,..,k-1) visits every k-subset of {0..n-1} once, in lexicographic order, and then reports the end.", "quantifier": "all n, k", "why_tests_cant": "unbounded n,k", "anchors": ["mpc/okvs/okvs_utility.hpp: prev_combination"]}
{"id": "C72", "title": "Binned OKVS decode inverts solve", "statement": "Baxos decode(k_i)=v_i after solve for all key sets and all thread counts; no memory outside the buffers is accessed.", "quantifier": "all key counts, bin counts and thread counts", "why_tests_cant": "tests use one thread count and large inputs", "anchors": ["mpc/okvs/baxos.hpp: solve, decode, impl_solve, impl_decode"]}
{"id": "C73", "title": "Base VOLE correlation holds", "statement": "After base VOLE the parties' outputs satisfy v + w = u * delta in GF(2^128), for every delta and u.", "quantifier": "all delta, u, OT randomness", "why_tests_cant": "2^256 inputs", "anchors": ["mpc/vole/basevole.hpp: baseVOLE_A, baseVOLE_B, gadget_innerProduct"]}
{"id": "C74", "title": "Puncturable PRF tree evaluation is correct", "statement": "For every tree depth and punctured index, PuncEval returns the same leaves as FullEval except at the punctured index where it returns the leaf shifted by the correlated difference.", "quantifier": "all depths, indices, seeds", "why_tests_cant": "unbounded depth", "anchors": ["mpc/vole/vole.hpp: FullEval, PuncEval, TransToBitVec, GGM_PRG"]}
{"id": "C75", "title": "The linear code is linear and both encoders agree", "statement": "dualEncode is linear over XOR and commutes with multiplication by a field constant; dualEncode2 on a pair equals dualEncode on each component.", "quantifier": "all vectors of all sizes", "why_tests_cant": "unbounded sizes", "anchors": ["mpc/vole/exconvcode.hpp: dualEncode, dualEncode2, accumulate, accumulate2, expand, expand2"]}
{"id": "C76", "title": "VOLE end to end", "statement": "After VOLE the outputs satisfy B = C + A*delta at every position.", "quantifier": "all lengths, seeds, delta", "why_tests_cant": "unbounded lengths", "anchors": ["mpc/vole/vole.hpp: VOLE_A, VOLE_B"]}
{"id": "C77", "title": "Hashing a block to 32 bytes is collision-free and one-way", "statement": "BlockToBytes maps distinct blocks to distinct 32-byte outputs, and the 32-byte AES-based hash it uses cannot be inverted without a secret.", "quantifier": "all blocks", "why_tests_cant": "2^256 pairs of blocks", "anchors": ["crypto/hash.hpp: BlockToBytes, Dedicated_CBCAES"]}
{"id": "C78", "title": "The AES-based block-vector hash has no computable preimages or collisions", "statement": "Given a digest, no one can compute a vector that FastBlocksToBlock maps to it, nor two vectors with equal digests.", "quantifier": "all vectors and digests", "why_tests_cant": "an attack is a computation over all inputs, not a sample", "anchors": ["crypto/hash.hpp: FastBlocksToBlock", "crypto/aes.hpp: CBCEnc, fixed_enc_key"]}
{"id": "C79", "title": "The sigma proofs reveal nothing beyond the statement", "statement": "For every challenge the proofs an honest prover of discrete-log knowledge, discrete-log equality, plaintext knowledge or plaintext equality can output are exactly the ones a simulator without the witness computes, each for exactly one value of the prover's random draws.", "quantifier": "all statements, witnesses, challenges and proofs; any number of recipients", "why_tests_cant": "equality of two distributions over the whole group", "anchors": ["zkp/nizk/nizk_dlog_knowledge.hpp: Prove", "zkp/nizk/nizk_dlog_equality.hpp: Prove", "zkp/nizk/nizk_plaintext_knowledge.hpp: Prove", "zkp/nizk/nizk_plaintext_equality.hpp: Prove"]}
{"id": "C80", "title": "The Fiat-Shamir challenge of the sigma proofs binds statement and first message", "statement": "When two runs of the same sigma protocol hash the same string, and started from transcripts of equal length, they have the same starting transcript, the same statement and the same first message.", "quantifier": "all pairs of statements, proofs and starting transcripts", "why_tests_cant": "requires a colliding pair", "anchors": ["signature/schnorr.hpp: Verify", "zkp/nizk/nizk_dlog_knowledge.hpp: Verify", "zkp/nizk/nizk_dlog_equality.hpp: Verify", "zkp/nizk/nizk_plaintext_knowledge.hpp: Verify", "zkp/nizk/nizk_plaintext_equality.hpp: Verify"]}
{"id": "C81", "title": "Encodings of sigma proofs are unambiguous", "statement": "ProofToByteString of two different proofs of discrete-log knowledge, discrete-log equality or plaintext knowledge (with non-negative answers) differ.", "quantifier": "all pairs of proofs", "why_tests_cant": "requires a colliding pair", "anchors": ["zkp/nizk/nizk_dlog_knowledge.hpp: ProofToByteString", "zkp/nizk/nizk_dlog_equality.hpp: ProofToByteString", "zkp/nizk/nizk_plaintext_knowledge.hpp: ProofToByteString"]}
{"id": "C82", "title": "The miner only accepts transactions the sender can pay", "statement": "Whatever transaction is submitted, Miner either rejects it, or accepts it when the sender's current balance covers the amount; it never stops the program.", "quantifier": "all accounts, all submitted transactions, all randomness", "why_tests_cant": "Tests submit honest transactions; a transaction built for an invented balance is not in any test.", "anchors": ["adcp/adcp.hpp:VerifyCTx", "adcp/adcp.hpp:Miner"]}
{"id": "C83", "title": "Accounts survive SaveAccount/FetchAccount", "statement": "FetchAccount of a saved account returns the same account, whatever the target held before, provided its points are finite and its numbers fit in 256 bits.", "quantifier": "all accounts, all targets, all following file contents", "why_tests_cant": "Tests save a few freshly generated accounts.", "anchors": ["adcp/adcp.hpp:SaveAccount", "adcp/adcp.hpp:FetchAccount"]}
{"id": "C84", "title": "Hashing a block to a curve point is a total function of the block, injective only per attempt", "statement": "Hashing a 128-bit block to a curve point returns the point of the first candidate coordinate the curve accepts; the result depends only on the block, two blocks accepted at the same attempt with the same sign give different points, and the point reveals nothing about the block.", "quantifier": "every block and every curve membership test", "why_tests_cant": "Tests hash a few blocks and cannot compare all pairs of 2^128 blocks nor show that the point can be inverted.", "anchors": ["crypto/hash.hpp:BlockToECPoint", "crypto/hash.hpp:ECPointToBytes"]}
{"id": "C85", "title": "The messages of mqRPMT and PSI hide the items", "statement": "What a party sends in the X25519 variants of mqRPMT and PSI does not let anyone who lacks its secret key test whether a candidate is one of its items.", "quantifier": "all item sets, all outcomes of the random device", "why_tests_cant": "A secrecy claim speaks about every candidate item and every run; tests only compare outputs.", "anchors": ["mpc/rpmt/cwprf_mqrpmt.hpp:Server", "mpc/rpmt/cwprf_mqrpmt.hpp:Client", "mpc/psi/cwprf_psi.hpp:Send", "crypto/prg.hpp:fixed_seed"]}
{"id": "C86", "title": "VOLE-OPRF: the client can evaluate the function only on its own inputs", "statement": "After an execution the client knows the function values of its own inputs and cannot compute the function elsewhere: what it holds does not determine the server's key.", "quantifier": "all input sets, keys and randomness", "why_tests_cant": "a statement about what a party could compute from its state, not about outputs", "anchors": ["mpc/oprf/vole_oprf.hpp: Client, Server, Evaluate", "mpc/okvs/baxos.hpp: solve"]}
{"id": "C87", "title": "OT-extension OPRF: the key is secret and fresh", "statement": "The server's key after an execution is fresh: executions give independent functions, and the client cannot compute the key or the function on items outside its set.", "quantifier": "all input sets and randomness of both parties", "why_tests_cant": "a statement about all executions and about what a party could compute", "anchors": ["mpc/oprf/ote_oprf.hpp: Server, Client", "crypto/prg.hpp: SetSeed"]}
{"id": "C88", "title": "rrPKE-based mqRPMT gives the server the membership bits", "statement": "After a run of the mqRPMT built from re-randomisable ElGamal and an OKVS, the server holds one bit per item of the client; the bit is 1 for every item that is in the server's set, and 0 for every item for which the OKVS yields no encryption of the server's point.", "quantifier": "all groups, server and client sets, keys, encryption and re-randomisation randomness, OKVS parameters, thread numbers and thread schedules", "why_tests_cant": "the sets, the randomness and the thread schedules are unbounded; tests sample a few runs of one size", "anchors": ["mpc/rpmt/rrpke_mqrpmt.hpp:Server", "mpc/rpmt/rrpke_mqrpmt.hpp:Client", "mpc/okvs/baxos.hpp:solve", "pke/elgamal.hpp:ReRand"]}
{"id": "C89", "title": "rrPKE-based mqRPMT hides membership from the client", "statement": "In the mqRPMT built from re-randomisable ElGamal and an OKVS the client cannot tell from what it receives which items, its own or others, are in the server's set.", "quantifier": "all server sets, keys and randomness, and every list of guesses the client tries on what it has received", "why_tests_cant": "secrecy is a statement about everything a client could compute from its view; a test only checks outputs", "anchors": ["mpc/rpmt/rrpke_mqrpmt.hpp:CTtoBlockArrayValue", "mpc/rpmt/rrpke_mqrpmt.hpp:Client"]}
{"id": "C90", "title": "Accepted inner-product arguments yield a witness", "statement": "From a tree of accepted inner-product arguments for one statement P, in which every round answers four challenges with different squares, an explicit procedure that only computes on the challenges and last messages returns either vectors a, b with P = g^a h^b u^<a,b>, or exponents, not all zero modulo the order, of a relation between the public generators.", "quantifier": "all groups, generators, statements, lengths 2^k, trees of accepted proofs (honest or not), hash functions and transcripts", "why_tests_cant": "quantifies over all provers; accepting one proof says nothing, and the recursion depth is unbounded", "anchors": ["zkp/bulletproofs/innerproduct_proof.hpp: Verify, ComputeVectorSS"]}
{"id": "C91", "title": "Accepted range proofs yield openings in the range", "statement": "From a tree of accepted range proofs for the same commitments, sharing their first messages and answering different challenges y, z, x, e and inner-product challenges, an explicit procedure on numbers returns either openings of all the commitments to values in [0,2^n), or a relation between the public generators; so whoever knows an opening outside the range has a relation between the generators.", "quantifier": "all groups, generators, commitments, bit lengths and aggregation sizes whose product is a power of two, trees of accepted proofs", "why_tests_cant": "quantifies over all dishonest provers", "anchors": ["zkp/bulletproofs/bullet_proof.hpp: Verify", "zkp/bulletproofs/innerproduct_proof.hpp: FastVerify"]}
{"id": "C92", "title": "Whoever gets one-to-one transactions accepted knows what they move", "statement": "From accepted one-to-one confidential transactions with the same keys, amount, balance and refreshed balance (two with different challenges for each of the three proofs of knowledge, and a tree of accepted range proofs) one computes numbers v, r, m, r', sk such that the transfer ciphertext is the encryption of v under the keys of sender, receiver and supervisor, the refreshed balance is an encryption of m, sk is the sender's key, the balance before the transaction decrypts to v+m, and v and m are amounts in range - or one computes a non-trivial relation between the public generators.", "quantifier": "every group, parameters, keys, ciphertexts, hash functions and accepted transactions", "why_tests_cant": "soundness speaks about every adversary and every accepted transaction; a test can only try transactions that some program creates", "anchors": ["adcp/adcp.hpp: VerifyCTx (one-to-one), CreateCTx"]}
{"id": "C93", "title": "Whoever gets one-to-many transactions accepted knows what they move", "statement": "From accepted one-to-many confidential transactions with the same content (two with different challenges for every proof of knowledge, and a tree of accepted range proofs) one computes numbers such that every receiver's ciphertext encrypts v_i under the keys of receiver and supervisor, the refreshed balance encrypts m, sk is the sender's key, the second component of the sender's ciphertext commits to the sum of the v_i, the balance before decrypts to what the sender's ciphertext decrypts to plus m (hence to the sum of the v_i plus m if the first component of the sender's ciphertext is consistent), and all v_i and m are amounts in range - or one computes a non-trivial relation between the public generators.", "quantifier": "every number of receivers, group, parameters, keys, ciphertexts, hash functions and accepted transactions", "why_tests_cant": "soundness speaks about every adversary and every accepted transaction; a test can only try transactions that some program creates", "anchors": ["adcp/adcp.hpp: VerifyCTx (one-to-many), CreateCTx"]}
{"id": "C94", "title": "The sender's proof binds every field of a transaction", "statement": "If the challenges of the sender's last proof in two transactions that are both checked to the end are hashes of the same string, the two transactions have the same serial number, keys, balance, transfer ciphertexts and refreshed balance: no field can be exchanged without a new challenge.", "quantifier": "every pair of one-to-one transactions, and every pair of one-to-many transactions with the same number of receivers, every parameters and hash function", "why_tests_cant": "an ambiguous or incomplete encoding only shows for particular pairs of field values", "anchors": ["adcp/adcp.hpp: VerifyCTx, ExtractToSignMessageFromCTx"]}
{"id": "C95", "title": "The miner and the supervisor act only on verified transactions of the named accounts", "statement": "The miner accepts a transaction only if it verifies and names the two (or more) accounts it is given; then only those accounts change, and after a one-to-many transaction the sender's serial number advances; a rejected transaction changes nothing. An audit of a user accepts only transactions in which the user takes part (opening), is receiver and sender (rate), or is the sender of all (limit).", "quantifier": "every ledger of accounts, every transaction, every random combiner", "why_tests_cant": "the update must not happen for any invalid transaction, which no finite set of bad transactions covers", "anchors": ["adcp/adcp.hpp: Miner, UpdateAccount, AuditPolicy"]}
{"id": "C96", "title": "Accepted range proofs about ciphertexts speak about the encrypted value", "statement": "From accepted range proofs for one ciphertext (two with different challenges for every proof of knowledge, and a tree of accepted range proofs) one computes the encrypted value m and its randomness, or the key with which the ciphertext decrypts to m, such that m is congruent to a number in [L, R) - or one computes a non-trivial relation between the public generators. For the supervisor's limit policy m is the sum of what the audited transactions pay.", "quantifier": "every group of order at least twice the range, keys, ciphertexts, legal L and R, lists of transactions, hash functions and accepted proofs", "why_tests_cant": "soundness speaks about every adversary and every accepted proof", "anchors": ["gadget/range_proof.hpp: Verify", "adcp/adcp.hpp: AuditPolicy (limit)"]}
{"id": "C97", "title": "Range proofs reveal nothing about which opening was used", "statement": "For any parameters whose g and h are not the point at infinity and any list of commitments, let two openings of the same commitments be given, all values within the range. Then the range prover produces the same proofs equally often from either opening: there is a one-to-one correspondence between the random draws used with the first opening and those used with the second (over all draws that lead to a non-zero challenge x) under which the whole proof, with its inner-product part and the final transcript, is identical.", "quantifier": "all groups, hash functions, parameters, numbers of commitments, commitments, pairs of in-range openings, transcripts and random draws", "why_tests_cant": "It compares whole distributions of proofs over all random draws for all witnesses; sampling proofs cannot show that no statistic distinguishes the witnesses.", "anchors": ["zkp/bulletproofs/bullet_proof.hpp:Prove", "zkp/bulletproofs/innerproduct_proof.hpp:Prove"]}
{"id": "C98", "title": "The base oblivious transfer hides the choices and ties both keys to a Diffie-Hellman value", "statement": "In Naor-Pinkas OT, whatever messages a possibly malicious sender delivers, everything the receiver sends has the same distribution for all choice vectors of the same length (over the receiver's secret scalars). Whatever points a possibly malicious receiver delivers as its keys, for every position the two points whose hashes mask the two messages add up to the Diffie-Hellman value of the sender's C and X, so nobody can know both masks without having computed that value.", "quantifier": "all groups, hash functions, base points other than infinity, choice vectors, incoming messages, messages, random scalars", "why_tests_cant": "It compares distributions over all secrets for all adversarial messages.", "anchors": ["mpc/ot/naor_pinkas_ot.hpp:Send", "mpc/ot/naor_pinkas_ot.hpp:Receive"]}
{"id": "C99", "title": "The DDH-OPRF request for one input is perfectly blinded", "statement": "For any two inputs that do not hash to the point at infinity, what the OPRF client sends for the one is distributed exactly as what it sends for the other (over the mask drawn below the order), whatever the server answers.", "quantifier": "all groups, hash-to-curve functions, pairs of inputs and incoming messages", "why_tests_cant": "It compares distributions over all masks.", "anchors": ["mpc/oprf/ddh_oprf.hpp:Client"]}
{"id": "C100", "title": "One-out-of-many proofs: accepted answers to several challenges give the position and the randomness", "statement": "If a prover, after sending one first message (the four commitments and the vector of ciphertexts), gives answers that ER Verify accepts for max(3, m+1) different challenges, then from these numbers alone one computes either a position l in the list and a scalar r such that ciphertext l is the encryption of zero with randomness r, or a non-trivial relation between the Pedersen bases. An honest prover can answer every challenge after the same first message. (This is soundness when the challenge is drawn after the whole first message; the hash in the code leaves out vec_G, see C37.)", "quantifier": "all groups, list sizes n^m with 1 <= n <= group order, ciphertext lists, keys, first messages, challenges that differ modulo the order, and answers of any form", "why_tests_cant": "Ranges over all cheating provers and all challenge tuples; a test only runs honest provers.", "anchors": ["zkp/nizk/nizk_enc_relation.hpp: Verify, Prove, Decompose"]}
{"id": "C101", "title": "Ring signatures: the signer knows the secret key of the member that Open names", "statement": "If, after one first message, signatures accepted by Verify are given for max(3, m+1) different challenges, then from these numbers one computes either a position l and a secret key sk with vk_l = g*sk, and Open with the opening key returns exactly vk_l; or a non-trivial relation between the Pedersen bases. So nobody outside the ring signs and nobody signs in another member's name, as long as the challenge covers the whole first message (the hash in the code leaves out vec_G and ct_s, see C39).", "quantifier": "all groups, rings of 2^m keys, parameters with a public opening key other than infinity, messages, first messages, challenge tuples and answers", "why_tests_cant": "Ranges over all forgers; tests can only run honest signers.", "anchors": ["signature/accountable_ring_sig.hpp: Verify, Sign, Open", "zkp/nizk/nizk_enc_relation.hpp: Verify"]}
{"id": "C102", "title": "Ring signatures do not reveal which member signed", "statement": "Without the opening key a signature (and a one-out-of-many proof) gives no information about which ring member made it.", "quantifier": "all groups, rings, signers, messages and draws", "why_tests_cant": "Anonymity quantifies over all algorithms that look at a signature; tests only check acceptance.", "anchors": ["signature/accountable_ring_sig.hpp: Sign", "zkp/nizk/nizk_enc_relation.hpp: Prove"]}
{"id": "C103", "title": "The PSI-card-sum sender can be run again with the same vectors", "statement": "Running the PSI-card-sum sender does not change the item and value vectors the caller passed in, so calling it a second time with the same objects against the same receiver set again returns the sum of the values of the common items.", "quantifier": "All item sets of equal size, all values, all masks drawn in the two runs, every bound.", "why_tests_cant": "One run always returns the right sum; whether the caller's data survive, and what a second run returns, depends on masks drawn inside the call.", "anchors": ["mpc/pso/mqrpmt_psi_card_sum.hpp:Send", "mpc/pso/mqrpmt_psi_card_sum.hpp:Receive"]}
{"id": "C104", "title": "Saved public parameters are found again", "statement": "For every protocol, fetching the parameters from the file they were saved to gives the parameters back, whatever the object held before.", "quantifier": "All arguments of Setup (sizes, security parameters), all previous contents of the object that is read into, every group.", "why_tests_cant": "The tests use one security parameter (40); whether the file parses depends on the bytes that follow a number written as text.", "anchors": ["mpc/pso/mqrpmt_psi.hpp:SavePP", "mpc/pso/mqrpmt_psi.hpp:FetchPP", "mpc/pso/mqrpmt_psi_card_sum.hpp:SavePP", "mpc/pso/mqrpmt_private_id.hpp:SavePP", "mpc/ot/alsz_ote.hpp:operator<<", "mpc/ot/iknp_ote.hpp:operator<<", "mpc/oprf/ddh_oprf.hpp:SavePP", "mpc/oprf/ote_oprf.hpp:SavePP", "mpc/psi/cwprf_psi.hpp:SavePP", "mpc/rpmt/cwprf_mqrpmt.hpp:SavePP", "adcp/adcp.hpp:SavePP"]}
{"id": "C105", "title": "A PRG seed written to a file is read back", "statement": "Writing a seed with operator<< and reading it with operator>> gives the same counter and key.", "quantifier": "All salts and ids a seed can be made from, all counters.", "why_tests_cant": "Whether the counter and the key can be told apart in the file depends on the first byte of a random key; 10 of 256 seeds are affected.", "anchors": ["crypto/prg.hpp:operator<<", "crypto/prg.hpp:operator>>", "crypto/aes.hpp:operator<<"]}
{"id": "C106", "title": "The file of a one-to-many transaction identifies it", "statement": "The file that SaveCTx writes for a one-to-many transaction holds everything that is needed to check the transaction: two transactions with the same file are the same transaction. The supervisor's key that SaveSP wrote is what FetchSP returns.", "quantifier": "for every pair of one-to-many transactions without points at infinity and with the same numbers of receivers and proof elements, for every accepted transaction, for every supervisor key", "why_tests_cant": "Whether two different transactions share a file is a statement about all pairs; a test can only compare a few files, and no reader exists to test against.", "anchors": ["adcp/adcp.hpp: SaveCTx(ToManyCTx), VerifyCTx(ToManyCTx), SaveSP, FetchSP"]}
{"id": "C107", "title": "Files of the key-value store", "statement": "An oblivious key-value store that was written to a file with WriteObject and read with ReadObject into a new object of the same sizes encodes any values for the same keys, and decoding returns them. This holds if the triangulation left no gap row; with gap rows the writer or the reader accesses memory outside an array.", "quantifier": "every index width, hash, key list, value list, randomness, weight and kind of dense part; every state of the memory of the new object and every continuation of the file", "why_tests_cant": "the failing case depends on whether the triangulation leaves a gap row, which is rare for random keys of the sizes in tests", "anchors": ["mpc/okvs/paxos.hpp:OKVS::WriteObject", "mpc/okvs/paxos.hpp:OKVS::ReadObject", "mpc/okvs/paxos.hpp:OKVS::encode"]}
{"id": "C108", "title": "The keys of the discrete-log table identify points", "statement": "Two different points never have the same 8-byte key in the table of the discrete-log search, so that a logarithm that is reported is correct and a ciphertext that does not encrypt a number of the message space is refused", "quantifier": "all byte strings, seeds and words; all groups, key functions, tables, search points and interleavings", "why_tests_cant": "The hash is evaluated on a few points in tests and collisions among random points have probability 2^-64; only the structure of the hash shows that they can be computed", "anchors": ["utility/murmurhash2.hpp:MurmurHash64A", "crypto/ec_point.hpp:ToUint64", "pke/calculate_dlog.hpp:ShanksDLOG", "pke/exponential_elgamal.hpp:Dec"]}
{"id": "C109", "title": "A process reads the table of its own base", "statement": "After any history of processes that share a directory, initialising an encryption scheme loads the discrete-log table of the scheme's own base and parameters, so that later decryptions are right", "quantifier": "all digests of bases, parameters, histories of processes in one directory, search points and interleavings", "why_tests_cant": "Tests use one base and delete or reuse one file; whether names collide depends on the digests of all bases ever used", "anchors": ["pke/calculate_dlog.hpp:GetTableFileName", "utility/routines.hpp:ToHexString", "pke/exponential_elgamal.hpp:Initialize", "pke/twisted_exponential_elgamal.hpp:Initialize"]}
{"id": "C110", "title": "Hashing a string to a curve point", "statement": "Hashing a string to a point, which the set-ups of twisted ElGamal and of the range proofs use for their second generator, never ends the process; a point it returns is on the curve, is a function of the string and has an even y coordinate", "quantifier": "all strings, digests, curves over a field with p = 3 modulo 4, and numbers of rounds", "why_tests_cant": "Tests hash one string; half of all strings need further rounds and half of the roots are odd", "anchors": ["crypto/hash.hpp:StringToECPoint", "crypto/ec_point.hpp:IsSquare,CreateECPoint", "crypto/bigint.hpp:ModSquareRoot,ModExp", "pke/twisted_exponential_elgamal.hpp:Setup", "zkp/bulletproofs/bullet_proof.hpp:Setup"]}
{"id": "C111", "title": "PSI-card-sum shows the receiver no value and the sender only the sum", "statement": "In PSI-card-sum, what the oblivious transfer gives the receiver is distributed in the same way for all vectors of values, and the number the sender receives depends only on the sum of the values of the common items and on the sender's own masks", "quantifier": "all set sizes, bounds, values, indication bits and masks", "why_tests_cant": "Equality of distributions cannot be seen from runs", "anchors": ["mpc/pso/mqrpmt_psi_card_sum.hpp:Send,Receive"]}
{"id": "C112", "title": "Ciphertexts, signatures and parameters survive a file", "statement": "A ciphertext of ElGamal (both variants), exponential ElGamal or twisted exponential ElGamal, a multi-recipient ciphertext, a Schnorr signature, or the parameters, written to a file with operator<< and read with operator>>, is the object that was written: the ciphertext decrypts to the same message, the signature verifies. This holds whatever object it is read into.", "quantifier": "all keys, messages, randomness, numbers of receivers, old contents of the object read into, contents of uninitialised buffers", "why_tests_cant": "The written bytes hold neither a length nor a marker for the point at infinity, so whether they are read back depends on the randomness, the message and what the object held before; a test reads a random ciphertext into an object of the right shape.", "anchors": ["pke/elgamal.hpp:operator<<", "pke/elgamal.hpp:operator>>", "pke/exponential_elgamal.hpp:operator>>", "pke/twisted_exponential_elgamal.hpp:operator>>", "signature/schnorr.hpp:operator>>", "crypto/ec_25519.hpp:operator>>"]}
{"id": "C113", "title": "A peer that stops does not lead to a wrong result", "statement": "When one party of a two-party protocol stops at any point, the other never returns a result other than that of the complete run, and returns at all (with the result or an error) after finitely many steps.", "quantifier": "all protocols that complete when both parties run, all schedules, all points at which the peer stops, any number of messages under way that still arrive", "why_tests_cant": "Crash points are unbounded in number and a test that waits cannot tell a slow peer from one that will never answer.", "anchors": ["netio/stream_channel.hpp:ReceiveDataInternal", "netio/stream_channel.hpp:SendDataInternal", "mpc/psi/cwprf_psi.hpp:Receive"]}
{"id": "C114", "title": "A crash while the miner writes its files loses neither money nor keys", "statement": "Whenever the process is cut off while Miner processes a transaction, the account files on disk, fetched again, hold the balances from before or from after the transaction for both parties, so that no money is lost; and each account file can be fetched with its secret key.", "quantifier": "every transaction, account list, earlier content of the disk and crash point between two bytes written", "why_tests_cant": "a test observes the files after the call returned; the claim is about every point at which the process can be cut off in between", "anchors": ["adcp/adcp.hpp: Miner, UpdateAccount, SaveAccount, FetchAccount, SaveCTx, GetCTxFileName", "utility/serialization.hpp: operator>>"]}
{"id": "C115", "title": "Every accepted transaction stays on record in its .ctx file", "statement": "After the miner has accepted a sequence of transactions made one after the other by a sender, the file named by each transaction (sender key and serial number) exists and holds exactly that transaction, so an auditor can fetch every one of them.", "quantifier": "all sequences of transactions of one sender accepted by the miner, of both kinds (one receiver, several receivers), all accounts, amounts, randomness, and all previous contents of the directory", "why_tests_cant": "The loss shows only when a second transaction is accepted and the first one is looked up again; it depends on the whole history of serial numbers, not on a single call.", "anchors": ["adcp/adcp.hpp:GetCTxFileName", "adcp/adcp.hpp:Miner", "adcp/adcp.hpp:UpdateAccount", "adcp/adcp.hpp:SaveCTx", "adcp/adcp.hpp:CreateCTx"]}
{"id": "C116", "title": "The shuffles that hide positions can give every order and reveal nothing about later ones", "statement": "The shuffles of mqRPMT, Private-ID and the equality test return the same items in another order. Every order of the items is possible, all are equally likely, and whoever has seen what the generator gave before cannot compute what it gives later.", "quantifier": "all lists of items of any length, all states of the generator (every seed, every use before), every way the library draws positions", "why_tests_cant": "A test sees a few orders of a few seeds; that some order never occurs under any seed, and that outputs determine all later ones, are statements about all 2^32 seeds and all histories.", "anchors": ["include/global.hpp:global_built_in_prg", "mpc/rpmt/cwprf_mqrpmt.hpp:Client", "mpc/pso/mqrpmt_private_id.hpp:Receive", "mpc/peqt/peqt_from_ddh.hpp:Send"]}
{"id": "C117", "title": "Hexadecimal strings identify numbers and points, and a transaction's file name its sender and serial number", "statement": "The hexadecimal string of a number is read back as that number. Different points have different strings. Two transactions share a file name only if they have the same sender's key and the same serial number. Hence, over any history of accepted one-to-many transactions of any number of senders, every one of them can still be read from its own file.", "quantifier": "all integers of either sign and any size, all points including infinity, all senders and serial numbers, all histories of accepted one-to-many transactions of any senders", "why_tests_cant": "A name collision needs two particular keys or numbers, and whether a record survives depends on everything saved after it; a test tries a few names and a short history.", "anchors": ["crypto/bigint.hpp:BigInt::ToHexString", "crypto/ec_point.hpp:ECPoint::ToHexString", "adcp/adcp.hpp:GetCTxFileName", "adcp/adcp.hpp:Miner"]}
{"id": "C118", "title": "Random points are uniform generators and the random helpers keep the bounds they promise", "statement": "A random generator generates the whole group and is every point but infinity with the same chance. A number drawn between two bounds lies between them, each value with the same chance. A number drawn coprime to another is coprime and smaller, and the search ends with the first such draw. A number is reported a safe prime exactly if it is a prime of the form 2p+1 with p prime. The random vectors of the tests keep within the bound in their comment, use the whole range, and are independent.", "quantifier": "all outputs of the random sources, all bounds and moduli including zero, negative and empty ranges, all lengths, all behaviours of rand()", "why_tests_cant": "A test sees a few draws; that no draw gives infinity, that every point has exactly one draw and that a search never ends for some argument are statements about all draws.", "anchors": ["crypto/ec_point.hpp:GenRandomGenerator", "crypto/ec_point.hpp:GenRandomECPointVector", "crypto/bigint.hpp:GenRandomBigIntBetween", "crypto/bigint.hpp:GenCoPrimeLessThan", "crypto/bigint.hpp:BigInt::IsSafePrime", "utility/routines.hpp:GenRandomIntegerVectorAbsoluteLessThan"]}
{"id": "C119", "title": "A crash while a one-to-many transaction is written loses no money", "statement": "When the process stops at any point while the miner saves an accepted one-to-many transaction, each file is untouched, complete or cut short in a known order, other files are unchanged, and the balances read back from the files add up to what they were before.", "quantifier": "all accepted one-to-many transactions with any number of receivers, all contents of the disk, all crash points between two bytes written", "why_tests_cant": "The crash points are the bytes of all files together, and what is lost depends on the number of receivers already written; a test stops at a few of them.", "anchors": ["adcp/adcp.hpp:Miner", "adcp/adcp.hpp:UpdateAccount", "adcp/adcp.hpp:SaveAccount", "adcp/adcp.hpp:GetCTxFileName"]}
{"id": "C120", "title": "A hashed set of points finds exactly what was inserted, and the point orders are total", "statement": "A set of ECPoint, EC25519Point or string values built with the library's hash classes answers 'found' for a value if and only if an equal value was inserted, so the indication bits computed with it are those of a full search. Equal points hash alike. The lexical comparisons are irreflexive, transitive and total. A 25519 point written to a file is read back unchanged, and a file that ends early leaves the old bytes in the rest of the object.", "quantifier": "all groups, all lists of inserted and queried values, every std::hash, every number of buckets and every rehashing schedule, all old contents of the object read into", "why_tests_cant": "A test sees one hash function and one table size; collisions and rehashes depend on the values and the standard library.", "anchors": ["crypto/ec_point.hpp:ECPointHash, ECPoint_Lexical_Compare", "crypto/ec_25519.hpp:EC25519PointHash, EC25519Point_Lexical_Compare, operator<<, operator>>, CompareTo", "mpc/rpmt/cwprf_mqrpmt.hpp:Server", "mpc/psi/cwprf_psi.hpp:Receive"]}
{"id": "C121", "title": "Parallel loops have no data race and compute what the sequential loops do", "statement": "A loop run by several threads leaves the memory that the same loop leaves when run by one thread, for every assignment of iterations to threads and every interleaving of their accesses. No two iterations are ever about to access the same element when one of them writes. Every schedule can be continued to the end, and is there after as many accesses as the sequential loop makes. This holds for the loops that write element i from elements i of other arrays, those that write through a permutation, the building of the discrete-log table in slices, and the loops of the OT-extension OPRF that or bits into shared bytes. The answer of the Bloom filter's lookup is the same for every interleaving.", "quantifier": "all numbers of iterations, all contents of the arrays, all functions computed by the bodies, all schedules", "why_tests_cant": "A test runs a few of the exponentially many interleavings, and a race may show once in a million runs.", "anchors": ["crypto/ec_point.hpp:ECPointVectorProduct", "crypto/otp.hpp:XOR", "crypto/aes.hpp:ECBEnc", "mpc/ot/naor_pinkas_ot.hpp:Send, Receive", "mpc/ot/alsz_ote.hpp:RandomSend, Send", "mpc/oprf/ddh_oprf.hpp:Server, Client", "mpc/peqt/peqt_from_ddh.hpp:Send", "pke/calculate_dlog.hpp:BuildSlicedKeyTable, BuildSaveTable", "filter/bloom_filter.hpp:PlainContain", "mpc/oprf/ote_oprf.hpp:Packing, Server, Client"]}
