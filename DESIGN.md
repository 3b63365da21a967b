# Formal model of Kunlun in Rocq (Coq 8.16.1)

Source of truth: `/repo` (C++ headers, read as text). Everything below `rocq/theories` is
plain Gallina; the kernel checks every theorem. This file states what is modelled, how each
property of `properties.jsonl` is proved, and what has to be trusted.

## 1. Layout

One directory per component, each with

* `*Model.v`  – definitions transcribed function by function; every definition has a comment
  `(* /repo path:lines *)` and says where it simplifies;
* `*Spec.v`   – (where useful) the small independent specification the theorems are stated against;
* `*Proofs.v` – lemmas;
* `*Props.v`  – only the property theorems (`exact lemma.`), `Print Assumptions`, and an
  `Example` that exhibits a concrete non-trivial case satisfying the hypotheses.

`Base/` holds shared material (machine words, byte strings, abstract prime-order group).

## 2. Modelling conventions

* **Machine integers** are `N`/`Z` with explicit wrap (`wrap32`, `wrap64`).
  BigInt is `Z` (OpenSSL BIGNUM is trusted to be exact integer arithmetic).
* **Undefined behaviour** (out-of-bounds access, division by zero, reading uninitialised
  memory) is a distinct outcome (`None`, or an explicit "garbage" argument that theorems
  quantify over).
* **Process exit** (`exit(1)`, uncaught `throw`) is a distinct outcome (`None`).
* **Randomness** is an explicit argument of every function; theorems quantify over it.
* **Hash functions** are arbitrary functions (section variables, generalised to
  universally quantified arguments). Nothing is assumed about them unless the theorem says so.
* **The elliptic-curve group** is a record `ECGroup` (carrier, addition, negation, scalar
  multiplication, prime order, decidable equality, byte encoding) with its algebraic laws as
  fields: this is the behaviour assumed of OpenSSL's EC_POINT. It is a hypothesis of the
  theorems (universally quantified), not an axiom, and instances (Z_q for concrete primes q)
  are built to show that it is satisfiable.
* **Parallel loops** (`#pragma omp parallel for`, thread pool tasks) are modelled as sets of
  atomic steps executed in an arbitrary order; where the loop bodies touch disjoint memory
  the model is a map, and the comment says so.
* **Network channel**: a FIFO of bytes per direction; protocols are modelled as the pair of
  party functions composed through the messages they exchange.
* Printing/timing code is not modelled.

## 3. Properties: what is modelled and how it is proved

| id | model | proof |
|----|-------|-------|
| C01 C03 | Bloom filter as byte table + salts, insertion as a multiset of atomic bit-or steps; schedules are permutations/interleavings | invariant: a set bit stays set; fold over any schedule |
| C02 | byte-level writer/reader | round-trip through little-endian codec |
| C04 | cuckoo filter with rand() oracle, 500-kick loop, victim slot | invariant: the multiset of (bucket pair, tag) is preserved by kicks |
| C05 | same, PlainDelete | refutation: concrete history (finding); positive partial theorem for non-colliding fingerprints |
| C06 C09 | wrap-32 arithmetic on N | bit-level reasoning on N.testbit |
| C07 C08 | byte-level writer/reader with uninitialised buffer contents as an argument | refutations (findings) |
| C10 | SSE movemask-level transposition loops | loop invariants over N.testbit |
| C11 | byte-lane comparison, std::sort/std::set_difference as specified by the standard | order proof on byte lists, merge proof |
| C12 | 128-bit blocks as N | testbit; ClearBit refuted |
| C13 | concrete AES-128 (S-box table, ShiftRows, MixColumns, key expansion as in the intrinsics) | round inverses, induction over vectors |
| C14 | counter-mode stream with batches of 8 | induction, AES injectivity from C13 |
| C15 C16 C17 | byte lists | round-trip induction |
| C18 | lists of Z | convolution algebra |
| C19 | CBCAES with memory after the buffer as argument | refutation |
| C20 | Z arithmetic | Znumtheory |
| C21–C26 | group record | module algebra tactic, DLOG from C27 |
| C27 C28 | baby-step table as association map, 64 worker tasks with shared FIND flag, any interleaving | Euclidean decomposition, invariant over schedules |
| C29–C36, C38, C40–C42, C44 | group record + hash oracle | module algebra, polynomial identities, induction on log-length |
| C37 C39 C43 | same | explicit forging algorithm proved to be always accepted (findings) |
| C45–C51 | accounts, transactions, miner as state machine | composition of C21–C44, induction on histories; refutations for replay etc. |
| C52 | byte FIFO with arbitrary fragmentation | induction on fuel/fragment list |
| C53–C55 | OT protocols over group / block vectors | per-position algebra plus C10 |
| C56–C64 | protocol compositions | list/permutation reasoning |
| C65 | libdivide multiplier | integer inequalities |
| C66–C72 | OKVS functions on lists | linear algebra over xor groups |
| C70 C73–C76 | GF(2^128) as binary polynomials, VOLE tree and code | linearity, induction on depth |
| C77 C78 | block hashes over the concrete AES | AES inverse (C13) gives explicit preimages and collisions (findings) |
| C79 | sigma protocols with the challenge as an argument | bijection between prover randomness and simulated transcripts |
| C80 C81 | byte encodings of transcripts and proofs | injectivity of concatenations of fixed-length parts; refutation by two proofs with one encoding |
| C82 | miner | explicit transaction for an invented balance (finding) |
| C83 | account file writer/reader | round trip through the stream codec |
| C84 | BlockToECPoint with the curve test as an oracle | first accepted attempt, injectivity per attempt, explicit inverse (finding) |
| C85 C86 C87 | what a party holds at the end of a run | explicit public functions that compute the secret (findings) |
| C88 C89 | rrPKE-mqRPMT: ElGamal, binned OKVS with threads and schedules, channel | composition of C25, C52 and C72; closure of encoding under XOR and multiplication; explicit test that recognises members (finding) |
| C90 C91 | verifiers of Bullet/IPModel, BPModel; trees of accepted proofs | explicit extractors on numbers (ExtractSpec, BPExtractSpec); Lagrange interpolation modulo a prime (LagSpec, LagProofs), induction on the number of rounds; everything in exponents of a generator |
| C92 C93 | VerifyCTx of ADCP/ADCPModel; accepted transactions with the same content and different challenges | forks of the sigma proofs (C32-C34) and the range-proof extractor (C91) composed; vocabulary in ADCPSoundSpec, a concrete tree of 192 transactions in ADCPSoundRun and ADCPSoundRunN |
| C94 C95 | the string hashed for the sender's last proof (ADCPGateSpec), Miner, audits | inversion of concatenated encodings from the right; case analysis of the gates |
| C96 | RP1_Verify, RP2_Verify (Bullet/GadgetModel), AuditLimit | as C92; the two shifted commitments pin the value to [L, R) because the range is at most half of the group order |
| C97 | BP_Prove (Bullet/BPModel), two witnesses | Prove is put in closed form; an explicit bijection on the draws (shift alpha, rho, sL, sR by the difference of the bits, tau1 and tau2 by the difference of t1, t2) keeps A, S, T1, T2 and every value at x |
| C98 C99 | NP_Send, NP_Receive, DDHOPRF_Client run against arbitrary incoming messages (OT/PrivacySpec `sends`) | explicit bijections on the secret scalars (sk to c - sk, r to k r); algebra for the sum of the two keys |
| C100 C101 | ER_Verify, ARS_Verify, ARS_Open of C36-C39; families of accepted answers to one first message (Ring/RingExtractSpec) | explicit extractor by interpolation: lines through the first two answers give bits, three answers force b(1-b)=0, column sums give one digit per column, the m-th coefficient of z opens the ciphertext; off-line answers give a relation between the bases |
| C102 | ARS_Sign and ER_Prove of C36-C39; a public algorithm `name_signer` (Ring/AnonSpec) | false: integer bounds on z = r x^m - sum rho_k x^k, which Prove does not reduce; the algorithm names the signer for every ring, key and draw |
| C103 | PSOModel (`Sum_Send` returns the caller's vector), `masked` in PSOSpec | False: `C103_second_run_refuted` runs the protocol twice over the vector left behind and computes the wrong sum exactly |
| C104 | all Setup/operator<</operator>> pairs of parameters (Param/ParamModel), with the C++ stream semantics of raw and formatted input | field-by-field reading lemmas composed; decimal text followed by a digit reads a number at least ten times as large |
| C105 | PRG::Seed and AES::Key operators (Param/ParamModel) | as C104, seeds made by SetSeed; counting bytes shows the file is then too short |
| C106 | SaveCTx of ToManyCTx, SaveSP, FetchSP (ADCP/ADCPFileModel) | every writer is injective on a prefix (from the readers' round trips); the missing member is changed to refute |
| C107 | OKVS WriteObject, ReadObject and encode of an object that was read (OKVS/FileModel) | field by field round trip; back-filling without gap rows reads only the fields in the file; the gap rows refute |
| C108 | MurmurHash64A (Utility/Murmur2Model), the key of a point and the search (PKE/DlogModel) | every step of the hash is a bijection of the word read; inverse steps give preimages; a concrete pair of curve points; a wrong hit through the invariant of C27 |
| C109 | GetTableFileName, ToHexString and Initialize over a directory (PKE/TableNameModel) | histories of processes from an empty directory; injectivity of the decimal and of the two-digit part of a name; the sign of char and the missing padding refute |
| C110 | StringToECPoint, IsSquare, ModSquareRoot and CreateECPoint over affine coordinates (Group/StringHashModel) | induction on the rounds of the loop; Euler's criterion gives the root as the power (p+1)/4; the order of the two assignments refutes the parity |
| C111 | the messages of PSI-card-sum (MPC/PSOModel) over an ideal transfer | a bijection of the masks that preserves what the receiver gets; the number sent back is the selected sum plus the masks |
| C112 | operator<< and operator>> of the ciphertexts and signatures (PKE/CTFileModel) over the streams of C104 | reading back what was written, composed with C25 and C29; the missing length and the skipped point at infinity refute |
| C113 | the two-party executions of Net/PartyModel with a peer that stops (Net/CrashModel) | steps of the party alone are steps of a complete run, which is determinate; a returned party takes no message |
| C114 | the file operations of Miner one byte at a time on a disk that maps names to contents (ADCP/DiskModel); a crash keeps a prefix of the operations; FetchAccount on a stream that may end early | the operation list of an accepted transaction is three saves; case analysis on the crash point; C46 for the balances; fields read one after the other |
| C115 | the same disk, over a whole history of accepted transactions of one sender; GetCTxFileName as the sender's key and the serial number | induction on the history: the serial number grows by one with each one-to-many transaction, so the names differ; for one-to-one transactions the names are equal, and the last save wins |
| C116 | std::mt19937 from the C++ standard, its 32-bit seeding in include/global.hpp, the exchange loop of std::shuffle; how a position is drawn from the generator is an argument (MPC/ShuffleModel) | induction from the last item for the bijection between draws and orders; counting (n! > 2^32 for n >= 13) for the missing order; the tempering is linear over bits, so checking it on 32 basis words proves its inverse |
| C117 | BN_bn2hex and EC_POINT_point2hex as lists of characters (Crypto/HexModel), the file name built from them, histories of many senders over the disk of C114 | an independent reader of hexadecimal strings, induction on bytes; the separator '_' is no digit, so a name splits in one way; induction on the history with the current serial number of every key |
| C118 | BN_rand_range with the draw as an argument, GenRandomBigIntBetween, GenRandomGenerator, GenCoPrimeLessThan with fuel, IsSafePrime over an exact test, the vectors of utility/routines.hpp over any rand() (Group/RandomModel) | bijection between draws and results from the group's order; induction on the repetitions; edge cases refute |
| C119 | the operations of C114's disk for a one-to-many transaction (ADCP/DiskModel, MinerN_ops) | the miner's operations are a list of saves of different files; induction on that list for the crash points, with the balances of C51 for what is lost |
| C120 | buckets with an arbitrary hash and arbitrary rehashing, the byte-string orders, the 25519 file operators (MPC/PointSetModel) | invariant: every item is in the bucket of its hash; induction over insertions and rehashes; injectivity of ToByteString for the orders |
| C121 | iterations as programs of reads and writes on shared elements, arbitrary interleavings (Par/ParModel); instances for AES-ECB and the pad (Par/ParCryptoProps) | footprints: one access keeps the result of the rest of the sequential loop (commutation); induction on the schedule; an invariant for the Bloom filter's flag |

## 4. Trusted base

* Coq 8.16.1 kernel; `Print Assumptions` output is listed in section 6 (target: closed under
  the global context).
* The C++ to Gallina transcription (by hand, line citations beside each definition).
* OpenSSL BIGNUM/EC arithmetic, SSE/AES intrinsics semantics, the C++ standard library
  containers and algorithms behave as documented.
* omp atomic/critical sections have their usual semantics.

Not modelled anywhere: printing, timing, file-system failures (a file that cannot be opened),
memory allocation, OpenSSL context management, floating-point corner cases in size estimations.

Coverage by source file. "Abstract" means a section variable, record field or explicit argument
that the theorems quantify over.

| file in /repo | model | modelled | not modelled or abstract |
|---|---|---|---|
| crypto/bigint.hpp | Crypto/BigIntModel, Crypto/HexModel, Group/ECModel | arithmetic and modular operators, byte strings, hex strings, stream operators, vector operations, random numbers as explicit draws, GCD, coprime numbers, safe primes over an exact test | the primality test itself, modular square root for p = 1 modulo 4, prime generation, printing |
| crypto/ec_group.hpp | Group/ECModel (`group`) | order, generator; the group laws are the record's fields | precomputation tables, curve selection |
| crypto/ec_point.hpp | Group/ECModel, MPC/PointSetModel | operators, hash, lexical order, comparison, byte strings, stream and vector operators | the compressed encoding and the curve equation (only for the points of C108); `ToUint64` is an abstract key except in C108 |
| crypto/ec_25519.hpp | MPC/CwModel (`X25519`), MPC/PointSetModel | Mul, XOR, comparison, file operators, hash, order | Print; the Montgomery ladder is abstract |
| crypto/hash.hpp | MPC/HashModel, Group/StringHashModel | block-to-bytes, bytes-to-block, CBC-AES, hash-to-point wrappers, string to point | SM3/SHA internals (abstract) |
| crypto/aes.hpp, prg.hpp, otp.hpp, block.hpp | Crypto/* | all; AES is written out and proved equal to FIPS-197 | intrinsics are given by their documented semantics |
| crypto/prp.hpp | - | nothing: the file is not valid C++ (`void AES::Key GenKey`, undeclared names) and nothing includes it | all |
| include/global.hpp | MPC/ShuffleModel | the global generator: std::mt19937 and its seeding | thread count, error strings |
| crypto/setup.hpp, config/config.h, the other include/* | - | nothing: initialisation and constants | all |
| commitment/pedersen.hpp | Ring/RingModel | Setup's shape, Commit | point generation (abstract) |
| filter/bloom_filter.hpp, cuckoo_filter.hpp | Filter/* | construction, insert, contain, kick-out, stream operators | false-positive rate |
| utility/murmurhash3.hpp | Filter/MurmurModel | LiteMurmurHash, the 32-bit keyed hash used by the filters | the other variants |
| utility/murmurhash2.hpp | Utility/Murmur2Model | MurmurHash64A | nothing |
| utility/routines.hpp | PKE/TableNameModel, Utility/BitOpModel, Group/RandomModel | ToHexString, FileExist, IsPowerOfTwo, the random vectors | `rand` is abstract |
| utility/print.hpp | - | printing is not modelled | all |
| utility/serialization.hpp, bit_operation.hpp, polymul.hpp | Utility/*, Crypto/BigIntModel | all that is called | - |
| netio/stream_channel.hpp | Net/ChannelModel, Net/PartyModel | every Send/Receive pair over an unbounded FIFO byte stream with short writes and reads | socket set-up, reconnection |
| pke/*.hpp | PKE/* | key generation, encryption (with given randomness too), re-encryption, homomorphic operations, decryption, baby-step giant-step and its table file | - |
| zkp/nizk/*.hpp, signature/schnorr.hpp | Sigma/* | Prove and Verify with the transcript string; the hash is abstract | Fiat-Shamir as a random oracle |
| zkp/bulletproofs/*.hpp, gadget/range_proof.hpp | Bullet/* | Prove, Verify, FastVerify of the inner-product and range proofs; both gadgets | as above |
| signature/accountable_ring_sig.hpp | Ring/* | Sign, Verify, Open | as above |
| adcp/adcp.hpp | ADCP/*, Param/ParamModel | accounts, one-to-one and one-to-many transactions, audits, miner, saving and fetching | genesis printing |
| mpc/ot/*.hpp | OT/* | Naor-Pinkas, IKNP, ALSZ (blocks and byte vectors, one-sided) | hash and PRG are abstract |
| mpc/oprf/*.hpp | MPC/DDHModel, OOPRFModel, VOPRFModel | all three OPRFs, single-threaded and with any parallel order where the loops are independent | the hash-to-code parameter choice in floating point |
| mpc/peqt, psi, rpmt, pso | MPC/DDHModel, CwModel, RRModel, PSOModel | all protocols | thread scheduling within the protocol models (loops are sequential there; Par/ParModel treats the loops) |
| mpc/okvs/*.hpp | OKVS/* | paxos (encode, decode, dense part, triangulation, back-filling, object files), baxos (binning), the sort, divider and GF(2^128) | test routines in paxos.hpp |
| mpc/vole/*.hpp | VOLE/* | base VOLE, GGM trees, expand-convolute code, VOLE | LPN security |
| operator<< / operator>> of parameters, ciphertexts and signatures | Param/ParamModel, PKE/CTFileModel | NPOT, IKNP, ALSZ, mqRPMT, cwPRF-PSI, PSO, card-sum, OPRFs, Private-ID, bulletproofs, twisted ElGamal, ADCP, ElGamal, exponential ElGamal, Schnorr | the ring signature has no operators |

## 5. Findings (properties that are false of the code)

Each line names the behaviour the model shows and, where it contradicts a property, the
theorem (suffix `_refuted`) that proves it.  Lines without a theorem are observations made
while transcribing; the model returns `None`/`Fail` or takes the garbage as an argument there.

Filters
* Bloom filter of capacity 0 divides by zero (`C01_bloom_zero_capacity_refuted`).
* Cuckoo filter above 2^33+3 elements has an empty table (`C04_cuckoo_huge_capacity_refuted`).
* Deleting an element clears both candidate buckets' matching entries and loses a colliding one
  (`C05_cuckoo_delete_loses_other_refuted`).
* The buffer format writes victim.used at the wrong offset, behind the buffer for one bucket;
  the file format reads the table as a C string (`C07_*_refuted`).
* Lookup of EC points hashes 32 uninitialised bytes (`C08_cuckoo_point_lookup_refuted`).

Blocks, AES, PRG, BigInt, points
* Transposition of small shapes leaves the matrix (`C10_transpose_small_refuted`).
* ClearBit clears everything but one bit (`C12_clear_bit_refuted`).
* CBC on an empty vector (`C13_aes_cbc_empty_refuted`); byte draws of the PRG split only at
  multiples of 16 (`C14_prg_bytes_split_refuted`); CBCAES reads behind its input
  (`C19_cbcaes_depends_on_memory_refuted`).
* The fixed-key hashes are invertible or have computable collisions (`C77_*`, `C78_*`).
* BigInt streams lose the sign and write uninitialised bytes above 2^256 (`C17_*_refuted`);
  ModNegate of a nonzero multiple of m is m (`C20_mod_negate_multiple_refuted`).
* Writing the point at infinity to a stream writes 64 uninitialised bytes.
* crypto/prp.hpp does not compile; EC25519Point() fills with the character '0'; ToHexString
  drops leading zeros.

Public-key encryption and discrete logarithms
* The baby-step/giant-step search covers half of an odd range (`C21_odd_length_refuted`,
  `C24_odd_length_refuted`, `C27_odd_range_refuted`); loading a table keeps the old one
  (`C28_stale_entries_refuted`); a twisted ElGamal key may be 0 (`C21_zero_key_refuted`).
* ElGamal over X25519 draws key and randomness from a constant seed (`C26_*_refuted`).

Proof systems
* The plaintext-equality proof is encoded without B, z and t (`C35_encoding_refuted`); the
  plaintext-knowledge encoding is ambiguous (`C81_pk_encoding_refuted`).
* One-out-of-many proof: vec_G is not hashed (`C37_soundness_refuted`), one ciphertext leads
  out of an array (`C36_single_ciphertext_refuted`).
* Ring signature: ct_s is not hashed (`C39_framing_refuted`).
* Ring signature: the answer z of the membership proof is an unreduced integer, from which
  anybody computes the randomness of the encrypted key and so the signer
  (`C102_anonymity_refuted`; nizk_enc_relation.hpp:183-187).
- C103: the PSI-card-sum sender overwrites the caller's value vector with the masked values; a second call with the same
  vector returns the sum plus the first call's masks (`C103_second_run_refuted`; mqrpmt_psi_card_sum.hpp:119,143).
- C104: in the namespaces ALSZOTE, IKNPOTE, PRG and DDHOPRF operator<< hides Serialization's, so that numbers are written as decimal
  text without a separator.  The parameters of PSI, PSI-card, PSI-card-sum, PSU and Private-ID are read back wrong whenever the low byte of
  the statistical security parameter is 48..57 (`C104_pso_refuted`, ...); those of DDH-OPRF always (`C104_ddh_oprf_refuted`:
  KEY_SIZE 3232, RANGE_SIZE not set).  Not a property, but seen on the way: ALSZOTE::Setup ignores its argument.
- C105: a PRG seed whose key starts with a byte 48..57 is read back wrong (`C105_seed_refuted`).
- C106: SaveCTx of a one-to-many transaction writes neither sender_balance_ct nor balance_proof; every accepted
  transaction has the same file as a rejected one (`C106_file_refuted`).
- C107: OKVS::WriteObject reads gap_cols for every gap row, which is empty over GF(2^128)
  (`C107_write_gaps_refuted`); ReadObject never resizes gap_rows_first_row, so no file with gap rows can be read
  into a new object (`C107_read_gaps_refuted`, `C107_gaps_refuted`).
- C108: the table key is a 64-bit hash without a secret, every aligned word of whose input can be solved for
  (`C108_preimage_refuted`). The generator of prime256v1 and a second point of the curve, computed this way, have
  one key (`C108_points_refuted`). The search does not check a hit, so such a point is reported with a wrong
  logarithm and a ciphertext of it decrypts (`C108_search_refuted`, `C108_decryption_refuted`).
- C109: ToHexString prints a char of 128 or more as eight digits and one below 16 as one digit, and the name of a
  table file keeps 16 digits. For a quarter of all bases the name holds 14 bits of the digest
  (`C109_high_bytes_refuted`, `C109_low_bytes_refuted`). A process whose base shares its name with an earlier one
  loads that table and reports only wrong logarithms (`C109_other_base_refuted`).
- C110: StringToECPoint computes the point with the even y coordinate and then overwrites it with the root that
  was found, whatever its parity (`C110_even_refuted`).
- C112: a multi-recipient ciphertext is written without its number of receivers; a new object reads none of them, and
  in the twisted variant takes the first receiver's half for the common one (`C112_several_refuted`,
  `C112_twisted_several_refuted`); a point at infinity is not restored over a used object (`C112_reused_refuted`).
- C113: a receive of a message the peer did not send in full never returns (`C113_hangs_refuted`; the result of fread is
  a size_t that is compared with 0, so neither an error nor the end of the stream is noticed).
- C114: UpdateAccount saves the sender's account and only then decrypts and saves the receiver's. A crash between the two
  saves loses the amount (`C114_between_refuted`); a receiver whose new balance is too large to decrypt makes the process
  end by itself at that point (`C114_overflow_refuted`). SaveAccount truncates the only copy of the account before it
  writes, so a crash there loses the secret key (`C114_key_lost_refuted`), and FetchAccount never looks at the stream, so a
  truncated file is loaded with fields taken from uninitialised memory (`C114_cut_unnoticed_refuted`).
- C115: the one-to-one UpdateAccount does not advance the sender's serial number (the one-to-many one does), although the
  serial number is said to define a transaction uniquely. The .ctx file of a transaction is overwritten by the sender's next
  transaction, and no copy is left (`C115_one_to_one_refuted`, `C115_mixed_refuted`).
- C116: every std::shuffle that hides positions uses one std::mt19937 seeded with 32 bits. At most 2^32 orders occur, so from
  13 items on some order never does (`C116_seed_refuted`), and the generator can be predicted from 624 outputs
  (`C116_predictable_refuted`). The protocols' security arguments need a random permutation.
- C119: a one-to-many transaction writes the sender's file, then one file for each receiver, then the transaction. A crash in
  between leaves any number of receivers unpaid, and no record tells which (`C119_between_refuted`); a receiver
  whose new balance cannot be decrypted ends the process at that point (`C119_overflow_refuted`).
- C121: BloomFilter::PlainContain reads and writes its flag CONTAIN from all threads without atomic, a data race in C++
  (`C121_contain_race_refuted`); when accesses happen one at a time the answer is right (`C121_contain`).
- C118: GenRandomBigIntBetween prints that a range is invalid and returns its start (`C118_empty_range_refuted`).
  GenCoPrimeLessThan returns 0 for 0 and never returns for a number below -1 (`C118_coprime_refuted`). The comment of
  GenRandomIntegerVectorAbsoluteLessThan excludes -MAX, which is drawn (`C118_absolute_refuted`); for MAX of 2^31 or more no
  value is positive (`C118_half_refuted`); vectors made within one second are equal (`C118_same_second_refuted`).
* Bulletproof: the commitments are not hashed (`C43_binding_refuted`).
* The prover of the inner-product argument appends to the proof object it is given.

ADCP
* Replay (`C47_replay_refuted`), lost fields in files (`C48_fetch_refuted`), minting through
  the X part of the sender ciphertext and short receiver lists (`C51_*_refuted`), a transaction
  for an invented balance ends the miner (`C82_invented_balance_refuted`).

Channel and OT
* Numbers above LEN bytes, signs, uneven items (`C52_*_refuted`); end of file loops forever.
* Base length 0 (`C54_empty_base_refuted`), empty byte vectors and other selection bytes
  (`C55_*_refuted`).

Two-party protocols
* Mask or key 0 (`C56_zero_mask_refuted`, `C59_zero_key_refuted`, `C64_zero_key_refuted`).
* OT-based OPRF: a second evaluation differs, odd sizes leave the arrays, the key is a public
  function of the client's set (`C57_*_refuted`, `C87_*_refuted`).
* VOLE-based OPRF: the client holds the key (`C86_client_knows_key_refuted`); item counts that
  do not fit the index type are truncated (`C58_count_refuted`).
* PSI and PSU of small sets crash (`C60_small_sets_refuted`); PSI-card-sum needs equal sizes
  (`C61_*_refuted`); long truncation reads behind the points (`C63_long_truncation_refuted`).
* Hash to curve is publicly invertible (`C84_first_attempt_invertible_refuted`); the X25519
  keys of mqRPMT and PSI are constants (`C85_*_refuted`).
* rrPKE-mqRPMT: the client recognises members, its own or not
  (`C89_client_recognises_members_refuted`); small sets crash (`C88_small_set_refuted`).

OKVS and VOLE
* int overflow in the 16-bit scalar path (`C66_int_overflow_refuted`); encoding with a random
  generator and gap rows is wrong (`C67_random_refuted`); encoding twice (`C68_refuted`);
  inversion over GF(2^128) refuses invertible matrices (`C69_gf128_refuted`); enumeration of
  combinations wraps above 256 columns (`C71_many_columns_refuted`).
* Binned OKVS: few keys per thread, 256 bins, overfull bins, non-zero output on entry
  (`C72_*_refuted`).
* Linear code: short and long vectors (`C75_*_refuted`); VOLE: the OT reads behind three
  vectors (`C76_spare_refuted`).

## 6. Assumptions per theorem

`Print Assumptions` prints "Closed under the global context" for every theorem and example of
every `*Props.v` file (the command stands under each property theorem).  No axiom of the
standard library or of any other library is used, and none is added.

What the theorems take as hypotheses instead, visible in each statement:

* the laws of the prime-order group and of its point encodings (record `ECGroup`; instances
  `G11`, `G101` show that they can be met), and of X25519 scalar multiplication (record
  `X25519`: commuting scalars, 32-byte results);
* hash functions: any function, with 32-byte results where the code relies on it; absence of
  collisions only where the statement says so (C27 keys, C62, C64);
* challenges that the code inverts are invertible modulo the order (C40–C45);
* sizes within the ranges named in the statements.
