{"id": "C01", "title": "Blank tree root", "statement": "The root of MerkleSparseTree::blank is the root of the complete binary tree of 2^(HEIGHT-1) leaves that all carry the hash of the default leaf, and a membership proof requested for any in-range position verifies for the default leaf at that position. In particular the coin tree starts with 2^31 empty coins, the transaction tree with 2^12 empty transactions, the signer tree with 2^12 identity keys and the nonce tree with 2^31 zeros.", "quantifier": "every hash function pair, every tree configuration with 2<=HEIGHT<=62, every position below 2^(HEIGHT-1)", "why_tests_cant": "the hash functions and all 2^31 positions cannot be enumerated", "anchors": ["plasma-fold/src/primitives/sparsemt/mod.rs#MerkleSparseTree::blank", "plasma-fold/src/primitives/sparsemt/mod.rs#gen_empty_hashes"]}
{"id": "C02", "title": "new computes the Merkle root", "statement": "For a non-empty map whose keys are below 2^(HEIGHT-1), MerkleSparseTree::new succeeds and its root is the root of the complete binary tree whose leaf i is the map's entry at i, or the default leaf if absent.", "quantifier": "every hash pair, configuration and leaf map", "why_tests_cant": "there are unboundedly many leaf sets; the level-by-level sparse construction must skip exactly the untouched subtrees for all of them", "anchors": ["plasma-fold/src/primitives/sparsemt/mod.rs#MerkleSparseTree::new"]}
{"id": "C03", "title": "new: failure modes", "statement": "MerkleSparseTree::new returns an error on the empty map, panics on a map with more than 2^(HEIGHT-1) entries, and neither errors nor panics on a non-empty map with in-range keys, whether or not overflow checks are on.", "quantifier": "every leaf map, both overflow-check settings", "why_tests_cant": "needs all maps, including astronomically large ones", "anchors": ["plasma-fold/src/primitives/sparsemt/mod.rs#MerkleSparseTree::new", "plasma-fold/src/primitives/sparsemt/mod.rs#tree_height"]}
{"id": "C04", "title": "update_and_prove updates one leaf", "statement": "On a tree holding given leaf contents, update_and_prove(i, leaf) with i in range succeeds, the new root is the root of the same contents with position i replaced, and the returned proof verifies from the old root to the new root for the leaf formerly at i and the new leaf at index i.", "quantifier": "every tree reachable from blank/new by updates, every in-range index, every leaf", "why_tests_cant": "correctness must hold after every update history", "anchors": ["plasma-fold/src/primitives/sparsemt/mod.rs#MerkleSparseTree::update_and_prove", "plasma-fold/src/primitives/sparsemt/mod.rs#MerkleSparseTree::siblings", "plasma-fold/src/primitives/sparsemt/mod.rs#MerkleSparseTreeTwoPaths::verify"]}
{"id": "C05", "title": "History independence of the root", "statement": "Two trees built by any two sequences of blank/new/update_and_prove calls that leave the same contents have the same root.", "quantifier": "every pair of in-range update histories", "why_tests_cant": "quantifies over pairs of histories", "anchors": ["plasma-fold/src/primitives/sparsemt/mod.rs#MerkleSparseTree::update_and_prove", "plasma-fold/src/primitives/sparsemt/mod.rs#MerkleSparseTree::root"]}
{"id": "C06", "title": "Membership proof completeness", "statement": "On any reachable tree, generate_proof(i, leaf) with the leaf stored at an in-range i succeeds and the path is accepted by verify and by verify_with_index for index i against the tree's root.", "quantifier": "every reachable tree, every in-range index", "why_tests_cant": "all trees, all positions", "anchors": ["plasma-fold/src/primitives/sparsemt/mod.rs#MerkleSparseTree::generate_proof", "plasma-fold/src/primitives/sparsemt/mod.rs#MerkleSparseTreePath::verify", "plasma-fold/src/primitives/sparsemt/mod.rs#MerkleSparseTreePath::verify_with_index"]}
{"id": "C07", "title": "generate_proof's leaf check", "statement": "On a reachable tree generate_proof(i, leaf) errors exactly when position i was written before and the given leaf's hash differs from the stored one; for a never-written position it returns a path whatever the leaf, and that path does not verify at i for a leaf whose hash differs from the default leaf's.", "quantifier": "every reachable tree, in-range index and leaf", "why_tests_cant": "all histories; the silent acceptance at unwritten positions is exactly the case tests omit", "anchors": ["plasma-fold/src/primitives/sparsemt/mod.rs#MerkleSparseTree::generate_proof"]}
{"id": "C08", "title": "verify_with_index soundness", "statement": "If verify_with_index accepts a path for a leaf and a u64 index against the root of given contents, then the index is below 2^(HEIGHT-1) and the leaf's hash equals the hash of the content at that index, unless two distinct pairs among the path's pairs and the genuine path's pairs collide under the two-to-one hash. With overflow checks on, the only other outcome for an out-of-range index is rejection or panic.", "quantifier": "every contents, path, leaf, 64-bit index, both overflow modes", "why_tests_cant": "adversarial paths of any content; all 2^64 indices", "anchors": ["plasma-fold/src/primitives/sparsemt/mod.rs#MerkleSparseTreePath::verify_with_index"]}
{"id": "C09", "title": "verify soundness", "statement": "If verify (without index) accepts a path for a leaf against the root of given contents, the leaf's hash equals that of the content at some in-range position determined by the path, unless a two-to-one collision is exhibited among the presented and genuine pairs.", "quantifier": "every contents, path and leaf", "why_tests_cant": "adversarial paths", "anchors": ["plasma-fold/src/primitives/sparsemt/mod.rs#MerkleSparseTreePath::verify"]}
{"id": "C10", "title": "Update-proof soundness", "statement": "If MerkleSparseTreeTwoPaths::verify accepts (old_root, new_root, old_leaf, new_leaf, index) and old_root is the root of given contents, then index is below 2^(HEIGHT-1), old_leaf hashes like the content at index, and new_root is the root of the contents with index replaced by new_leaf, unless a two-to-one collision is exhibited.", "quantifier": "every contents, proof, leaves, 64-bit index", "why_tests_cant": "adversarial proofs", "anchors": ["plasma-fold/src/primitives/sparsemt/mod.rs#MerkleSparseTreeTwoPaths::verify"]}
{"id": "C11", "title": "Out-of-range indices", "statement": "For an index at or above 2^(HEIGHT-1): verify_with_index and TwoPaths::verify never accept; generate_membership_proof never returns a path (it errs or panics); but update_and_prove does not report an error when no arithmetic overflow occurs, it overwrites the cached root, and the proof it returns never verifies.", "quantifier": "every reachable tree, every out-of-range u64 index, both overflow modes", "why_tests_cant": "all 2^64 indices", "anchors": ["plasma-fold/src/primitives/sparsemt/mod.rs#convert_index_to_last_level", "plasma-fold/src/primitives/sparsemt/mod.rs#MerkleSparseTree::generate_membership_proof", "plasma-fold/src/primitives/sparsemt/mod.rs#MerkleSparseTree::update_and_prove"]}
{"id": "C12", "title": "validate", "statement": "validate returns true on every tree reachable through blank/new/update_and_prove with in-range indices; and whenever it returns true on a tree that stores only in-range nodes, every stored ancestor of a stored leaf carries the hash of its children (absent children counting as empty subtrees). It does not look at the cached root.", "quantifier": "every tree value", "why_tests_cant": "all trees", "anchors": ["plasma-fold/src/primitives/sparsemt/mod.rs#MerkleSparseTree::validate"]}
{"id": "C13", "title": "Stale proofs are rejected", "statement": "After a position is updated to a leaf with a different hash, no path at all, in particular not the old one, makes verify_with_index accept the old leaf at that position against the new root, unless a two-to-one collision is exhibited.", "quantifier": "every reachable tree, index, old/new leaf, path", "why_tests_cant": "adversarial paths", "anchors": ["plasma-fold/src/primitives/sparsemt/mod.rs#MerkleSparseTreePath::verify_with_index", "plasma-fold/src/primitives/sparsemt/mod.rs#MerkleSparseTree::update_and_prove"]}
{"id": "C14", "title": "Index-membership gadget agrees with native", "statement": "For an index below 2^(HEIGHT-1), check_membership_with_index on allocated inputs is satisfiable exactly when native verify_with_index returns true.", "quantifier": "every path of length HEIGHT-1, leaf, root, index", "why_tests_cant": "needs all witnesses", "anchors": ["plasma-fold/src/primitives/sparsemt/constraints.rs#conditionally_check_membership_with_index"]}
{"id": "C15", "title": "Index aliasing in the gadget", "statement": "The index-membership gadget looks only at the low HEIGHT-1 bits of the canonical representative of the index: it is satisfied at a field element idx exactly when it is satisfied at idx mod 2^(HEIGHT-1). In particular idx and idx + 2^(HEIGHT-1) are interchangeable, unlike in native verify_with_index.", "quantifier": "every field element index, path, leaf, root", "why_tests_cant": "all field elements", "anchors": ["plasma-fold/src/primitives/sparsemt/constraints.rs#conditionally_check_membership_with_index", "plasma-fold/src/primitives/sparsemt/constraints.rs#update_root"]}
{"id": "C16", "title": "Disabled checks never constrain", "statement": "With should_enforce = false the conditional membership and update gadgets are satisfied by the honest prover's assignment for arbitrary (garbage) paths of the right length, leaves, indices and roots.", "quantifier": "all witness values", "why_tests_cant": "all witnesses", "anchors": ["plasma-fold/src/primitives/sparsemt/constraints.rs#conditionally_check_membership", "plasma-fold/src/primitives/sparsemt/constraints.rs#conditionally_check_membership_with_index", "plasma-fold/src/primitives/sparsemt/constraints.rs#conditionally_check_update"]}
{"id": "C17", "title": "Membership gadget agrees with native", "statement": "check_membership is satisfiable (for some choice of its internal Boolean witnesses) exactly when native verify returns true, and then the honest prover's own witness computation satisfies it.", "quantifier": "every path of length HEIGHT-1, leaf, root, all internal witness choices", "why_tests_cant": "a malicious prover chooses the internal witnesses", "anchors": ["plasma-fold/src/primitives/sparsemt/constraints.rs#conditionally_check_membership"]}
{"id": "C18", "title": "Update gadget agrees with native", "statement": "check_update is satisfied exactly when native TwoPaths::verify returns true, for an index below 2^(HEIGHT-1); update_root returns the two roots obtained by folding the siblings along the low index bits.", "quantifier": "every proof of length HEIGHT-1, leaves, roots, index", "why_tests_cant": "all witnesses", "anchors": ["plasma-fold/src/primitives/sparsemt/constraints.rs#update_root", "plasma-fold/src/primitives/sparsemt/constraints.rs#conditionally_check_update"]}
{"id": "C19", "title": "Default proofs allocate and synthesise", "statement": "The Default path and two-path values have exactly HEIGHT-1 entries, all of them zero digests, so every gadget accepts them for synthesis, whereas a proof of any other length aborts synthesis (assertion) and is rejected natively.", "quantifier": "every proof length", "why_tests_cant": "all lengths", "anchors": ["plasma-fold/src/primitives/sparsemt/mod.rs#Default", "plasma-fold/src/primitives/sparsemt/constraints.rs#update_root"]}
{"id": "C20", "title": "Transaction encoding is injective", "statement": "The field-element encoding of a transaction that is hashed and signed (conversion from &Transaction) always has 40 elements and distinct transactions have distinct encodings.", "quantifier": "all pairs of transactions", "why_tests_cant": "infinite pairs of inputs", "anchors": ["plasma-fold/src/datastructures/transaction/mod.rs#From<&Transaction>"]}
{"id": "C21", "title": "By-value transaction encoding loses the owners", "statement": "The by-value conversion Vec::from(Transaction) has 16 elements and two transactions have the same encoding exactly when they agree on all amounts and dummy flags; the owners' public keys do not influence it.", "quantifier": "all pairs of transactions", "why_tests_cant": "all pairs", "anchors": ["plasma-fold/src/datastructures/transaction/mod.rs#From<Transaction>"]}
{"id": "C22", "title": "UTXO, public-key and nonce preimages are injective", "statement": "The preimages hashed for UTXOs, public keys and nonces are injective, the point at infinity included; hence equal leaf hashes of distinct leaves are collisions of the underlying hash.", "quantifier": "all pairs of values", "why_tests_cant": "all pairs", "anchors": ["plasma-fold/src/primitives/crh/mod.rs#UTXOCRH", "plasma-fold/src/primitives/crh/mod.rs#PublicKeyCRH", "plasma-fold/src/primitives/crh/mod.rs#NonceCRH"]}
{"id": "C23", "title": "Circuit hashes equal native hashes", "statement": "For transactions, UTXOs, public keys, nonces and blocks, the in-circuit hash of the allocated value equals the native hash.", "quantifier": "all values", "why_tests_cant": "all values", "anchors": ["plasma-fold/src/primitives/crh/constraints.rs#evaluate", "plasma-fold/src/primitives/crh/mod.rs#evaluate", "plasma-fold/src/datastructures/transaction/constraints.rs#try_into"]}
{"id": "C24", "title": "What a block hash commits to", "statement": "Two blocks have the same block-hash preimage exactly when their three roots and heights agree; the signer list, deposits and withdrawals do not influence the hash.", "quantifier": "all pairs of blocks", "why_tests_cant": "all pairs", "anchors": ["plasma-fold/src/primitives/crh/mod.rs#BlockCRH", "plasma-fold/src/datastructures/block/mod.rs#Block"]}
{"id": "C25", "title": "is_valid characterisation", "statement": "When neither the input nor the output sum reaches 2^64, is_valid(Some(s)) accepts exactly the transactions whose non-dummy inputs are all owned by s and whose non-dummy inputs and outputs have equal totals; a wrong owner is reported before wrong amounts.", "quantifier": "all transactions and senders", "why_tests_cant": "all inputs", "anchors": ["plasma-fold/src/datastructures/transaction/mod.rs#Transaction::is_valid"]}
{"id": "C26", "title": "Overflowing sums", "statement": "With overflow checks on, is_valid panics when the owners match and a partial sum reaches 2^64. With overflow checks off the sums are taken modulo 2^64, and for every sender there is an accepted transaction whose outputs total exactly 2^64 more than its inputs.", "quantifier": "all transactions; both build modes", "why_tests_cant": "boundary behaviour over all 64-bit values", "anchors": ["plasma-fold/src/datastructures/transaction/mod.rs#Transaction::is_valid"]}
{"id": "C27", "title": "is_valid without a sender", "statement": "is_valid(None) uses the owner of the first input even if that input is a dummy, so a transaction whose first input is a dummy and whose later non-dummy inputs are owned by a key different from the one recorded in the dummy is rejected.", "quantifier": "all transactions", "why_tests_cant": "all inputs", "anchors": ["plasma-fold/src/datastructures/transaction/mod.rs#Transaction::is_valid"]}
{"id": "C28", "title": "enforce_valid agrees with is_valid", "statement": "For an allocated transaction whose sums stay below 2^64, enforce_valid is satisfied exactly when is_valid(Some(s)) is Ok; on raw witnesses it is satisfied exactly when all non-dummy inputs belong to the sender and the totals agree modulo the field characteristic.", "quantifier": "all transactions, senders and raw witnesses", "why_tests_cant": "all inputs", "anchors": ["plasma-fold/src/datastructures/transaction/constraints.rs#enforce_valid"]}
{"id": "C29", "title": "get_signer", "statement": "For a transaction satisfying enforce_valid, get_signer is the sender when some input is not a dummy, and the identity point otherwise.", "quantifier": "all witnesses", "why_tests_cant": "all inputs", "anchors": ["plasma-fold/src/datastructures/transaction/constraints.rs#get_signer"]}
{"id": "C30", "title": "Signatures verify", "statement": "A signature returned by Schnorr sign for secret key sk on message m verifies under sk*G for m, for every sequence of nonces drawn; sign does not return only if a drawn nonce is 0 (panic) or every hash is out of scalar range.", "quantifier": "all secret keys, messages, nonce sequences, hash functions", "why_tests_cant": "all keys and randomness", "anchors": ["plasma-fold/src/primitives/schnorr.rs#Schnorr::sign", "plasma-fold/src/primitives/schnorr.rs#Schnorr::verify"]}
{"id": "C31", "title": "Signature gadget agrees with native", "statement": "For canonical allocated signatures, is_valid in the circuit returns exactly the native verification result, and SchnorrGadget::verify is satisfied exactly when native verification succeeds, whenever the truncated hash is below the scalar modulus (always, if the base field is not larger than the scalar field); otherwise both gadgets are unsatisfiable.", "quantifier": "all keys, messages, signatures, internal witness choices", "why_tests_cant": "a malicious prover chooses the witnesses", "anchors": ["plasma-fold/src/primitives/schnorr.rs#SchnorrGadget::is_valid", "plasma-fold/src/primitives/schnorr.rs#SchnorrGadget::verify"]}
{"id": "C32", "title": "enforce_lt", "statement": "enforce_lt on two bit strings of the same number of windows is satisfiable exactly when the first number is smaller than the second, for every window width W with 2^W below half the characteristic, and then the code's own witness computation satisfies it.", "quantifier": "all bit strings, window widths, witness choices", "why_tests_cant": "a malicious prover chooses helper and bits", "anchors": ["plasma-fold/src/primitives/schnorr.rs#enforce_lt"]}
{"id": "C33", "title": "to_n_bits is an exact range check", "statement": "to_n_bits(n) with n below the field's bit size is satisfiable exactly when the value is below 2^n, and the bits are then the binary expansion.", "quantifier": "all field elements, n, witness choices", "why_tests_cant": "all field elements", "anchors": ["aggregator/src/circuit.rs#to_n_bits"]}
{"id": "C34", "title": "Signatures are not bound to the key", "statement": "The challenge does not hash the public key: if (s,e) verifies for m under P then (s - d*e, e) verifies for m under P + d*G for every d; and under the identity key anyone can produce a valid signature from any nonce whose hash is in range.", "quantifier": "all keys, messages, shifts", "why_tests_cant": "universal algebraic fact", "anchors": ["plasma-fold/src/primitives/schnorr.rs#Schnorr::verify"]}
{"id": "C35", "title": "Missing signatures", "statement": "process_signatures replaces a missing signature by (0,0); this is accepted as a signature exactly when the truncated hash of (0,0,message) is 0, independently of the key.", "quantifier": "all keys and messages", "why_tests_cant": "all inputs", "anchors": ["aggregator/src/lib.rs#process_signatures", "plasma-fold/src/primitives/schnorr.rs#Schnorr::verify"]}
{"id": "C36", "title": "Deposits conserve L1 funds", "statement": "deposit(i, amount) either panics or moves exactly amount from account i to account 0, leaving every other account and the total unchanged, and adds amount to the pending deposit of the depositor's key. It panics exactly when i = 0, i is not registered, the balance is insufficient, or (overflow checks on) an addition overflows.", "quantifier": "all contract states, indices and amounts", "why_tests_cant": "all histories", "anchors": ["mock-contract/src/lib.rs#MockContract::deposit", "mock-contract/src/lib.rs#L1Account::transfer"]}
{"id": "C37", "title": "Contract solvency", "statement": "After any history of joins and deposits on a new contract, without overflow, account 0 holds exactly the sum of all pending deposits.", "quantifier": "every history of joins and deposits", "why_tests_cant": "all histories", "anchors": ["mock-contract/src/lib.rs#MockContract"]}
{"id": "C38", "title": "Registry consistency", "statement": "After any history, keys, accounts and nonces have equal length, every joined key's index maps back to that key, and a key that joined twice is mapped to its last index while its earlier indices still resolve to the key.", "quantifier": "every history", "why_tests_cant": "all histories", "anchors": ["mock-contract/src/lib.rs#MockContract::join"]}
{"id": "C39", "title": "Public inputs of a produced block", "statement": "When all signers, depositors and withdrawers are registered (and fewer than 2^32 are), produce_block succeeds and derive_public_inputs of the block yields the step count, roots and the SHA-256 chains over the aggregator's own signer, deposit and withdrawal key lists; if one of them is not registered produce_block panics.", "quantifier": "all aggregator and contract states", "why_tests_cant": "all states", "anchors": ["aggregator/src/lib.rs#produce_block", "mock-contract/src/lib.rs#derive_public_inputs"]}
{"id": "C40", "title": "Transaction intake", "statement": "A successful process_transactions on a fresh epoch with at most 4096 transactions leaves a transaction tree whose contents are exactly the accepted transactions in order, and update proof k verifies from the root after k transactions to the root after k+1. Every transaction of an epoch is valid for some sender, however many calls, accepted or rejected, built the epoch.", "quantifier": "every list of (sender, transaction) pairs", "why_tests_cant": "all batches", "anchors": ["aggregator/src/lib.rs#process_transactions"]}
{"id": "C41", "title": "Intake failure keeps a prefix", "statement": "If process_transactions fails at the k-th pair, exactly the first k transactions have been recorded (list, tree, proofs), nothing else changed, and the error is that of the first invalid transaction.", "quantifier": "every list of pairs", "why_tests_cant": "all batches and failure points", "anchors": ["aggregator/src/lib.rs#process_transactions"]}
{"id": "C42", "title": "Transaction inclusion proofs", "statement": "After successful intake of at most 4096 transactions prove_transactions returns one path per transaction and path i is accepted for transaction i at index i against the epoch's transaction root.", "quantifier": "every batch", "why_tests_cant": "all batches", "anchors": ["aggregator/src/lib.rs#prove_transactions"]}
{"id": "C43", "title": "UTXO index and tree agree", "statement": "After every history of API calls that stays within tree capacity, including failing calls, each position recorded for a UTXO holds that UTXO in the UTXO tree, recorded positions are pairwise distinct and below the next free index, all unrecorded positions hold the dummy leaf, and the tree root is the root of those contents.", "quantifier": "every history of API calls incl. failures", "why_tests_cant": "all histories and failure points", "anchors": ["aggregator/src/lib.rs#process_signatures", "aggregator/src/lib.rs#AggregatorState"]}
{"id": "C44", "title": "No double spend", "statement": "process_signatures consumes a recorded coin for every real non-contract input of an applied transaction: the multiset of live UTXOs after a successful call is the one obtained by removing exactly those inputs (each present with multiplicity) and adding the non-contract outputs, transaction by transaction; a transaction spending an absent coin makes the call fail.", "quantifier": "every state and batch", "why_tests_cant": "all batches, multiplicities", "anchors": ["aggregator/src/lib.rs#process_signatures"]}
{"id": "C45", "title": "Spending authorisation", "statement": "A call to process_signatures applies transaction i only if the i-th supplied key equals the contract key or the i-th supplied signature verifies under the i-th supplied key for (transaction i, transaction root). If additionally the supplied keys are the senders used at intake, every consumed coin belongs to the key whose signature verified; process_signatures itself does not check this, and a key of a stranger is accepted.", "quantifier": "every state and batch", "why_tests_cant": "all batches", "anchors": ["aggregator/src/lib.rs#process_signatures"]}
{"id": "C46", "title": "Value conservation per call", "statement": "If the applied transactions were valid at intake for the keys supplied and no sum overflows, then live value after + logged withdrawals = live value before + logged deposits.", "quantifier": "every state and batch", "why_tests_cant": "all batches", "anchors": ["aggregator/src/lib.rs#process_signatures"]}
{"id": "C47", "title": "Failure is not atomic", "statement": "When process_signatures returns an error, all effects up to the failing input remain: earlier transactions are applied, and inputs of the failing transaction already consumed are gone although none of its outputs was created; live value never increases through the failing transaction itself.", "quantifier": "every state, batch and failure point", "why_tests_cant": "all failure points", "anchors": ["aggregator/src/lib.rs#process_signatures"]}
{"id": "C48", "title": "Signer bookkeeping", "statement": "After a successful process_signatures on a fresh epoch with at most 4096 inputs there is one signer entry per input, entry i being the key exactly when transaction i was applied, and the signer tree contents are the previous contents overwritten at exactly the applied indices; one circuit input is recorded per transaction.", "quantifier": "every batch", "why_tests_cant": "all batches", "anchors": ["aggregator/src/lib.rs#process_signatures"]}
{"id": "C49", "title": "Epoch reset", "statement": "reset_for_new_epoch restores the transaction tree, transactions, deposits, withdrawals, signers, accumulators and proofs to their initial values and preserves the UTXO set, UTXO tree and next index; the signer tree is not reset and keeps last epoch's contents.", "quantifier": "every state", "why_tests_cant": "all states", "anchors": ["aggregator/src/lib.rs#reset_for_new_epoch"]}
{"id": "C50", "title": "Block heights never advance", "statement": "No API call changes the height: every block produced in every epoch of every history has height 0.", "quantifier": "every history", "why_tests_cant": "all histories", "anchors": ["aggregator/src/lib.rs#produce_block"]}
{"id": "C51", "title": "Signing twice replays from the start", "statement": "A second process_signatures call in the same epoch starts again at transaction 0: its effect on UTXOs is that of applying the transactions again, so contract-sent transactions mint their outputs a second time.", "quantifier": "every state", "why_tests_cant": "all states", "anchors": ["aggregator/src/lib.rs#process_signatures"]}
{"id": "C52", "title": "Epoch capacity", "statement": "process_transactions accepts a 4097th transaction without an error, but then no verifying inclusion proof exists for it: prove_transactions fails.", "quantifier": "every batch longer than 4096", "why_tests_cant": "requires >4096 transactions and all contents", "anchors": ["aggregator/src/lib.rs#process_transactions", "aggregator/src/lib.rs#prove_transactions"]}
{"id": "C53", "title": "Honest epochs are provable", "statement": "For an epoch run from a fresh aggregator (or a reset one with blank signer tree): with registered keys, no overflow, at most 4096 transactions, supplied keys equal to the intake senders, no contract output in an unapplied transaction and no valid signature by the contract, the recorded circuit inputs satisfy the aggregator circuit step by step in full mode and the final state equals derive_public_inputs of the produced block.", "quantifier": "every epoch meeting the conditions", "why_tests_cant": "all epochs", "anchors": ["aggregator/src/circuit.rs#generate_step_constraints", "aggregator/src/lib.rs#process_signatures", "mock-contract/src/lib.rs#derive_public_inputs"]}
{"id": "C54", "title": "Circuit step soundness for the UTXO set", "statement": "If a step is satisfied from the root of given UTXO contents then (unless a hash collision is exhibited) every real input of a signed transaction was present at the given position and is replaced by the dummy, every real non-contract output of an applied transaction is written over a dummy, and the new root is the root of the resulting contents.", "quantifier": "every contents and every witness", "why_tests_cant": "adversarial prover", "anchors": ["aggregator/src/circuit.rs#generate_step_constraints"]}
{"id": "C55", "title": "No double spend in the circuit", "statement": "Along any satisfied sequence of steps the multiset of live UTXOs evolves by removing inputs that are present and adding outputs; a coin cannot be consumed twice.", "quantifier": "every sequence of satisfied steps", "why_tests_cant": "adversarial prover, unbounded runs", "anchors": ["aggregator/src/circuit.rs#generate_step_constraints"]}
{"id": "C56", "title": "Only signed or contract transactions change the UTXO set", "statement": "A satisfied step whose signature is invalid and whose sender is not the contract leaves the UTXO root and signer root unchanged.", "quantifier": "every witness", "why_tests_cant": "adversarial prover", "anchors": ["aggregator/src/circuit.rs#generate_step_constraints"]}
{"id": "C57", "title": "Integer conservation in full mode", "statement": "In full mode, for a satisfied step whose inputs are in the 64-bit range, the integer totals of real inputs and outputs agree, and all output amounts fit in 64 bits.", "quantifier": "every witness", "why_tests_cant": "adversarial prover; field wrap-around", "anchors": ["aggregator/src/circuit.rs#generate_step_constraints", "plasma-fold/src/datastructures/transaction/constraints.rs#enforce_valid"]}
{"id": "C58", "title": "Transfer-only mode lacks range checks", "statement": "In transfer-only mode there are satisfied steps whose real outputs have integer total exceeding the inputs' total (amounts wrap modulo the characteristic).", "quantifier": "existence, for every signer key and live coin", "why_tests_cant": "needs a crafted witness in the full field", "anchors": ["aggregator/src/circuit.rs#generate_step_constraints"]}
{"id": "C59", "title": "Transaction root chain", "statement": "Along any n satisfied steps starting from the blank transaction root at step 0 (n <= 4096), the transaction root is the root of the n transactions in order, tx_root_final is unchanged, the step counter is n; more than 4096 non-default transactions cannot be proven. With any number of steps below the field's size, transaction j is written at slot j mod 4096, and no transaction other than the default one is ever overwritten.", "quantifier": "every sequence of satisfied steps", "why_tests_cant": "adversarial prover", "anchors": ["aggregator/src/circuit.rs#generate_step_constraints"]}
{"id": "C60", "title": "Signer accumulator and signer tree in the circuit", "statement": "A satisfied step appends to the signer chain the sender's key when the transaction is applied and the identity otherwise, and writes the key at the step's index in the signer tree only over an identity leaf.", "quantifier": "every witness", "why_tests_cant": "adversarial prover", "anchors": ["aggregator/src/circuit.rs#generate_step_constraints"]}
{"id": "C61", "title": "Withdrawals of unapplied transactions", "statement": "In full mode the withdrawal chain is extended by (sender, total of real contract outputs) whenever that total is non-zero, whether or not the transaction was applied; so a satisfied step with an invalid signature can extend it, while the native aggregator records no withdrawal.", "quantifier": "every witness", "why_tests_cant": "adversarial prover", "anchors": ["aggregator/src/circuit.rs#generate_step_constraints", "aggregator/src/lib.rs#process_signatures"]}
{"id": "C62", "title": "Deposit chain in the circuit", "statement": "In full mode the deposit chain is extended, in output order, by exactly the real outputs of contract-sent transactions with their 64-bit amounts; otherwise unchanged.", "quantifier": "every witness", "why_tests_cant": "adversarial prover", "anchors": ["aggregator/src/circuit.rs#generate_step_constraints"]}
{"id": "C63", "title": "Contract transactions carrying a valid signature", "statement": "The circuit deletes inputs when the signature is valid even if the sender is the contract, while the native aggregator never deletes contract inputs; so a contract transaction with a valid signature and a real input is applied natively but its recorded inputs do not satisfy the circuit (unless the fabricated default deletion proof happens to match).", "quantifier": "every such epoch", "why_tests_cant": "needs a hash-dependent argument", "anchors": ["aggregator/src/circuit.rs#generate_step_constraints", "aggregator/src/lib.rs#process_signatures"]}
{"id": "C64", "title": "Client balance equation", "statement": "A satisfied client step changes the balance by the field sum, over all transactions in the step, of outputs owned by the user minus inputs owned by the user, and the nonce by the number of transactions whose signer is the user.", "quantifier": "every step size and witness", "why_tests_cant": "adversarial prover", "anchors": ["client/src/circuits/mod.rs#update_balance"]}
{"id": "C65", "title": "Padding transactions have no effect", "statement": "For a user whose key is not the identity, a transaction equal to the default transaction changes neither balance, nonce nor last index, and imposes no constraint on proofs or indices except the comparison range.", "quantifier": "every witness", "why_tests_cant": "all witnesses", "anchors": ["client/src/circuits/mod.rs#update_balance"]}
{"id": "C66", "title": "Strictly increasing indices", "statement": "Within a satisfied client step, and across consecutive steps on the same block, the indices of regular transactions strictly increase as integers and are at most (p-1)/2; hence index 0 can never be processed.", "quantifier": "every witness", "why_tests_cant": "adversarial prover", "anchors": ["client/src/circuits/mod.rs#update_balance"]}
{"id": "C67", "title": "Inclusion", "statement": "Every regular transaction of a satisfied client step is the content of the block's transaction tree at its index modulo 4096 and its signer occurs in the block's signer tree, unless a hash collision is exhibited.", "quantifier": "every witness and tree contents", "why_tests_cant": "adversarial prover", "anchors": ["client/src/circuits/mod.rs#update_balance"]}
{"id": "C68", "title": "Replay within a block", "statement": "If all indices are below 4096, no transaction position is credited twice by consecutive steps on one block; but without that bound a transaction at position i>0 can be credited again at index i+4096.", "quantifier": "every witness", "why_tests_cant": "adversarial prover", "anchors": ["client/src/circuits/mod.rs#update_balance"]}
{"id": "C69", "title": "Replay across blocks", "statement": "Block heights may not decrease; with pairwise distinct heights a block's transactions are credited in one contiguous run only, but alternating between two blocks of equal height resets the index and allows crediting the same transaction again.", "quantifier": "every sequence of satisfied steps", "why_tests_cant": "adversarial prover", "anchors": ["client/src/circuits/mod.rs#update_balance"]}
{"id": "C70", "title": "Unsigned transactions and signer positions", "statement": "The client checks that the signer occurs somewhere in the signer tree, not at the transaction's index: a transaction not applied by the aggregator is credited if its sender occurs at any position of the signer tree.", "quantifier": "existence and universal statement", "why_tests_cant": "adversarial prover", "anchors": ["client/src/circuits/mod.rs#update_balance"]}
{"id": "C71", "title": "Dummy-flagged outputs are credited", "statement": "The client credits outputs whose dummy flag is set, which transaction validity ignores; so a valid transaction can credit an arbitrary amount.", "quantifier": "existence", "why_tests_cant": "crafted witness", "anchors": ["client/src/circuits/mod.rs#update_balance", "plasma-fold/src/datastructures/transaction/mod.rs#Transaction::is_valid"]}
{"id": "C72", "title": "Key binding and accumulator", "statement": "A satisfied client step was produced with a key whose hash is the state's key hash, leaves the key hash unchanged, sets block hash and height to the processed block's, and updates the accumulator by one absorption of the block hash.", "quantifier": "every witness", "why_tests_cant": "adversarial prover", "anchors": ["client/src/circuits/mod.rs#update_balance", "plasma-fold/src/primitives/accumulator/constraints.rs#update"]}
{"id": "C73", "title": "No range check on the client balance", "statement": "The client step never checks that the balance covers the spent inputs: a satisfied step can take a balance below zero, i.e. to a field element near the characteristic.", "quantifier": "existence", "why_tests_cant": "crafted witness", "anchors": ["client/src/circuits/mod.rs#update_balance"]}
{"id": "C74", "title": "Client steps are total", "statement": "The client step synthesises for exactly the auxiliary inputs with N transactions, N transaction paths and N signer paths of the right lengths, and the default auxiliary input satisfies it for a state with the identity key hash and height zero, recording the block whose roots and height are all zero.", "quantifier": "every auxiliary input", "why_tests_cant": "all sizes N", "anchors": ["client/src/circuits/mod.rs#UserAux::default", "client/src/circuits/mod.rs#update_balance"]}
{"id": "C75", "title": "User bookkeeping", "statement": "spend_transaction subtracts the total of all real inputs and receive_transaction adds the total of all real outputs regardless of who owns them; with overflow checks on, spend panics exactly when the balance is below that total or the nonce is at its maximum, and receive exactly when the balance would overflow; with overflow checks off both wrap around. A new or sampled user has no balance, a zero accumulator, the identifier given, and signatures that verify under their own key; only the sampled nonce is random.", "quantifier": "all users and transactions", "why_tests_cant": "all inputs", "anchors": ["plasma-fold/src/datastructures/user/mod.rs#User::spend_transaction", "plasma-fold/src/datastructures/user/mod.rs#User::receive_transaction"]}
{"id": "C76", "title": "Batching of transactions into proof steps is irrelevant", "statement": "Proving a list of transactions in one call or cutting it into any number of consecutive batches reaches exactly the same final public state from the same initial state: the result depends only on the concatenation of the transactions proved.", "quantifier": "every list of batches of step inputs and every pair of states", "why_tests_cant": "all ways of cutting a history of any length", "anchors": ["aggregator/src/circuit.rs#generate_step_constraints"]}
{"id": "C77", "title": "Circuit completeness", "statement": "Every transaction that is owned by its signer, balanced, in range, spends coins that really sit at the claimed positions and creates its outputs at free positions can be proved: Merkle paths exist that make the step circuit satisfied.", "quantifier": "every tree content, transaction, position and signature", "why_tests_cant": "existence of a witness for every valid transaction", "anchors": ["aggregator/src/circuit.rs#generate_step_constraints"]}
{"id": "C78", "title": "A second epoch cannot be proved from the aggregator's own signer tree", "statement": "After an epoch in which the j-th transaction was applied for a non-identity key, the signer tree survives reset_for_new_epoch with that key in slot j; any aggregator-circuit proof starting at step 0 from that signer root and applying its j-th transaction exposes a hash collision, so the second epoch of an aggregator is not provable from its own state whenever a slot is reused.", "quantifier": "every reachable aggregator, every epoch, every later sequence of proof steps and every witness", "why_tests_cant": "ranges over all witnesses of the next epoch's proof and all histories", "anchors": ["aggregator/src/lib.rs#reset_for_new_epoch", "aggregator/src/lib.rs#process_signatures", "aggregator/src/circuit.rs#generate_step_constraints"]}
{"id": "C79", "title": "Native client preparation is always accepted by the client circuit", "statement": "The auxiliary input a client prepares from an aggregator's own trees and a finalised block (transactions, native Merkle proofs, indices and signer proofs) can always be prepared, and satisfies the client circuit whenever the heights, indices and signer positions are admissible; in particular, after an honest native epoch, every strictly increasing selection of applied transactions with a real input (position 0 excepted) is credited, changing balance and nonce by exactly those transactions' effect on the user.", "quantifier": "every reachable aggregator, epoch, selection and user state", "why_tests_cant": "ranges over all histories and selections; relates native tree code, contract and circuit", "anchors": ["client/src/circuits/mod.rs#update_balance", "aggregator/src/lib.rs#process_transactions", "plasma-fold/src/primitives/sparsemt/mod.rs#generate_proof", "client/src/lib.rs"]}
{"id": "C80", "title": "Client balance equals the coins held", "statement": "Over any aggregator proof in which no applied transaction carries value in dummy-flagged entries, the total value of the coins owned by a non-contract key changes by exactly the sum of that key's gains over the applied transactions; so a user whose client proof processes exactly the applied transactions concerning them, once each, keeps (modulo the field characteristic) a balance equal to the value of the coins they own.", "quantifier": "every aggregator proof, every client proof, all witnesses", "why_tests_cant": "two adversarial provers and unbounded histories", "anchors": ["client/src/circuits/mod.rs#update_balance", "aggregator/src/circuit.rs#generate_step_constraints"]}
{"id": "C81", "title": "Identifier from a Merkle path", "statement": "compute_id_from_path_and_check accepts the path of leaf i of an arkworks Merkle tree with at most 253 levels exactly for the identifier i, and among paths of one length an accepted identifier determines the path's position.", "quantifier": "every tree height, leaf index, path and claimed identifier", "why_tests_cant": "all indices and adversarial paths", "anchors": ["plasma-fold/src/circuits/gadgets/mod.rs#compute_id_from_path_and_check"]}
{"id": "C82", "title": "A block backed by a proof tells the truth", "statement": "If an epoch proof (any number of steps, any witnesses) starting from the blank transaction root and empty hash chains ends in the public inputs that the contract derives from a block, then, unless two hash inputs occurring in the two computations collide, the block's transaction root is the root of exactly the transactions proved, its signer list names (through the contract's registry) the sender of every applied transaction and nobody for the others, its deposits are exactly the real outputs of contract-sent transactions with their amounts, and its withdrawals are exactly the (sender, total) pairs of transactions paying the contract.", "quantifier": "every block, contract registry, proof and witness", "why_tests_cant": "adversarial aggregator; relates circuit chains with on-chain recomputation", "anchors": ["plasma-fold/src/datastructures/block/mod.rs", "mock-contract/src/lib.rs", "aggregator/src/circuit.rs#generate_step_constraints"]}
{"id": "C83", "title": "Value over proved blocks", "statement": "Over any sequence of blocks each backed by an epoch proof continuing from the coins of the previous one, starting from coins of ordinary users with 64-bit amounts, the total value of live coins grows by exactly the deposits the blocks report, less withdrawals that never exceed those reported; if every transaction that pays the contract was applied, coins left = deposits - withdrawals, so that (starting from nothing) blocks never pay out more than was paid in. No coin owned by the contract ever appears.", "quantifier": "every sequence of blocks, proofs and witnesses", "why_tests_cant": "adversarial aggregator and unbounded histories", "anchors": ["aggregator/src/circuit.rs#generate_step_constraints", "mock-contract/src/lib.rs", "plasma-fold/src/datastructures/block/mod.rs"]}
{"id": "C84", "title": "Blocks really produced can be alternated for unbounded crediting", "statement": "Every block a native aggregator produces has height 0. So, given any two produced blocks with different hashes, any user step accepted on the first one can be repeated any number of times between idle steps on the second: for every n there is an accepted client run whose balance is the initial balance plus n+1 times the step's gain (mod the characteristic). The client circuit's ordering checks do not prevent crediting one transaction arbitrarily often.", "quantifier": "every pair of produced blocks, every accepted step, every n", "why_tests_cant": "unbounded runs of an adversarial client", "anchors": ["client/src/circuits/mod.rs#update_balance", "aggregator/src/lib.rs#produce_block"]}
{"id": "C85", "title": "Update and membership gadgets for arkworks trees", "statement": "TreeGadgets::update_and_check, satisfied from the root of given leaves, shows that the leaf at the path's position hashes like the claimed old leaf and returns true exactly when the claimed new root is the root with that leaf replaced, or a collision on the path is exhibited; the honest path of any leaf always satisfies it, and a wrong new root only makes the result false, so that callers must enforce it. A path whose identifier was checked with compute_id_from_path_and_check and that verifies membership proves the leaf registered under that identifier.", "quantifier": "every tree of up to 254 levels, contents, path, leaf and claimed root", "why_tests_cant": "adversarial witnesses over all positions", "anchors": ["plasma-fold/src/circuits/gadgets/mod.rs#update_and_check", "plasma-fold/src/circuits/gadgets/mod.rs#compute_id_from_path_and_check", "plasma-fold/src/datastructures/publickeymap/mod.rs#PublicKeyTree"]}
{"id": "C86", "title": "What the public inputs of a block determine", "statement": "If derive_public_inputs returns the same list for two blocks (also against different states of the registry), the three roots agree and so do the lists of signer keys, deposited and withdrawn (key, amount) pairs the blocks' indices stand for, or a SHA-256 collision or zero digest occurs among the inputs hashed. Against one registry without duplicate keys and without the identity the blocks are then equal except for their height. The height is not bound at all, and an index of a registered identity key is interchangeable with a missing signer, as are two indices of one key.", "quantifier": "all pairs of blocks, all contract states", "why_tests_cant": "binding is a statement about all pairs of blocks", "anchors": ["mock-contract/src/lib.rs#derive_public_inputs"]}
{"id": "C87", "title": "What a signature is bound to", "statement": "A signature that verifies under one key for two messages exhibits a hash collision; so, in the aggregator's circuit, one signature of one sender counts for a single transaction of a single epoch (identified by its final transaction root). Two signatures of one message under one key with the same challenge have the same response, up to a collision or an identity nonce point. Two signatures made with the same random draw reveal the secret key by one division. Likewise any two valid signatures of a key around the same nonce point with different challenges, however they came about, determine the secret key of that public key.", "quantifier": "every key, message, signature, draw, epoch", "why_tests_cant": "ranges over all pairs of messages and signatures", "anchors": ["plasma-fold/src/primitives/schnorr.rs#verify", "plasma-fold/src/primitives/schnorr.rs#sign", "aggregator/src/circuit.rs#generate_step_constraints"]}
{"id": "C88", "title": "Value over the life of an aggregator", "statement": "For an aggregator created with Aggregator::new and any sequence of process_transactions, process_signatures (with the keys the transactions were taken in with, failing calls included) and epochs closed by produce_block and reset_for_new_epoch, while the UTXO tree has room and, in builds without overflow checks, no transaction's totals reach 2^64: the value of all live coins plus everything ever withdrawn never exceeds everything ever deposited, with equality as long as no process_signatures call failed; in particular the blocks published never pay out more than they pay in.", "quantifier": "every call history over any number of epochs", "why_tests_cant": "unbounded histories", "anchors": ["aggregator/src/lib.rs#Aggregator", "aggregator/src/lib.rs#process_transactions", "aggregator/src/lib.rs#process_signatures", "aggregator/src/lib.rs#produce_block", "aggregator/src/lib.rs#reset_for_new_epoch"]}
{"id": "C89", "title": "The circuits determine their outputs", "statement": "No witness freedom reaches the state: two satisfying assignments of the aggregator circuit from the same state over the same sequence of transaction inputs, batched in whatever way, end in the same state, and so do two satisfying runs of the client circuit over the same external inputs.", "quantifier": "every state, inputs, batching and internal witnesses", "why_tests_cant": "a malicious prover chooses the internal witnesses", "anchors": ["aggregator/src/circuit.rs#generate_step_constraints", "client/src/circuits/mod.rs#update_balance"]}
{"id": "C90", "title": "Client credits only transactions of the proved epoch", "statement": "If a block is backed by an aggregator proof of at most 4096 transactions, every regular transaction that a client proof step processes against that block's roots is the transaction at that index (modulo 4096) of the proved epoch: its inputs belong to its sender, its totals agree, its outputs are 64-bit amounts, so that it credits nobody more than 4(2^64-1); and its signer signed something in that epoch or was in the signer tree before (or a hash collision is exhibited).", "quantifier": "every aggregator proof, block, client step and witnesses", "why_tests_cant": "two adversarial provers", "anchors": ["aggregator/src/circuit.rs#generate_step_constraints", "client/src/circuits/mod.rs#update_balance", "mock-contract/src/lib.rs#derive_public_inputs"]}
{"id": "C91", "title": "Deposited funds stay locked", "statement": "Over any sequence of join and deposit calls without u64 overflow: account 0 only grows, by exactly the amounts deposited; every other account only shrinks, by exactly what was deposited from it and never below zero; no pending deposit ever shrinks, a registered index keeps its key, and no block hash is ever recorded. The mock contract has no call that pays anything out.", "quantifier": "every call history and every later continuation of it", "why_tests_cant": "unbounded histories", "anchors": ["mock-contract/src/lib.rs#MockContract", "mock-contract/src/lib.rs#join", "mock-contract/src/lib.rs#deposit"]}
{"id": "C92", "title": "L2 deposits are not checked against L1 deposits", "statement": "produce_block and derive_public_inputs depend on the contract only through the order of the joins: balances and pending deposits have no influence. Consequently, at the start of any epoch a single unsigned transaction of the contract's key makes the aggregator create a coin of any amount for any registered key; the block is produced, reports that deposit, and its recorded inputs satisfy the aggregator circuit, even if nobody ever deposited anything on L1 (unless the challenge hash of the missing signature is zero).", "quantifier": "every reached epoch start, key, amount and contract history", "why_tests_cant": "a statement about all histories and all proofs", "anchors": ["mock-contract/src/lib.rs#derive_public_inputs", "aggregator/src/lib.rs#produce_block", "aggregator/src/lib.rs#process_signatures", "aggregator/src/circuit.rs#generate_step_constraints"]}
{"id": "C93", "title": "Client balances are conserved overall", "statement": "Take some of the transactions of an aggregator proof and, for every key some amount in them belongs to, a client proof that processes exactly those transactions which concern the key, each once and in any order. Then the sum of all the client balances changes, modulo the field characteristic, by the amounts in outputs flagged as dummies less the amounts in inputs flagged as dummies; if those are zero and both sums are below the characteristic the sum of the balances is unchanged.", "quantifier": "every aggregator proof (either compilation mode), transactions of it, client proofs, orders and steps", "why_tests_cant": "any number of adversarial provers", "anchors": ["aggregator/src/circuit.rs#generate_step_constraints", "client/src/circuits/mod.rs#update_balance"]}
{"id": "C94", "title": "A failed signature call cannot be repaired within the epoch", "statement": "In an epoch the number of signer entries equals the number of recorded IVC inputs plus the number of process_signatures calls that returned an error. Consequently after a single failed call, whatever else is taken in and signed before the block is produced, no aggregator proof of either compilation mode that starts at step 0 (from whatever roots) and has as many inputs as the aggregator recorded ends in the public inputs that the contract derives from the block.", "quantifier": "every epoch: any number of intake and signature calls in any order, failed or not, each for any contract key; every contract, block and proof", "why_tests_cant": "unbounded sequences of calls and all possible proofs", "anchors": ["aggregator/src/lib.rs#process_signatures", "aggregator/src/lib.rs#ivc_inputs", "aggregator/src/lib.rs#produce_block", "mock-contract/src/lib.rs#derive_public_inputs", "aggregator/src/circuit.rs#generate_step_constraints"]}
{"id": "C95", "title": "A block is proved only with the transactions taken in", "statement": "Up to hash collisions that are exhibited, a proof that starts from the empty transaction tree and ends in the public inputs derived from an epoch's block contains, if it has at most 4096 inputs, exactly the transactions of that epoch, in order, followed by default ones; and in general at every position j the epoch's transaction number j mod 4096 or the default one, each transaction of the epoch occurring. In particular, if the transactions of an epoch are signed a second time (which succeeds natively, e.g. minting the contract's deposits again), the inputs the aggregator recorded cannot prove the block.", "quantifier": "every reached aggregator, contract, block, proof and cut into steps", "why_tests_cant": "a statement about all proofs an adversarial prover may make", "anchors": ["aggregator/src/lib.rs#process_transactions", "aggregator/src/lib.rs#process_signatures", "aggregator/src/circuit.rs#generate_step_constraints", "mock-contract/src/lib.rs#derive_public_inputs"]}
{"id": "C96", "title": "Fair requests are granted", "statement": "If nothing is taken in yet, any number of requests that spend only their sender's coins, are balanced without overflow and can be executed one after the other on the live coins, are all taken in by process_transactions; and once every sender other than the contract has signed its transaction with the transaction root, process_signatures succeeds and leaves exactly the coins of that execution. In particular the owner of any live coin can pass it on to any other key.", "quantifier": "every reached aggregator with room for the new coins, every batch, all signatures returned by sign", "why_tests_cant": "a liveness statement over all reachable states and batches", "anchors": ["aggregator/src/lib.rs#process_transactions", "aggregator/src/lib.rs#process_signatures", "plasma-fold/src/primitives/schnorr.rs#sign"]}
{"id": "C97", "title": "Payments arrive", "statement": "From the start of an epoch whose signer slots are blank, under the conditions of C96, with all senders and receivers registered and the contract's key not having signed a transaction with a real input: the batch is taken in, the signature call succeeds, the block is produced, the recorded inputs satisfy the aggregator circuit however they are cut into steps and end in the public inputs the contract derives; and every user whose state is not ahead of the block can, in one client step, credit any increasing choice of these transactions (other than the first) that have a real input, and its balance changes by exactly what they pay to it less what they spend of it.", "quantifier": "every reached epoch start, batch of at most 4096 requests, answers, contract history, user and choice of transactions", "why_tests_cant": "end-to-end completeness for unbounded batches and states", "anchors": ["aggregator/src/lib.rs#process_transactions", "aggregator/src/lib.rs#process_signatures", "aggregator/src/lib.rs#produce_block", "mock-contract/src/lib.rs#derive_public_inputs", "aggregator/src/circuit.rs#generate_step_constraints", "client/src/circuits/mod.rs#update_balance"]}
{"id": "C98", "title": "Exactly when calls panic", "statement": "On a reached aggregator (index arithmetic within 64 bits): process_transactions panics exactly if overflow checks are on and the list has a transaction whose real inputs all belong to its sender and whose inputs or outputs total 2^64 or more, and every pair before it is valid; process_signatures (with room in the UTXO tree) panics exactly if it is given more entries than the epoch has transactions and the call on the first so many entries succeeds; produce_block panics exactly if some signer, depositor or withdrawer is not registered with the contract; derive_public_inputs panics exactly if a signer, deposit or withdrawal of the block has an index that was never assigned. No other input can make these calls panic.", "quantifier": "every reached aggregator, contract history, batch, list of signatures and block", "why_tests_cant": "absence of panics is over all inputs and histories", "anchors": ["aggregator/src/lib.rs#process_transactions", "aggregator/src/lib.rs#process_signatures", "aggregator/src/lib.rs#produce_block", "mock-contract/src/lib.rs#derive_public_inputs"]}
{"id": "C99", "title": "What a block reports", "statement": "The block produced after an epoch's signatures lists, in order: for each transaction with an entry, its signer's registry index if the transaction was applied and nothing otherwise; one deposit (receiver's index, amount) for every real output of every transaction answered for by the contract's key; and one withdrawal (signer's index, amount) for every applied transaction whose real outputs to the contract's key sum to something non-zero modulo 2^64. Nothing else is reported, and the transaction root and height are those of the epoch.", "quantifier": "every reached aggregator at the start of signing, list of keys and signatures for which process_signatures succeeds, contract history with at most 2^32 registered keys, and produced block", "why_tests_cant": "the report must agree with the epoch for every batch, signature list and registry", "anchors": ["aggregator/src/lib.rs#process_signatures", "aggregator/src/lib.rs#produce_block", "mock-contract/src/lib.rs#MockL1Contract"]}
{"id": "C100", "title": "Exits and deposits", "statement": "At the start of any epoch the owner of any live coin of non-zero amount that is registered with the contract can leave: the transaction returning the coin to the contract's key is taken in, and once the owner signed it the block reports exactly one withdrawal, of the owner's index and the coin's amount, no deposit, the coin is gone and every other coin remains. Likewise the contract can deposit any amount to any registered key without a signature: the block reports exactly one deposit of the receiver's index and the amount, and exactly that coin is added. In both cases, if the first signer slot is blank (and, for the deposit, the all-zero signature standing for the missing one does not verify), the recorded inputs satisfy the aggregator circuit and end in the public inputs the contract derives.", "quantifier": "every reached epoch start, live coin, secret key, randomness, contract history, receiver and amount", "why_tests_cant": "liveness must hold from every reachable state, however the coin came about", "anchors": ["aggregator/src/lib.rs#process_transactions", "aggregator/src/lib.rs#process_signatures", "aggregator/src/lib.rs#produce_block", "mock-contract/src/lib.rs#derive_public_inputs", "aggregator/src/circuit.rs#generate_step_constraints"]}
{"id": "C101", "title": "The code's own witnesses prove whatever can be proved", "statement": "A step of the aggregator's or of a client's proof that some choice of hints satisfies is satisfied by the hints the code computes, with the same output, and so is every run of such steps. The aggregator's step synthesises for exactly the states of at least eight elements and the batches whose Merkle proofs have the configured lengths, in particular for a batch of any number of default inputs (empty coins, zero positions and digests, identity sender, zero signature); and a batch acts as its transactions one by one.", "quantifier": "every contract key, mode, state vector, batch, auxiliary input and sequence of batches", "why_tests_cant": "a satisfying choice of hints is existential over all provers, and all states and batches must be covered", "anchors": ["aggregator/src/circuit.rs#generate_step_constraints", "aggregator/src/circuit.rs#AggregatorCircuitInputs", "aggregator/src/circuit.rs#to_n_bits", "plasma-fold/src/primitives/schnorr.rs#enforce_lt", "client/src/circuits/mod.rs#update_balance"]}
{"id": "C102", "title": "tx_is_deposit is not what a step counts as a deposit", "statement": "tx_is_deposit holds exactly when every real input belongs to the given key. For a transaction that passes a step it therefore holds exactly when the contract sent it or it has no real input; the step goes by the sender, so from every state whose transaction slot is blank and for every key other than the contract's there is a provable transaction of that key that counts as a deposit but leaves the deposit accumulator unchanged.", "quantifier": "every allocated transaction, key, state and satisfied step", "why_tests_cant": "all transactions and states", "anchors": ["aggregator/src/circuit.rs#tx_is_deposit", "aggregator/src/circuit.rs#generate_step_constraints"]}
{"id": "C103", "title": "Coin positions are used once, and the coin tree fills up silently", "statement": "From any reached state, whatever calls follow (within the size of the UTXO tree), a recorded coin is where it was before or at a position handed out since; a position that has been handed out and is vacant stays vacant for ever, no position ever holds a second coin, placeholders are never recorded, and the position counter grows by exactly the number of coins created. So spending frees no space: when 2^31 coins have been created (a reachable state, for every contract key), the next authorised transaction that creates a coin is still applied without an error, at position 2^31, and as long as position 0 is occupied by a coin it does not spend, its recorded input satisfies no proof without a hash collision.", "quantifier": "every reached state, every continuation of calls, every position, coin, transaction, signer and claimed proof", "why_tests_cant": "all histories, and the limit is 2^31 coins away", "anchors": ["aggregator/src/lib.rs#process_signatures", "aggregator/src/lib.rs#reset_for_new_epoch", "plasma-fold/src/primitives/sparsemt/mod.rs#update_and_prove", "aggregator/src/circuit.rs#generate_step_constraints"]}
{"id": "C104", "title": "The circuits have one layout whatever the values", "statement": "Building a step of the aggregator's circuit issues a sequence of constraints and hint allocations that depends only on the mode (transfers only or not) and on the number of inputs in the batch, each input contributing the same piece; it does not depend on the state, the contract key, the transactions, signatures, proofs or on how hints are chosen. So any two steps of one size that can be built at all are the same circuit, and every step of every accepted run is the circuit obtained from the default inputs used for preprocessing. The client's step, with either accumulator, likewise depends only on the number of transactions per step.", "quantifier": "every state, contract key, batch, auxiliary input and choice of hints", "why_tests_cant": "a test synthesises the circuit for a few values; folding needs the same circuit for all of them", "anchors": ["aggregator/src/circuit.rs#generate_step_constraints", "aggregator/src/circuit.rs#AggregatorCircuitInputs", "client/src/circuits/mod.rs#update_balance", "plasma-fold/src/primitives/sparsemt/constraints.rs"]}
{"id": "C105", "title": "Balances of diligent users over all proved blocks", "statement": "Over any sequence of blocks each backed by an epoch proof continuing from the coins of the previous one, a user (not the contract) whose client proof processes exactly the applied transactions that concern them, each once, in whatever order and steps, keeps the difference between their balance and the value of the coins they own, modulo the field characteristic (amounts in entries flagged as dummies aside). Starting from no coins and a zero balance, as long as the blocks report less than the characteristic in deposits, the balance is exactly the value of the coins owned. So the balances of any such users sum to at most the deposits; to at most deposits less withdrawals if every transaction that pays the contract was applied; and to exactly that if every coin's owner is among them.", "quantifier": "every sequence of blocks, proofs and witnesses, every set of users and their client runs", "why_tests_cant": "all histories of two proof systems that are only connected through roots and hashes", "anchors": ["aggregator/src/circuit.rs#generate_step_constraints", "client/src/circuits/mod.rs#update_balance", "mock-contract/src/lib.rs#derive_public_inputs"]}
{"id": "C106", "title": "Exactly what a step accepts", "statement": "A step of the aggregator's circuit on one transaction is satisfiable from one public state to another exactly when: every Merkle path has the configured number of siblings; every real input belongs to the sender and the real inputs and outputs sum to the same value modulo the field characteristic; the recomputed challenge is below the scalar modulus; the transaction root, the coin root and the signer root are each followed through the writes of the transaction (insertion at the step's slot; removal of the real inputs if signed, then insertion of the real outputs not owned by the contract if applied; insertion of the sender if applied), each path leading from the old leaf to the current root and from the new leaf to the next; the counter grows by one, the final transaction root stays, the signer chain is extended; and, in the full circuit only, all output amounts and the contract's total are below 2^64 and the deposit and withdrawal chains are extended by the transaction's entries (the transfer-only circuit leaves them alone and checks no amounts). Nothing else is checked, and the new state is determined. A proof of any number of steps is exactly a sequence of such transitions. The full circuit accepts exactly the transitions of the transfer-only one whose amounts are below 2^64, with the chains extended. Likewise a client step is satisfiable exactly when there are N transactions and paths, the key hashes to the one in the state, the block height has not decreased and is below half the field, the indices of the transactions that do not hash to the default one increase beyond the last one processed (of the same block), those transactions are in the block's transaction tree at their index and their signer is somewhere in its signer tree, and the new state has the balance, nonce, accumulator, block, height and index computed from them.", "quantifier": "every public state, every private input, every number of steps, both circuit variants", "why_tests_cant": "both directions range over all witnesses of the constraint system", "anchors": ["aggregator/src/circuit.rs#generate_step_constraints", "client/src/circuits/mod.rs#update_balance", "client/src/circuits/mod.rs#generate_step_constraints"]}
{"id": "C107", "title": "Signatures do not expire", "statement": "A transaction is signed together with the epoch's transaction root, and that root depends on nothing but the list of transactions taken in. So an epoch of at most 4096 transactions can be repeated: any other epoch, of the same aggregator or of another one, that takes in the same pairs has the same root, and the signatures given in the first epoch apply the same transactions again as soon as coins equal to the ones they spend (same owner and amount) exist again. In particular somebody who signed one transaction that was taken in alone and who later holds coins of the same amounts can lose them without signing anything. The repeated epoch is provable like the first one when its signer slots are blank.", "quantifier": "every pair of reached states, every batch and answers", "why_tests_cant": "ranges over all histories between the two epochs", "anchors": ["aggregator/src/lib.rs#process_transactions", "aggregator/src/lib.rs#process_signatures", "aggregator/src/circuit.rs#generate_step_constraints"]}
{"id": "C108", "title": "Nonces and balances are never consulted", "statement": "Whether a client proof's steps are accepted does not depend on the balance, the nonce or the accumulator in its state: any accepted run is accepted from every state with the same key, last block, height and index, ends at the same block, height and index, and adds the same amounts to the balance and the nonce. The nonces the contract keeps are all zero after any history of calls.", "quantifier": "every run, every pair of states, every contract history", "why_tests_cant": "ranges over all runs and pairs of states", "anchors": ["client/src/circuits/mod.rs#update_balance", "mock-contract/src/lib.rs#MockContract::join"]}
{"id": "C109", "title": "The order of the transactions in an epoch", "statement": "Two epochs, of one aggregator or of two, that start with the same coins and whose applied transactions are the same with the same senders, in whatever order and among whatever other transactions, end, if both succeed, with the same coins, deposits, withdrawals and signers up to order. If all the coins that fair signed requests spend exist when the epoch starts, every order of the requests succeeds. Otherwise the order decides: a signed transaction placed before the one that creates a coin it spends (the coin not existing at the start) makes the whole call fail.", "quantifier": "every pair of reached states, every batch, every permutation", "why_tests_cant": "ranges over all orders of all batches", "anchors": ["aggregator/src/lib.rs#process_transactions", "aggregator/src/lib.rs#process_signatures"]}
{"id": "C110", "title": "Padding an epoch, and taking it in piece by piece", "statement": "Taking a batch in with one call or with several calls is the same. Any number of default transactions, from any sender, can be appended to an epoch as long as it has at most 4096 transactions: they are accepted, the transaction root does not change, so that every signature stays valid, and, left unsigned, they are not applied: if the signature call succeeded without them it succeeds with them and leaves the same coins, coin tree, deposits, withdrawals, signer tree and height; the block differs only in that many more positions without a signer. If the epoch was provable so is the padded one, when the additional signer slots are blank.", "quantifier": "every reached state, every batch and answers, every number of added transactions", "why_tests_cant": "ranges over all epochs and all amounts of padding", "anchors": ["aggregator/src/lib.rs#process_transactions", "aggregator/src/lib.rs#process_signatures", "aggregator/src/lib.rs#produce_block", "plasma-fold/src/datastructures/transaction/mod.rs#Transaction"]}
{"id": "C111", "title": "What is recorded for the prover", "statement": "A successful signature call appends one record per answer, in order, holding the transaction, the path from its insertion, the key, the signature (the all-zero one if none was given); a transaction that was not applied has the default signer path; every input or output slot that is not used (the transaction was not applied, or the slot is a dummy or the contract's) is recorded with position 0 and the default path; and the coins that were created are recorded at consecutive positions from the coin index on, in the order of the records and of the outputs, the index growing by their number.", "quantifier": "every reached state, every list of answers", "why_tests_cant": "ranges over all states and answers", "anchors": ["aggregator/src/lib.rs#process_signatures", "aggregator/src/circuit.rs#AggregatorCircuitInputs"]}
{"id": "C112", "title": "A client proof cannot show that nothing was left out", "statement": "From any accepted run of the client circuit, replace any transactions by the default transaction, keeping blocks, paths, indices and key. The result is accepted too, ends with the same key, accumulator, block and height, and its balance counts exactly the transactions that were kept. In particular whoever can prove a balance can, for the same blocks, also prove the sum of all receipts with every payment made left out.", "quantifier": "every accepted run, every choice of the transactions left out", "why_tests_cant": "ranges over all runs and all selections", "anchors": ["client/src/circuits/mod.rs#update_balance"]}
{"id": "C113", "title": "What a panicking call leaves behind", "statement": "For a caller who catches panics. A deposit that panics for want of an account, of money, or because it names account 0 leaves the contract unchanged; one that panics on an overflow (builds with overflow checks) leaves the depositor debited: if the contract's account overflows, the money is gone; if the pending amount overflows, the contract has it and the depositor has no claim. If the funds brought by all joining users stay below 2^64, any history of calls with panics caught leaves a contract that calls without panics could have produced, solvent and with all funds accounted for. A panic while the aggregator takes in transactions or processes signatures leaves exactly what a successful call on the entries before the offending one leaves, so the aggregator remains usable.", "quantifier": "every contract, every history with caught panics, every reachable aggregator, every batch", "why_tests_cant": "ranges over all states and crash points", "anchors": ["mock-contract/src/lib.rs#MockContract::deposit", "mock-contract/src/lib.rs#L1Account::transfer", "aggregator/src/lib.rs#process_transactions", "aggregator/src/lib.rs#process_signatures"]}
{"id": "C114", "title": "How a client spreads a block over fold steps", "statement": "For one user and one block, take two sequences of client steps - any number of transactions per step, padded with the default transaction at any places - whose regular transactions with their indices and paths are the same in the same order. If one is accepted from a state, so is the other, and both end with the same balance, nonce (for a key other than the identity), key, block, height and index. But the accumulator absorbs the block once per step: a user with more transactions in a block than fit one step needs at least two, and ends with an accumulator different from that of a user who needed one, unless the hash collides or its chain returns to its start.", "quantifier": "every state, step size, way of splitting and padding", "why_tests_cant": "ranges over all splittings and step sizes", "anchors": ["client/src/circuits/mod.rs#update_balance", "plasma-fold/src/primitives/accumulator/constraints.rs#Accumulator"]}
{"id": "C115", "title": "Which error a failed signature call returns", "statement": "process_signatures returns an error only at an authorised transaction one of whose inputs is not available, and the error tells the caller which of two situations it is: UTXONonExisting exactly if that coin was never created in the whole life of the aggregator (including by the transactions of this call before the failing one, and by earlier failed calls), UTXOError exactly if it was created and all copies have been spent. The live coins are then those before the transaction minus its inputs before the missing one.", "quantifier": "every history of calls, batch and failure point, in both build profiles, without any capacity assumption", "why_tests_cant": "ranges over all histories; the answer depends on the whole past, not on the live coins", "anchors": ["aggregator/src/lib.rs#process_signatures"]}
{"id": "C116", "title": "The records rebuild the table of live coins; a spend takes the newest copy", "statement": "Starting from the table of live coins (which coin stands at which position of the coin tree) before a successful process_signatures call, the records the call adds for the prover rebuild the table after it: each applied record removes the coins it spends, in slot order, each at the position recorded for it, and adds its new coins at the positions recorded for them; other records change nothing. When several equal coins are live the newest copy (the one at the largest position) is spent. So the table and the spent coins determine the recorded positions, and the table and the records determine the next table.", "quantifier": "every reachable aggregator state, batch of answers and number of equal coins, in both build profiles, while the new coins fit in the coin tree", "why_tests_cant": "ranges over all histories of creations and spends of equal coins; which copy is removed depends on the whole past", "anchors": ["aggregator/src/lib.rs#process_signatures", "aggregator/src/lib.rs#ivc_inputs"]}
{"id": "C117", "title": "The arrangement of the hash maps has no influence", "statement": "Rust's HashMap keeps its entries in an order that differs from process to process. Two aggregators that differ only in the arrangement of their map of coins, and two contracts that differ only in that of their key index and pending deposits, behave alike: every call has the same outcome, the same error or a panic on both and leaves again aggregators (contracts) that differ only in this way; blocks, records for the prover, inclusion proofs, indices and public inputs are equal. Every rearrangement of the entries of a reachable aggregator or contract is such a difference.", "quantifier": "every reachable aggregator and contract, every arrangement of their maps, every call and batch, in both build profiles", "why_tests_cant": "ranges over all arrangements of the map entries; a test run sees one random arrangement", "anchors": ["aggregator/src/lib.rs#process_signatures", "aggregator/src/lib.rs#produce_block", "mock-contract/src/lib.rs#deposit", "mock-contract/src/lib.rs#join"]}
{"id": "C118", "title": "What a panicking call on a user leaves behind", "statement": "A user's spend or receive call that returns leaves the user it returns. With overflow checks a spend that panics has already subtracted the real inputs that come before the first one the remaining balance does not cover, and has not counted the nonce, or, if the nonce was the largest one, has subtracted all inputs; a receipt that panics has already added the real outputs before the first one that overflows. Keys, accumulator and identifier are kept, and no spend increases the balance. So a program that catches the panic is left with a partly booked transaction.", "quantifier": "every user, transaction, balance and nonce, in both build profiles", "why_tests_cant": "ranges over all balances, nonces and arrangements of real and dummy coins, and over the point at which the loop stops", "anchors": ["plasma-fold/src/datastructures/user/mod.rs#spend_transaction", "plasma-fold/src/datastructures/user/mod.rs#receive_transaction"]}
{"id": "C119", "title": "Many deposits: exactly when they go through, whatever the order", "statement": "A sequence of deposits goes through exactly when every deposit names a registered account other than the contract's own, every account has the funds for all of its deposits together and, with overflow checks, the contract's account and the pending amounts have room; otherwise some call panics. What it leaves is given by three totals: per account, per key and over all. So the order of the deposits has no influence on whether they go through nor on the result; over a whole history the joins could all have come first and the deposits afterwards in any order, and two histories with the same joins in the same order and the same deposits in any order end in the same contract.", "quantifier": "every contract, every list of deposits and every reordering of it, every history of joins and deposits, in both build profiles", "why_tests_cant": "ranges over all lists of deposits and all their permutations", "anchors": ["mock-contract/src/lib.rs#deposit", "mock-contract/src/lib.rs#join"]}
{"id": "C120", "title": "A user's books over many transactions", "statement": "After any sequence of spend and receive calls that returns, the user's balance is the initial one plus all real outputs received minus all real inputs spent, and the nonce has grown by the number of spends (both modulo 2^64 without overflow checks, exactly with them); keys, accumulator and identifier are as before. Without overflow checks no sequence panics; with them it panics exactly when between two calls the balance would leave the range of u64 or the nonce would. Two orders of the same calls that both return end with the same user, and if some order returns then booking all receipts first also does, provided the initial balance and all receipts together fit.", "quantifier": "every user, every sequence of calls and every reordering, in both build profiles", "why_tests_cant": "ranges over sequences of unbounded length and their permutations", "anchors": ["plasma-fold/src/datastructures/user/mod.rs#spend_transaction", "plasma-fold/src/datastructures/user/mod.rs#receive_transaction"]}
{"id": "C121", "title": "A stranger's key makes the epoch unprovable", "statement": "The signing call does not check that the key supplied for a transaction owns its inputs: with a stranger's valid signature, or with the contract's key and no signature, it succeeds and spends the owner's coins. Such an epoch cannot be proved: the inputs the aggregator recorded are not the inputs of any proof (either circuit variant, any start, end and cut into steps), whether or not the transaction was applied; and if it was applied and the key is not the neutral point, any proof, with whatever inputs, that starts an epoch and ends in what the contract derives from the epoch's block exhibits a hash collision.", "quantifier": "every reached aggregator, every list of answers for which signing succeeds, every position with a key other than the owner of a real input, every contract history, every proof", "why_tests_cant": "the native call succeeds, so no test of the aggregator sees it; unprovability ranges over all witnesses", "anchors": ["aggregator/src/lib.rs#process_signatures", "aggregator/src/circuit.rs#generate_step_constraints", "plasma-fold/src/datastructures/transaction/constraints.rs#enforce_valid", "mock-contract/src/lib.rs#derive_public_inputs"]}
{"id": "C122", "title": "An epoch must be answered completely, in one call", "statement": "A signing call with fewer answers than the epoch has transactions succeeds and a block can be produced, but the block is not provable as soon as one of the unanswered transactions is not the default one: any proof, of either variant and with whatever inputs, that starts an epoch and ends in what the contract derives from the block exhibits a hash collision. A second call does not fill the gap, because it starts again at the first transaction: the inputs recorded in two calls prove the block only if the transactions repeat (the one after the first call's answers equal to the first one, and so on) or hash inputs collide.", "quantifier": "every reached aggregator with at most 4096 transactions, every list(s) of answers, block, contract, proof and cut into steps", "why_tests_cant": "the native calls succeed; unprovability ranges over all witnesses", "anchors": ["aggregator/src/lib.rs#process_signatures", "aggregator/src/lib.rs#produce_block", "aggregator/src/circuit.rs#generate_step_constraints", "mock-contract/src/lib.rs#derive_public_inputs"]}
{"id": "C123", "title": "Exactly which epochs are provable from their records", "statement": "Let an epoch be taken in on an aggregator whose signer slots are blank, answered with one answer per transaction, and all keys in its block registered. The recorded inputs, in any cut into steps, prove the block from the epoch's start if for every transaction: the answering key owns its real inputs, real inputs and outputs have the same sum (as integers), what the real outputs give back to the contract is below 2^64 and is zero if the transaction was not applied, and the contract's key gave no valid signature under a transaction with real inputs. If any of these fails for any transaction, the recorded inputs prove the block only if two hash inputs that are exhibited collide.", "quantifier": "every aggregator used with one contract key, every batch and answers for which both calls succeed, both build profiles, every cut into steps", "why_tests_cant": "an equivalence over all batches, answers and hash functions", "anchors": ["aggregator/src/lib.rs#process_signatures", "aggregator/src/lib.rs#produce_block", "aggregator/src/circuit.rs#generate_step_constraints", "mock-contract/src/lib.rs#derive_public_inputs"]}
{"id": "C124", "title": "Transfer-only proofs report nothing, and may hide deposits and withdrawals", "statement": "A proof of the transfer-only circuit over inputs whose amounts are below 2^64 is exactly a proof of the full circuit over the same inputs with the deposit and withdrawal chains left out; if nothing enters or leaves, both circuits prove the same. A transfer-only proof that starts an epoch fits only blocks that list no deposits and no withdrawals (unless a SHA value of the block's own chain is zero or repeats). But whatever block the full circuit proves, the transfer-only circuit proves, from the same inputs, the block with its deposits and withdrawals removed: coins enter and leave the L2 state without the contract hearing of it.", "quantifier": "every public state, every inputs and cut into steps, every contract and block", "why_tests_cant": "quantifies over all proofs of both circuits", "anchors": ["aggregator/src/circuit.rs#generate_step_constraints", "aggregator/src/circuit.rs#transfer_only", "mock-contract/src/lib.rs#derive_public_inputs"]}
{"id": "C125", "title": "The aggregator is a ledger machine", "statement": "For every history of requests (take in transactions, take answers, new epoch) that keeps within the room of the trees, what the caller sees — accepted, which error, or a panic — is request by request what a plain ledger shows: an array of coin slots, an array of key slots and four lists, without trees, hash maps or proofs. Transactions are taken one after the other up to the first bad one; an authorised answer removes the newest copy of each coin it consumes, up to the first missing one (which is then reported as spent or as never made, the earlier ones staying gone), places its new coins in the next slots, and lists the deposit or the withdrawal; an unauthorised one leaves only an empty answer; an answer to no transaction panics. Afterwards the three roots are the Merkle roots of the ledger's coin slots, transactions and key slots; the coin table holds exactly the coins standing in the slots; the lists are the ledger's; and the block is the ledger's report, each key named by its last registration, or a panic if some key is not registered.", "quantifier": "every finite history of requests from a new aggregator, any contract keys, transactions, keys and signatures, both overflow profiles, any contract history", "why_tests_cant": "a refinement over all request histories", "anchors": ["aggregator/src/lib.rs#process_transactions", "aggregator/src/lib.rs#process_signatures", "aggregator/src/lib.rs#reset_for_new_epoch", "aggregator/src/lib.rs#produce_block"]}
{"id": "C126", "title": "Whoever has the transactions can follow the state from the blocks", "statement": "Let epochs run one after the other: any calls that take in transactions (some may be rejected), one call with answers (it may be refused), the block, the reset, while users go on joining and depositing at the contract. Somebody who is given only the transactions of each epoch and the signer list of each block, and reads the keys in the registry at any later time, without any signature, can compute for every block its three roots and its deposits and withdrawals (keys and amounts), and knows every coin of the aggregator and its position. So two aggregators that published the same transactions and signers hold the same coins at the same positions.", "quantifier": "every history of epochs within the room of the trees, every contract history of at most 2^32 registrations, both overflow profiles, every later registry", "why_tests_cant": "quantifies over all histories of epochs, refused calls included", "anchors": ["aggregator/src/lib.rs#process_signatures", "aggregator/src/lib.rs#produce_block", "plasma-fold/src/datastructures/block/mod.rs#Block", "mock-contract/src/lib.rs#join"]}
{"id": "C127", "title": "The published data of a block do not say where the coins are", "statement": "Everything an epoch makes public except the root of the coin tree is independent of the positions the aggregator chooses for the coins. Given a proof of an epoch (full or transfer-only circuit) and any other choice of positions for the same transactions that fits the opening coin tree (each spent coin is where it is claimed to be, each created coin goes to a free position), Merkle paths exist with which the other choice is proved from the same opening state, in any batching, ending in the same public state but for the coin root. In particular two positions that hold the same leaf in the opening tree (say two free ones) are interchangeable: besides the published block there is a block that differs from it in the coin root only, whose public inputs the contract derives and for which a proof exists, in which each of the two positions holds what the other holds in the published one; unless the two leaves are equal or an explicit hash collision occurs, its coin root differs. So the coin root of a block does not follow from the transactions, signatures and lists published with it: whoever wants the position of a coin depends on being told it.", "quantifier": "all opening states and their coin trees, all proofs of either circuit, all alternative positions for the coins, all pairs of positions, all blocks, all batchings", "why_tests_cant": "it is about every proof and every alternative assignment of positions in a tree of 2^31 leaves, including ones the aggregator's code never generates", "anchors": ["aggregator/src/circuit.rs#generate_step_constraints", "mock-contract/src/lib.rs#derive_public_inputs", "plasma-fold/src/datastructures/block/mod.rs#Block"]}
{"id": "C128", "title": "Neither a block nor its proof is tied to the coins there were before", "statement": "What a block publishes and what the contract derives from it say how the coins stand at the end of the epoch, never how they stood at its start. Given a proof of an epoch (full or transfer-only circuit) that ends in what the contract derives from a block, the same transactions with any choice of positions are proved from every other coin tree they fit, and the proof ends in what the contract derives from the block with only its coin root replaced. In particular, unless explicit hash inputs collide, for every position that is free at the start and that the epoch does not touch, and every coin of any owner and any amount, there is a proof that starts with that coin at that position, of the same transactions and signatures; it ends in what the contract derives from the block with the coin root of the old final tree plus that coin, so that the live coins are the old ones and the new coin, while the reported deposits, withdrawals and signers are unchanged. Whoever accepts blocks has to compare the start of every proof with the previous block; deriving the public inputs of each block does not do it.", "quantifier": "all opening states and coin trees, all proofs of either circuit, all blocks and contract states, all alternative trees and positions, all coins", "why_tests_cant": "it quantifies over all proofs and all opening trees, including states no honest aggregator is ever in", "anchors": ["aggregator/src/circuit.rs#generate_step_constraints", "mock-contract/src/lib.rs#derive_public_inputs", "plasma-fold/src/datastructures/block/mod.rs#Block"]}
{"id": "C129", "title": "Exactly which epochs can be proved", "statement": "Let the public state start from the roots of given coin, transaction and signer trees, and let a sequence of claims be given: transactions with senders, signatures and coin positions, but without Merkle paths. If the claims are consistent with the trees (in order, every real input of a signed transaction is at its position, every coin created and every transaction and applied signer entered goes to a free place; every real input belongs to the sender and the sums agree in the field, whether or not the transaction is signed; in the full circuit output amounts and withdrawn totals are below 2^64), then Merkle paths exist with which they are proved, in any batching, and the proof ends in the state computed from the trees and the claims: step count, three roots, three hash chains. Conversely, whatever is proved from there is consistent and ends in that state, unless hash inputs collide that occur on the paths given and the genuine ones.", "quantifier": "all states, triples of trees, sequences of claims and proofs, both circuit variants, all batchings (completeness assumes p <= q, as for BN254 and Grumpkin)", "why_tests_cant": "it characterises the language of a circuit chained any number of times over trees of 2^31 leaves", "anchors": ["aggregator/src/circuit.rs#generate_step_constraints", "plasma-fold/src/primitives/sparsemt/constraints.rs", "plasma-fold/src/datastructures/transaction/constraints.rs"]}
{"id": "C130", "title": "The prover decides whose signatures count", "statement": "The circuit never requires a signature: a valid signature can be withheld, by giving a challenge no signature has. If a sequence of claims is consistent (C129) and any of the signatures are withheld, then as soon as the remaining coin movements fit the coin tree the altered sequence is proved from the same start, with the same transaction root, step count, deposit chain and withdrawal chain - also withdrawals of the silenced senders are still reported. In particular the signatures of any number of transactions at the end of an epoch not sent by the contract can always be withheld; the coin root is then the one before these transactions, while the transaction root published is the same.", "quantifier": "all states, triples of trees, consistent sequences of claims, and choices of which signatures to withhold, both circuit variants", "why_tests_cant": "it is about what a malicious prover can do with every epoch, not about what the aggregator's code does", "anchors": ["aggregator/src/circuit.rs#generate_step_constraints", "plasma-fold/src/primitives/schnorr.rs"]}
{"id": "C131", "title": "Every provable epoch can be published, also with signatures withheld", "statement": "If a proof (full or transfer-only circuit) starts an epoch and ends with the transaction root the signatures were made for, and every key it has to name (applied senders other than the neutral point; in the full circuit also owners of deposits and senders of withdrawals) is registered, then for every height there is a block from which the contract derives exactly the state the proof ends in; it names exactly the signers, deposits and withdrawals of the transactions (none of the latter two in the transfer-only circuit). The registration is needed: a block for which a full-circuit proof ends in what the contract derives names registered keys only, unless explicit hash inputs collide. Consequently the signatures of any transactions at the end of an epoch that were not sent by the contract can be withheld and the result published: the block has the same transaction root, deposits and withdrawals, no signer for those transactions, and the coins as they were before them - the withdrawals are reported though nothing was paid for them.", "quantifier": "all contracts (registries), states, proofs and batchings, heights, both circuit variants; for the last part all trees and consistent sequences of claims (p <= q, as for BN254 and Grumpkin)", "why_tests_cant": "it is the existence of a block for every proof, and about malicious provers", "anchors": ["mock-contract/src/lib.rs#derive_public_inputs", "aggregator/src/circuit.rs#generate_step_constraints", "plasma-fold/src/datastructures/block/mod.rs"]}
