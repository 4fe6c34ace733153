# Formal model of plasma-fold: design

Everything is in `rocq/theories` (logical name `Verif`), Coq 8.16.1, standard library only.
Properties: `properties.jsonl`. Which theorems prove which: `MANIFEST.json` (theorem names start with the property's
id). Wrong programs tried: `seeded/LOG.jsonl`.

## 1. What is modelled

Model files contain only definitions, each citing the lines of /repo it models.

| file in /repo | model |
|---|---|
| `plasma-fold/src/primitives/sparsemt/mod.rs` | `SparseMT.v` |
| `plasma-fold/src/primitives/sparsemt/constraints.rs` | `SparseMTGadget.v` |
| `plasma-fold/src/primitives/crh/*`, `datastructures/{utxo,transaction,block,noncemap,signerlist,keypair}` (types, encodings, hashes, tree configurations, allocation, `is_valid`, `enforce_valid`, `get_signer`) | `Data.v` |
| `plasma-fold/src/primitives/schnorr.rs`, `datastructures/keypair/*` | `Schnorr.v`; its bit gadgets `enforce_lt`, `to_n_bits`, `le_bits_to_fp` in `Gadgets.v` |
| `plasma-fold/src/primitives/accumulator/*` | `Client.v` |
| `plasma-fold/src/datastructures/user/*`, `circuits/gadgets/mod.rs:88-95` | `User.v`; what a panic leaves in memory, `CrashUser.v` |
| `plasma-fold/src/circuits/gadgets/mod.rs:41-48,97-115` with the arkworks path gadget behind it; trees of `publickeymap`, `deposits`, `withdrawals` | `ArkTree.v` |
| `mock-contract/src/lib.rs` | `Contract.v`; what a panic leaves in memory, `Crash.v` |
| `aggregator/src/lib.rs`, `aggregator/src/errors.rs` | `Aggregator.v`; what a panic leaves in memory, `Crash.v` |
| `aggregator/src/circuit.rs` (both const-generic modes) | `AggCircuit.v` |
| `client/src/lib.rs`, `client/src/circuits/mod.rs` | `Client.v` |

Foundations: `Base.v` (integers modulo n, bits, bytes, results, sorted maps), `HMap.v` (hash maps), `Env.v` (hash
functions and curve as parameters), `Circuit.v` (constraint programs), `Toy.v` (a concrete instance of `Env.v`, used
only in examples).

Specifications (what a reader must believe to read the theorems; none of them mentions the code's loops or hints):
`SparseMTSpec.v` (Merkle trees), `DataSpec.v` (ownership, totals), `ContractSpec.v` (histories of the contract),
`AggSpec.v` (coins, ledger, authorised transactions, reachable aggregators), `AggCircuitSpec.v` (writes, hash chains,
runs of the aggregator circuit), `ClientSpec.v` (gains, credited positions, runs of the user circuit), `TruthSpec.v`
(what a block says, value over blocks).

Theorems: `PropsTree` (C01-C19), `PropsData` (C20-C29), `PropsSchnorr` (C30-C35), `PropsContract` (C36-C38), `PropsBlock`
(C39), `PropsIntake`, `PropsSign`, `PropsValue` (C40-C52), `PropsHonest` (C53), `PropsCircuit`, `PropsCircuit2`,
`PropsCircuit3` (C54-C62, C76, C77), `PropsLimits` (C63, C78), `PropsClient` ... `PropsClient7` (C64-C74, C79, C80, C84),
`PropsUser` (C75, C81, the accumulators of C72), `PropsTruth`, `PropsTruth2` (C82, C83), `PropsArk` (C85), `PropsPublic` (C86), `PropsSchnorr2`, `PropsSchnorr3` (C87), `PropsLife` (C88), `PropsDet` (C89), `PropsCredit` (C90), `PropsL1` (C91, C92), `PropsMint` (C92), `PropsUsers` (C93), `PropsSpoil` (C94, C95), `PropsWrap` (C59, C95 for any length), `PropsLive` (C96, C97), `PropsPanic` (C98), `PropsReport` (C99), `PropsExit` (C100), `PropsWitness` (C01 for the protocol's trees, C101, C102), `PropsCapacity` (C103), `PropsShape` (C104), `PropsDiligent` (C105), `PropsExact` (C106; specification in `ExactSpec`), `PropsReplay` (C107), `PropsBlind` (C108), `PropsOrder` (C109), `PropsPad` (C110), `PropsRecord` (C111), `PropsOmit` (C112), `PropsCrash` (C113), `PropsSplit` (C114), `PropsError` (C115), `PropsTable` (C116), `PropsHash` (C117), `PropsCrashUser` (C118), `PropsBatch` (C119), `PropsBooks` (C120), `PropsStranger` (C121), `PropsAnswers` (C122), `PropsProvable` (C123), `PropsHidden` (C124), `PropsLedger` (C125, specification in `Ledger`), `PropsFollow` (C126, specification in `Follow`), `PropsPlace` (C127, specification in `Place`), `PropsUnlinked` (C128), `PropsClaims` (C129, specification in `Claims`), `PropsMute` (C130), `PropsPublish` (C131). Everything else is
lemmas. Concrete cases meeting the theorems' hypotheses: at the end of `PropsTree`, `PropsData`, `PropsSchnorr`,
`PropsContract`, `PropsArk`, and in `ExamplesAgg` (C40-C52), `ExamplesCircuit` (C53-C63, C76-C78), `ExamplesClient` (C64-C75,
C79-C81, C84), `ExamplesTruth` (C82, C83), `ExamplesPublic` (C86, C87), `ExamplesLife` (C88, C89), `ExamplesCredit` (C90), `ExamplesL1` (C91-C93), `ExamplesSpoil` (C94, C95), `ExamplesLive` (C96, C97), `ExamplesPanic` (C98), `ExamplesExit` (C99, C100), `ExamplesWitness` (C101, C102, C104), `ExamplesCapacity` (C103), `ExamplesDiligent` (C105), `ExamplesExact` (C106, C108), `ExamplesReplay` (C107), `ExamplesOrder` (C109), `ExamplesPad` (C110), `ExamplesRecord` (C111), `ExamplesOmit` (C112), `ExamplesCrash` (C113), `ExamplesSplit` (C114), `ExamplesError` (C115), `ExamplesTable` (C116), `ExamplesHash` (C117), `ExamplesCrashUser` (C118), `ExamplesBatch` (C119, C120), `ExamplesStranger` (C121), `ExamplesAnswers` (C122), `ExamplesProvable` (C123), `ExamplesHidden` (C124), `ExamplesLedger` (C125), `ExamplesFollow` (C126), `ExamplesPlace` (C127), `ExamplesUnlinked` (C128), `ExamplesClaims` (C129, C130), `ExamplesPublish` (C131). `ExamplesRepo` runs the repository's own unit tests (aggregator, circuits, trees, gadgets, signatures, client) on the model, with the same scenarios and expected outcomes; it supports the fidelity of the model and no property.

**Not modelled.** Tests and benches (`client/tests`, `#[cfg(test)]`); `setup` functions and other
`unimplemented!()`/`todo!()` bodies (`add_block`, `verify_proof`); the Nova folding scheme (only the step functions it
folds are modelled, chained one after another, with the external inputs of each step chosen by the prover); the
random generator (a list of drawn scalars is an argument; `Schnorr::sign` retries until a draw is good); `Debug`,
`Clone` and serialisation; the native `Sha256Accumulator::update` (its bound `PrimeField + BigInteger` has no
instance); the arkworks native `MerkleTree` (its roots and proofs enter C81/C85 by specification); how a
constraint system is laid out inside an arkworks gadget (counts of constraints and variables, synthesis modes; C104 is about the
sequence of enforced conditions and allocated hints at the level of the calls the code makes).

## 2. Modelling decisions

* **Field.** `F = zmod p` with the concrete `p` = BN254 scalar field = Grumpkin base field, the field of all circuits.
  Elements are canonical representatives carrying a Boolean range proof, so Leibniz equality is field equality.
  Where both fields occur (C53, C77) `p <= q` is a hypothesis, true of BN254/Grumpkin.
* **u64** amounts are `zmod 2^64`; 64-bit indices are `Z`. Every Rust operation that can overflow takes the build mode
  `dbg : bool` (overflow checks on: panic; off: wrap modulo 2^64). `usize` is 64 bits; `as u32` is `mod 2^32`.
* **Results** are `res E A = Ok | Err | Panic`. State-changing calls that can fail return the state they leave behind
  (`MOk`, `MErr`); after a panic there is no state (except in C113 and C118, where
  `Crash.v` and `CrashUser.v` follow the memory up to the panic).
* **Maps.** `BTreeMap`/`BTreeSet` are sorted association lists with ascending iteration. `HashMap`s are association lists
  with insertion replacing an earlier entry (`HMap.v`); the code never iterates over them.
* **Hashes** (Poseidon CRH on a list, Poseidon two-to-one, SHA-256) are arbitrary functions; every theorem quantifies
  over them. Nothing assumes injectivity (impossible on a finite range). Soundness theorems say: the claim holds, or two
  distinct members of an explicit finite list of hash inputs (those the prover presented and those of the genuine
  data) have the same hash: `collision2`, `crh_collision`, `collides`, `sha_event`.
* **Curve** is an arbitrary record (class `Curve`): abelian group with a scalar action of order `q`, a generator of exactly
  that order, decidable equality, and an injective affine-coordinates map undefined exactly at the identity.
* **Circuits** are programs in a small constraint monad (`Circuit.v`): `Ret`, `Enf b` (a constraint, true or false of the
  current assignment), `Wit h k` (a Boolean hint allocated inside /repo code; `h` is the value the code computes) and
  `Abort` (panic/`SynthesisError`). Two interpretations: `sat c a` (some choice of hints satisfies all constraints and
  yields output `a`: soundness, adversarial prover) and `honest c` (the code's own hints: completeness). External
  inputs are arbitrary arguments of the type the allocation allows: field elements for amounts, indices and
  heights (not u64), Booleans for flags, curve points, bit vectors for signatures.

## 3. Trusted base

* The Coq 8.16.1 kernel, including `vm_compute` (used in examples and for numeric facts about `p`).
* `Print Assumptions` stands under every property theorem; the answer is "Closed under the global context" for each one:
  no axioms, neither ours nor the standard library's. (`vcheck` also lists `Coq.ssr.ssrunder.*`: fields
  of a module of the standard library. No theorem depends on them.)
* The correspondence of model and /repo, by reading; every definition cites file and lines.
* Behaviour attributed to dependencies (not part of /repo), each modelled by the function it computes:
  field and curve arithmetic; `is_eq`, `select`/`conditionally_select`, `conditional_enforce_equal`; `to_bits_le` giving the
  canonical 254 bits; `to_bytes_le` giving 32 little-endian bytes; `le_bits_to_fp` (checks canonicity only when 254 or
  more bits are given); `is_cmp`/`enforce_cmp` requiring both operands at most (p-1)/2, with `(Less, true)` as `a < b + 1`
  in the field; `scalar_mul_le`; a point variable's `to_constraint_field`, `to_bytes_le` at infinity as (0, 0, 1); Poseidon
  and SHA-256 gadgets equal to the native functions; SHA-256 two-to-one as the hash of the concatenation;
  `PathVar::{calculate_root, verify_membership, update_and_check, get_leaf_position}`; hash evaluation never failing;
  `Transaction::dummy(())` = `Transaction::default()` (`Dummy<()>` of the folding library); `ark_std::log2` = ceiling log.
* Poseidon as used by arkworks has no length padding, so CRH on different lengths and the two-to-one hash are not
  independent functions. Theorems quantify over all functions, including such related ones.

## 4. Properties and how they are proved

Trees. `node d f k` is the hash of the complete subtree of depth `d` at position `k` over leaf digests `f`; the root
is `node (H-1) f 0`.

* C01-C06, C12: representation invariant `Rep` (a stored-or-empty node at depth d, position k equals `node d f k`; stored
  nodes are upward closed and in range) established by `blank`/`new`, preserved by `update_and_prove`; induction over levels
  and over histories of calls. C12: induction over the level loop.
* C07-C11, C13: induction along the path against `node`, extracting a collision; arithmetic of heap indices for all
  64-bit indices in both overflow modes.
* C14-C19: `sat`/`honest` of the gadget programs along the path; bits of canonical representatives.

Data and signatures.

* C20-C24: injectivity of encodings, by reading the fields back; gadget encodings of allocated values.
* C25-C29: sums of at most four 64-bit numbers, wrap-around; field sums versus integer sums.
* C30-C35: group algebra; `enforce_lt` by induction over windows; `to_n_bits` by uniqueness of binary expansions.

Contract and aggregator.

* C36-C39: invariants over contract histories; folding of the hash chains.
* C40-C52: invariant `reached_inv` relating a reachable aggregator to a ledger (position -> coin) and its trees; induction
  over batches and histories; refinement to multisets of coins; explicit states for the negative parts (C47, C51).
* C53: simulation. Every recorded circuit input satisfies the step from the roots before it to the roots after it,
  and the last state is what the contract derives from the block.

Aggregator circuit.

* C54-C62: the step is unfolded once (`step_facts`); every leaf update is sound (`write_sound`), composed over deletions,
  additions, steps (`crun`) and batches (`ivc`); integer bounds for C57, C61; explicit witnesses for C58, C61.
* C63, C78: epochs carried out natively that no proof can follow: contract coins never exist (invariant), and the signer
  slot of a second epoch is taken (invariant), so a satisfied run yields a collision.
* C76: the relation `ivc` depends only on the concatenation of its batches. C77: converse of the step facts.
* C82: the chains the circuit leaves and those the contract recomputes agree, so by induction from their ends the lists
  agree or a SHA event occurs. C83: C54 + C57 + C63 + C82, induction over blocks.

Client.

* C64-C74: the step is characterised by `step_conditions` and `step_result` (`satisfied_state`), then induction over
  transactions of a step and over steps; explicit adversarial inputs for the negative parts (C68, C69, C70, C71, C73).
* C79: native proofs of a reachable aggregator's trees are complete (C06) and the checks of the step follow from the
  epoch invariants. C80: gains of applied transactions versus the coins of a key, by permutation of live coins.
* C84: C50 (all heights are 0) and C69, induction over the number of repetitions.
* C86: inversion of the derivation, then the chain argument of C82 on both sides; aliases by induction on the lists.
* C87: the verification equation read backwards; group cancellation.
* C88: induction over the history with C46 for each call and C47's case analysis for failing ones; the senders recorded at intake give the soundness hypothesis of C46.
* C89: the facts of a satisfied step fix each component; C76 for the batching.
* C90: C82 and C60 give the contents under the block's roots, C67 the client's side.
* C91: induction over the later calls with C36-C38. C92: inspection of what the two functions read; then C40, C44 and C53 for the single transaction.
* C93: C64 for each user, exchange of the two sums, and the balance equation of each step of the aggregator circuit.
* C94: induction over the calls of the epoch (a failing call pushes a signer entry but no input), against the step counter
  of the circuit, which the contract reads off the number of signers.
* C95: C59 gives the transactions the proof committed to; two contents with one root agree or exhibit a collision.
* C96: C40 and C44 (both "if and only if"), C30 for the signatures, determinism of the ledger.
* C97: C96, then C53 for the block and its proof and C79 for the clients.
* C98: the loops stop at the first panicking element (`mfold_panic`); before it C40/C44 describe the state, so the step panics only
  in the ways stated; the converses exhibit the element.
* C99: induction over the signing steps gives the three logs of the epoch; `produce_block` maps them through the registry (C38, C39).
* C101: each gadget's constraints and output do not depend on the hints (`computes`), composed along the batch; a proof of
  another length is the only way synthesis can abort.
* C102: from the ownership check every step enforces; C77 for the provable counterexample.
* C103: a relation between a state and a later one (coins kept in place or at new positions), shown for each loop iteration, composed
  over calls; the state at the limit by induction over 2^31 single-deposit epochs (no computation), the output loop beyond the end of
  the tree from totality of `update_and_prove`, and the unprovability from C54: the recorded position is slot 0 modulo the tree size.
* C104: `laid_out` is a relation between a circuit and the list of its operations, closed under sequencing and loops; each gadget's
  list is computed from lengths alone (the number of chunks of `enforce_lt` depends on the number of bits), and lengths are fixed by
  C101's characterisation of when synthesis succeeds.
* C105: induction over the epochs of C83; each changes what a key holds by the gains of its applied transactions (as in C80), the
  client's run adds the same gains (C64), and C83 bounds the total.
* C106: for the aggregator, the step's Boolean characterisation against a relation over writes (`linked`), and determinism of that
  relation for the converse; for the client, the characterisation of C74 with paths spelled out.
* C107: C40 gives the root as a function of the transactions, C44 when a signature call succeeds, C97 the proof. C108: the conditions
  of C106, by induction over the run; the contract invariant of C38.
* C109: the ledger of C44 as an equation of multisets, the logs of C99 as functions of the applied transactions; C96 for every order. C110: the signature call on a longer epoch commutes with exchanging the epoch's list, tree and paths (an exact simulation of the two loops), the padding steps apply nothing, C53 for the proof. C111: each iteration of the two loops writes at most its own slot, the index counts the insertions.
* C112: simulation between the full run and the thinned one: same key, accumulator, block and height, an index that is
  not larger; the indices of a thinned step are a subsequence of the increasing ones, and the default transaction
  imposes nothing but path lengths and the comparison range, which are kept. `thinned` says what may change.
* C113: `Crash.v` follows the writes of the calls up to the panic; case analysis for the deposit, C37 for histories with
  caught panics, C98 (panics happen at the start of an iteration) for the aggregator. Panics inside tree operations, which
  C98 excludes, are not followed (`None`).
* C114: for steps of one key on one block, being accepted is equivalent to a condition on the concatenated regular
  entries alone (sorted indices, entries in the trees), and the end state is a function of them, except for the accumulator.
* C115: the keys of the coin index are exactly the coins ever created (an invariant of every call, also the failing ones);
  the two errors are the two ways the lookup of an input fails.
* C116: the positions kept for a coin are strictly increasing (an invariant of every call), so the last one, which is popped, is the
  largest; the two loops over the slots then do to the table of positions what the record says.
* C117: a relation between states that agree on all lookups, kept by every loop body and hence by every call.
* C118: `CrashUser.v` follows the balance through the loop; the loop stops at the first amount that does not fit.
* C119: a closed form for one deposit (C36), composed by induction; a deposit commutes with a join. C120: C75 for one call, induction over the sequence.
* C121: the record of C111 against the owner check of C106; for the block, C82 fixes the senders (named by C99), C95 the transactions.
* C122: the step counter fixes the number of inputs proved, C95 their transactions. C123: one direction is the simulation of C53 with weaker premises; the other takes ownership, balance and range from C106, unapplied withdrawals from counting the entries of the block (C99) against those of the proof (C82), the contract's signatures from C63.
* C124: C106 for each step, induction over the proof; the chain of a non-empty list ends in a SHA value.
* C125: forward simulation, `agrees` relates the code's state to the ledger machine of `Ledger.v`; each loop (intake, input, output, answers) is simulated by induction, then the history. The room hypothesis is on the machine alone; `C125_room` derives it from the number of requests.
* C126: on the ledger of C125, induction over the answers (a follower's step needs the signer, not the signature; a missing coin stops it where it stopped the aggregator), then over the epochs; the registry only grows, so indices keep their keys.
* C127: from the exact description of a step (C106): the transaction and signer paths are kept, the coin paths are
  rebuilt for the other positions from the contents of the tree (as in C77); induction over the transactions. A
  rearrangement of the positions carries genuine writes to genuine writes. The collision cases are those of C54
  and, for the difference of the two roots, of C95.
* C128: the induction of C127 started from another coin tree; a leaf at a position no write touches is carried
  along unchanged.
* C129: one step is built from the contents of the three trees (paths by C04's genuine siblings) and shown to be
  accepted in the sense of C106, and conversely an accepted step is taken apart write by write; consistency and the
  end state of a sequence split into those of the first claim and of the rest.
* C130: withholding a signature changes neither transaction writes nor chains; a signer slot left out holds the
  neutral point, so later signer writes still find their slots free; then C129.
* C131: the lists of the block are built from the registry position by position, so that the contract's three hash
  chains are those of the proof (C59-C62); the converse is C82; the last part is C130 followed by the first.
* C100: C96 and C97 for a single transaction, C99 for what its block reports.
* C75, C81, C85: direct, along the path for C85.

All properties are stated in full; there is no partial one.

## 5. Wrong programs

`seeded/LOG.jsonl` lists edits of the model, made in a scratch copy, each the kind of change a bug would be (wrong
boundary, dropped check, swapped argument, missed update), with the theorems that stopped proving. Edited definitions
cover every model file. An edit counts as detected only when a theorem of the claim it falsifies fails.
