# Machine-checked model of versatus/patriecia

Two tries live in /repo and both are modelled:

* **PMT** - crate `patriecia` (`pmt/src`): the Merkle-Patricia trie `InnerTrie`
  with its nibble codec, RLP node codec, database, proofs and iterator.
* **JMT** - crate `jmt` (`jmt/src`): the versioned Jellyfish Merkle tree with its
  staging cache, store, proofs, iterator, pruning index and restore.

Everything is Rocq/Coq 8.16.1 under `rocq/theories` (logical name `Verif`).

## Conventions

* `*Model*.v` files contain definitions only; every definition cites the /repo
  file and lines it transcribes and states its simplifications.
* `*Spec*.v` files contain the independent vocabulary used in the statements
  (finite maps, recursive sparse-Merkle root, byte order). They do not import
  the model's helper functions.
* `*Proof*.v` files contain lemmas.  `*Props.v` files contain the property
  theorems (`Theorem Cxx_... `), an `Example` meeting the hypotheses next to
  each theorem, and `Print Assumptions`.
* Panics (`unwrap`, `expect`, `assert!`, index out of range, `unreachable!`,
  subtraction underflow) are the explicit result `Panic`; `Err(_)` is `Err`.
  Recursion that is not structural takes explicit fuel and returns the
  distinguished error `OutOfFuel`; theorems say for which fuel it cannot occur.
* A property that is false of the code is kept as stated and answered by a theorem
  `Cxx_..._refuted` exhibiting a reachable witness; what does hold is `_partial`.
* The hash functions are **parameters** (ordinary function arguments, never
  axioms).  No theorem assumes a globally injective 32-byte hash, which would
  be contradictory.  Theorems that need collision-freeness assume it on an
  explicit finite list of byte strings: the ones actually hashed by the tree
  and by the verifier in the execution the theorem speaks about.
* Arithmetic follows a build with overflow checks: an underflow is a `Panic`.  (A
  release build without them would wrap instead; C53 is the one affected claim.)
* Machine integers: versions are `N` and lengths are `nat`; the 64-bit wrap of
  version counters is out of scope except where stated (C49).

## Trusted base

* the Coq 8.16.1 kernel;
* what `Print Assumptions` lists for each theorem (expected and so far observed:
  `Closed under the global context` for every one of them);
* the faithfulness of the transcription (the comments beside each definition);
* the `rlp` crate 0.5 (not vendored in /repo): its encoder and its lazy decoder
  are modelled from their documented behaviour in `RlpModel.v`;
* `keccak_hash` (not vendored): theorems take the hash as a parameter; examples and
  counterexamples use Keccak-256 as defined in `KeccakModel.v` (checked on test vectors);
* `sha2` (not vendored): likewise a parameter of the JMT theorems; examples use SHA-256 as
  defined in `Sha256Model.v`, checked on the published vectors and, through the whole
  tree, on the root hashes of `jmt/src/tests/sha2_256_vectors.json` (`JmtExamples.v`);
* standard collections: `HashMap`/`BTreeMap`/`BTreeSet` are finite maps/sets
  (std++ `gmap`/`gset`, or sorted lists where the iteration order matters);
* the restoration examples evaluate a cheap toy hash (`mix` in `JmtRestoreProps.v`) so that the
  checker can re-run them; the theorems hold for every hash;
* the `ics23` crate 0.10 (not vendored): its proof format and its verifier are written in
  `JmtIcsSpec.v` from the ICS-23 standard, with the checks on key and value not empty, on prefix
  and suffix lengths and on depth; only the operations used by `ics23_spec` (no hash, SHA-256)
  are there, and its SHA-256 is the same parameter as the tree's;
* concurrency: only readers of the in-memory JMT store next to writers and purges are
  modelled (`JmtLiveModel.v`: each lookup, each node batch and each purge is atomic, as
  their locks make them), and `try_read` of the PMT's database next to one writer
  (`PmtListModel.v`), and commits of several Patricia tries over one archive database, whose
  single insertions interleave with each other and with other calls, each call being one
  moment (`PmtThreadsModel.v`; the look-ups of a call at moments of their own are in
  `PmtMomentsModel.v`); everything else is sequential, and the locks themselves,
  `Arc`, `Display`, and the `serde` derives of the JMT are not modelled;
* the `bincode` crate 1 (not vendored): the byte form of values of standard types is written
  in `JmtKeyModel.v` from its documentation;
* the `borsh` crate 0.10 (not vendored): the byte form its derives give to the types of
  the JMT is written in `JmtBorshModel.v` from its specification;
* the `serde`, `serde_json` and `hex` crates (not vendored): the documents the derives of the
  PMT write and accept are written in `PmtSerdeModel.v` from their documentation, as trees of
  JSON values (not text), with `serde_json`'s limit of 128 on nesting.

## Per property

| id | modelled code | proof idea |
|----|---------------|------------|
| C01 | `pmt/src/inner.rs` get/insert/remove/commit and helpers | denotation of a node + database as a partial map on nibble paths; each operation shown to act on the denotation as map update; well-formedness invariant by induction over the history |
| C02 | `insert` | direct on the model state |
| C03 | `remove` | false: `_refuted` with witness (an absent key at which stored keys fork); positive form for tame histories, where a removed key is absent, has no present proper extension, or present keys fork at it |
| C04 | `get`, `contains` | case analysis, all states |
| C05 | `Nibbles::from_raw/encode_raw` | induction on the key |
| C06 | `encode_compact/from_compact` | parity induction |
| C07 | `encode_raw`, `write_node`, `decode_node` | RLP encode/decode round trip, induction on nodes |
| C08 | `commit`, `at_root` | resolution relation node/database; C07 at each hash |
| C09 | `insert_at`, `commit` | the in-memory trie is the canonical trie of its contents; insert preserves canonicity; canonical trie is unique |
| C10 | `delete_at`, `degenerate` | false in general: `_refuted`; positive form for tame histories |
| C11 | `commit` | from C07/C08 |
| C12 | `TrieIterator` | simulation of the stack machine by in-order traversal |
| C13 | `TrieIterator` | false: `_refuted` with witness (panic) |
| C14 | `get_proof`, `verify_proof` | the proof contains each hashed node on the path |
| C15 | `verify_proof` | resolution of hashes is deterministic on the collision-free list |
| C16 | `verify_proof`, `decode_node`, `from_compact` | false: `_refuted` with witness |
| C17 | `commit`, `MemoryDB` (light = false) | database only grows |
| C18 | `commit`, `MemoryDB` (light = true) | false: `_refuted` with witness |
| C19 | `get_at`, `recover_from_db` | monotonicity of `get` in the database |
| C20 | `get_proof`, `at_root` | false: `_refuted` (panic for every root) |
| C21 | `insert`, `remove` | state threading |
| C55 | `TrieIterator` over a lossy database | false: `_refuted` |
| C56 | `commit`, proofs | proof completeness on one side, soundness on the other |
| C57 | commit root | canonical trie encodes as the independent Yellow Paper recursion (`PmtYellowSpec.v`); tame histories, refuted without tameness |
| C58 | failed insert + commit, light db | false: `_refuted` |
| C22 | `tree.rs` put/get, `tree_cache.rs`, `mock.rs` | version-annotated tree as abstraction of the store; each insertion simulated on it; contents as a finite map |
| C23 | same | batches only add node keys of the new version |
| C24 | `merkle_hash` and insertions | tree in the store is canonical for its contents; hash of the canonical tree is the recursive specification |
| C25 | deletion paths | same simulation |
| C26 | `put_value_sets`, `freeze` | cache invariant |
| C27 | `batch_put_value_sets` with its recursion, hash caches and nibble ranges (`JmtBatchModel.v`) | the whole result equals that of `put_value_sets` on the present values, failures included; an empty set panics: `_refuted` |
| C28 | `put` | map update |
| C29-C30 | `get_with_proof`, `verify` | induction along the path |
| C31-C32 | `verify` | induction on the siblings against the specification tree, collision-free list |
| C33 | `root_hash`, `verify` | same fold |
| C34 | `get_leaf_count` | canonical tree |
| C35, C50 | `get_range_proof`, `restore.rs` `verify` (`JmtRestoreModel.v`) | the partial nodes give the left siblings of the last key; the range check is the fold of a proof; equal roots without collisions give equal left subtrees |
| C36-C37 | `iterator.rs` (`JmtIterModel.v`) | the stack stands for a position in the sorted list of keys; each step moves it by one |
| C38 | `get_with_exclusion_proof` (`JmtExclModel.v`) | the search ends at the neighbours, or fails on a neighbour older than the version asked for: `_refuted`; it succeeds when the neighbours were written at that version |
| C39-C42 | stale index, purge, stats | exact characterisation of written/stale node keys |
| C43 | version gaps | false: `_refuted` |
| C44-C46 | byte/nibble helpers | list induction |
| C47 | `merkle_hash` with bit masks | case analysis on the range recursion |
| C48, C54 | mock store | list induction |
| C49 | `db.rs` Version | arithmetic |
| C51-C52, C61 | `restore.rs` (`JmtRestoreModel.v`; executions in `JmtRestoreRunSpec.v`) | the partial nodes with the frozen and stored nodes stand for the canonical tree of the pairs received, kept by every call, refused or not; `finish` completes the canonical tree; that it checks the root is refuted |
| C62-C64 | `restore.rs` `new`, `recover_partial_nodes` (`JmtRestoreModel.v`; sessions in `JmtRecoverSpec.v`) | the store between two sessions holds the canonical nodes of all pairs but the last; recovery rebuilds the partial nodes from them; panics after recovery and on complete trees are refuted by witness |
| C65 | store after puts and purges | the version of a node is at least the versions below it, kept by every set; stored nodes belong to the tree of their version |
| C66-C69 | `ics23_impl.rs` (`JmtIcsModel.v`; format and verifier in `JmtIcsSpec.v`) | the operations are the steps of the path in the specification tree; soundness by induction on the path against that tree, the left and right neighbours leaving no room between them; depth, empty values, other hashers and old neighbours refuted |
| C70 | `get_hash`, `batch_put_value_sets` | values do not depend on the caches (every step of the recursion keeps them); missing and wrong hashes refuted |
| C71 | `commit` between other calls | both histories have the same contents and are tame, so C10 applies; refuted without tameness |
| C72 | reads on a pruned store | simulation: a put that succeeds on a store with fewer nodes writes the same batch on the full store, so the nodes are among the full store's; a read stops at a missing node or agrees with the full store |
| C73 | `insert_at`, `delete_at`, `degenerate`, `get_path_at`, `get_at` | each recursion, over fewer entries, gives the same result or the error of the first lost entry it meets; `contains` drops the key, refuted there |
| C74 | iterator on a pruned store | each step agrees with the step on the full store or stops at a missing node, and the stopped state is a fixed point |
| C75 | `VersionedTrie` (`JmtTrieModel.v`) | from C22, C29-C32 |
| C76 | `version` of the store with purges | stale records are made by sets that are not empty only, so no node of the last changed version is ever recorded stale |
| C77 | exclusion, range and ICS-23 proofs on a pruned store | each call gives what it gives on the full store or stops at a missing node; then C35, C38, C66, C67 |
| C78 | `NodeBatch::merge`, `write_node_batch` | the history of a key depends on the entries of that key only; two ascending lists of entries written in turn are their merge |
| C79 | `write_tree_update_batch` entry by entry (`JmtWriteModel.v`) | every entry is there already; the writes are identities up to the first failure |
| C80 | the same | false: `_refuted`; entries of the batch are of its own versions, and reads at older versions meet none of them |
| C81 | `commit` with a failing database operation (`PmtFailModel.v`) | the store lies between the one before and the one after the commit, the view still represents the same trie; the refinement goes on |
| C82 | the same, over a pruning database | false: `_refuted` |
| C94 | the same, over any database | encoding a node adds the same keys and gives the same result in every state, so the set to remove is the same the second time |
| C95 | `EscapedByteSlice` and the `Debug` of the hashes | reading back each of the 256 escapes, induction on the key |
| C96 | `KeyHash::sha256`, `bincode` on defaults | false: `_refuted`; the byte form of every default is zeros, induction on the type |
| C97 | `InnerTrie::len/is_empty` | false: `_refuted`; only commits change the database and a successful one leaves its root there |
| C98 | `MemoryDB::len/is_empty/values` with `try_read` | false: `_refuted`; case analysis on the writer at each moment |
| C99 | `MockTreeStore::put_leaf` | reads of a pushed history; `_refuted` for the refused leaf |
| C100 | `put_key_preimage`, `preimage` | induction on the puts from the last |
| C101 | derived `Clone` of `InnerTrie` | the invariant of C01 is per view, so a copied view keeps it; `_refuted` for the pruning database |
| C102 | `commit`, `insert_batch`, per-insertion locks of `MemoryDB` | the database only grows and every entry is keyed by its hash; what a commit has yet to write, with what is stored, covers its pending nodes, so its end is the end of an atomic commit |
| C103 | `recover_from_db` within `get_at`, `insert_at`, `delete_at`, `degenerate`, `get_path_at` | each look-up has its own database; all contain the one at the start, where every look-up succeeds |
| C104 | `get_proof` of a trie just committed, `verify_proof` | the end of a commit is that of an atomic one (C102), the path collected is that at the start (C103), completeness of proofs (C14) |
| C105 | `borsh` derives of keys, nodes and proofs | what is accepted is the byte form of what was read (C85); lengths add up; at most 256 siblings |
| C106 | the same, against the format written for values of any type | each writer gives the bytes of the declared value; C85 gives the rest |
| C83 | `get_with_proof` with every lookup at its own moment (`JmtLiveModel.v`) | nodes of versions written before the first lookup are never written again, they only vanish; each lookup agrees with the full store of that moment or misses |
| C84 | the iterator likewise | the same; a node that is gone stays gone, so the error stays |
| C85 | the borsh form of keys, nodes, proofs and batches | codecs composed from the primitive ones; a sorted list is its own collected map |
| C86 | the same, on the nodes of an execution | the invariant gives every stored node as the node of some kept version; keys are injective |
| C87 | the same, on arbitrary bytes | witnesses |
| C88 | the same, with `verify` | C85 gives 32-byte hashes; C31, C32 and C53 |
| C89 | `JmtRestoreFailModel`: `add_chunk_impl` with a write that may fail, chunks sent again | the invariant of C61 with pairs written and pending; a failed write moves the chunk to the pending ones |
| C90 | as C61 | errors leave the store (structural); at each accepted chunk the received pairs are the tree's up to a key (C50), frozen subtrees lie left of it, so they are whole subtrees of the tree |
| C91 | the serde form of nodes and tries (`PmtSerdeModel.v`) | induction on the node; a committed node has children of less than 32 bytes inline, which bounds the nesting by 12; deep witness |
| C92 | the same, then calls over the default database | instance of C73 with everything lost; with no commit the database is empty anyway, so the refinement goes on; witness |
| C93 | the same, on arbitrary documents | witnesses; induction on the depth for what is checked |
| C53 | `definition.rs` | totality / refutation |
| C59 | `Children` array (`JmtChildrenModel.v`) | simulation by a finite map |
| C60 | `NibbleIterator`, `skip_common_prefix` (`JmtPathModel.v`) | simulation by a split list |
