{"id": "C01", "title": "Trie reads return the last write", "statement": "On a `patriecia::InnerTrie` created with `new` over a database that keeps every entry, after any interleaving of `insert`, `remove` and `commit` calls, `get(k)` returns the value of the last `insert(k, v)` that no later `remove(k)` undid, and `None` if there is no such insert.", "quantifier": "for every finite sequence of insert/remove/commit calls with arbitrary byte-string keys and non-empty values, and every key read afterwards", "why_tests_cant": "The set of histories and of key-prefix relationships is unbounded; a test samples a few of them, and the node splitting/merging cases interact with where earlier commits replaced subtrees by hashes.", "anchors": ["pmt/src/inner.rs: InnerTrie::{get,insert,remove,commit}", "pmt/src/inner.rs: insert_at, delete_at, degenerate, get_at"]}
{"id": "C02", "title": "Empty values are rejected without effect", "statement": "`insert(k, [])` returns an `InvalidData` error and leaves the trie exactly as it was: contents, pending writes and the next root hash are unchanged.", "quantifier": "for every trie state and every key", "why_tests_cant": "The claim is about all reachable states; a test inspects one.", "anchors": ["pmt/src/inner.rs: InnerTrie::insert"]}
{"id": "C03", "title": "remove reports presence", "statement": "`remove(k)` returns `true` exactly when `k` had a value immediately before the call.", "quantifier": "for every trie reached by inserts, removes and commits, and every key", "why_tests_cant": "The boundary is keys that are proper prefixes of stored keys, which random fixed-length test keys never hit.", "anchors": ["pmt/src/inner.rs: InnerTrie::remove, delete_at"]}
{"id": "C04", "title": "contains agrees with get", "statement": "`contains(k)` returns `Ok(true)` exactly when `get(k)` returns `Ok(Some(_))`, `Ok(false)` exactly when it returns `Ok(None)`, and fails exactly when `get` fails.", "quantifier": "for every trie state, including incomplete databases, and every key", "why_tests_cant": "Quantifies over all states and all failure modes of the database.", "anchors": ["pmt/src/inner.rs: InnerTrie::{get,contains}"]}
{"id": "C05", "title": "Key-to-nibble expansion is lossless", "statement": "Expanding a byte key to nibbles with a leaf terminator and packing it back returns the same bytes and the same leaf flag; distinct keys expand to nibble paths neither of which is a prefix of the other.", "quantifier": "for every byte string", "why_tests_cant": "Infinite domain; prefix-freeness is a relation between all pairs of keys.", "anchors": ["pmt/src/nibbles.rs: Nibbles::{from_raw,encode_raw,is_leaf}"]}
{"id": "C06", "title": "Hex-prefix encoding is lossless", "statement": "Decoding the hex-prefix (compact) encoding of a nibble path returns the same path, for odd and even lengths, with and without the leaf terminator; in particular the encoding is injective on paths.", "quantifier": "for every non-empty nibble path whose terminator, if any, is last", "why_tests_cant": "Infinite domain and both parities/flags at every length.", "anchors": ["pmt/src/nibbles.rs: Nibbles::{encode_compact,from_compact}"]}
{"id": "C07", "title": "Stored nodes decode to what was stored", "statement": "Decoding the bytes that `commit` writes for a node yields a node with the same content as the encoded one, where children whose encoding reaches 32 bytes are replaced by their hash.", "quantifier": "for every well-formed node, at every nesting depth and for every value/prefix length", "why_tests_cant": "RLP has different headers at lengths 1, 55, 56, 255, 256, ...; inline versus hashed children depends on the sizes; tests only see the sizes they happen to produce.", "anchors": ["pmt/src/inner.rs: encode_raw, write_node, decode_node"]}
{"id": "C08", "title": "Commit then reopen is faithful", "statement": "After `let r = trie.commit()`, a fresh view `trie.at_root(r)` over the same (non-pruning) database returns for every key the value the committed trie returned before the commit, and the committed trie itself is unchanged for reads.", "quantifier": "for every reachable trie with a collision-free hash on the nodes written, and every key", "why_tests_cant": "Needs all node shapes and sizes and all keys; equality of two infinite read functions.", "anchors": ["pmt/src/inner.rs: commit, at_root, write_node, recover_from_db"]}
{"id": "C09", "title": "Root hash does not depend on insertion order", "statement": "Two tries that only ever received inserts and now hold the same key/value pairs produce the same `commit` root hash, whatever the order, repetition and intermediate values of the inserts.", "quantifier": "for every pair of insert sequences with equal final contents", "why_tests_cant": "All permutations and overwrites of unboundedly many keys.", "anchors": ["pmt/src/inner.rs: insert_at, commit"]}
{"id": "C10", "title": "Root hash is a function of the contents (with removals)", "statement": "Two tries that hold the same key/value pairs after inserts and removes produce the same root hash; in particular removing every key gives the root hash of the empty trie.", "quantifier": "for every pair of insert/remove sequences with equal final contents", "why_tests_cant": "The property is about all histories; the code's short-cut for keys ending at a branch only shows for keys that are prefixes of each other.", "anchors": ["pmt/src/inner.rs: delete_at, degenerate, commit"]}
{"id": "C11", "title": "Commit is idempotent", "statement": "Calling `commit` (or `root_hash`) again without an intervening update returns the same hash and leaves the database unchanged.", "quantifier": "for every reachable trie over a non-pruning database", "why_tests_cant": "All node shapes, including roots shorter than 32 bytes.", "anchors": ["pmt/src/inner.rs: commit, write_node"]}
{"id": "C12", "title": "Iteration lists exactly the contents in order", "statement": "`iter()` yields every stored pair exactly once and nothing else, in ascending byte order of keys, for tries that do not hold the empty key.", "quantifier": "for every reachable trie without the empty key", "why_tests_cant": "Relation between an explicit-stack state machine and the whole map for arbitrary shapes.", "anchors": ["pmt/src/trie_iterator.rs: TrieIterator::next", "pmt/src/inner.rs: values, iter"]}
{"id": "C13", "title": "Iteration handles the empty key", "statement": "`iter()` also lists the pair stored under the empty key.", "quantifier": "for every reachable trie", "why_tests_cant": "The defective state (a branch at the root carrying a value) needs the empty key together with another key; generators with fixed-length keys never produce it.", "anchors": ["pmt/src/trie_iterator.rs: TrieIterator::next", "pmt/src/nibbles.rs: encode_raw, is_leaf"]}
{"id": "C14", "title": "Membership proofs are complete", "statement": "After `r = commit()`, `verify_proof(r, k, get_proof(k))` returns exactly what `get(k)` returns, both for present and absent keys.", "quantifier": "for every committed trie (collision-free hash on the nodes involved) and every key", "why_tests_cant": "All shapes, both present and absent keys, inline and hashed nodes.", "anchors": ["pmt/src/inner.rs: get_proof, get_path_at, verify_proof"]}
{"id": "C15", "title": "Membership proofs are sound", "statement": "If `verify_proof(r, k, proof)` returns `Ok(x)` for the root `r` of a trie, then `x` is what that trie stores for `k`, whatever the proof is.", "quantifier": "for every committed trie, key and adversarial list of byte strings on which the hash does not collide with the trie's nodes", "why_tests_cant": "The adversary's proof ranges over all byte strings.", "anchors": ["pmt/src/inner.rs: verify_proof, decode_node, get_at"]}
{"id": "C16", "title": "Verifying a malformed proof never crashes", "statement": "`verify_proof` returns `Ok` or `Err(InvalidProof)` and does not panic, for every root, key and list of byte strings.", "quantifier": "for every root hash, key and proof", "why_tests_cant": "The crashing inputs are a thin set of malformed encodings.", "anchors": ["pmt/src/inner.rs: verify_proof, decode_node", "pmt/src/nibbles.rs: from_compact, is_leaf"]}
{"id": "C17", "title": "Old roots stay readable in an archive database", "statement": "With a database that keeps every entry, the view at any previously committed root keeps returning the contents at the time of that commit after any later inserts, removes and commits.", "quantifier": "for every history, every earlier commit in it, every key", "why_tests_cant": "Unbounded histories; the hazard is an entry being overwritten or removed later.", "anchors": ["pmt/src/inner.rs: commit, at_root", "pmt/src/db.rs: MemoryDB::remove"]}
{"id": "C18", "title": "Pruning keeps the current trie readable", "statement": "With the pruning database (`MemoryDB::new(true)`), after `commit` every key of the current trie is still readable.", "quantifier": "for every history", "why_tests_cant": "Needs removal of absent keys or structurally shared subtrees followed by commits; rarely generated.", "anchors": ["pmt/src/inner.rs: commit (removed_keys), insert_at/delete_at (passing_keys), write_node (gen_keys)", "pmt/src/db.rs: MemoryDB::remove"]}
{"id": "C19", "title": "A missing database node never yields a wrong answer", "statement": "If database entries have been lost, `get` returns either the right value or a `MissingTrieNode` error carrying the requested key and the missing hash; it never returns a wrong value or a false absence.", "quantifier": "for every committed trie, every subset of lost entries, every key", "why_tests_cant": "Exponentially many subsets of lost nodes for every trie.", "anchors": ["pmt/src/inner.rs: get, get_hash_node, recover_from_db"]}
{"id": "C20", "title": "Proof generation works on a view opened by root", "statement": "`get_proof` on a view obtained with `at_root` returns the same proof as on the committed trie.", "quantifier": "for every committed trie and key", "why_tests_cant": "Concerns every root and key; the tests only call get_proof on the trie that was committed.", "anchors": ["pmt/src/inner.rs: get_proof, at_root, encode_raw"]}
{"id": "C21", "title": "Failed updates leave the contents unchanged", "statement": "If `insert` or `remove` returns an error because a database node is missing, all subsequent reads give the same results as before the call.", "quantifier": "for every trie, every incomplete database, every key and value", "why_tests_cant": "Any subset of missing nodes and any position on the path.", "anchors": ["pmt/src/inner.rs: insert, remove, insert_at, delete_at"]}
{"id": "C22", "title": "Versioned reads return the latest write at or before the version", "statement": "After writing value sets at consecutive versions 0,1,...,n through `put_value_set` and applying each returned batch to the store, `get(k, v)` and the value part of `get_with_proof(k, v)` return the last write to `k` at a version <= v (`None` when that write was a deletion or there is none).", "quantifier": "for all histories of value sets (with deletions, overwrites, duplicate keys within a set), all keys and all versions v <= n", "why_tests_cant": "Unbounded histories and all versions at once.", "anchors": ["jmt/src/tree.rs: put_value_set, get, get_with_proof", "jmt/src/mock.rs: MockTreeStore"]}
{"id": "C23", "title": "Later versions never change earlier ones", "statement": "Applying the update batch of a later version changes no observation at any earlier version: root hash, value, proof and leaf count at version v stay the same.", "quantifier": "for all histories, all earlier versions and keys", "why_tests_cant": "Copy-on-write isolation is about every node shared between versions.", "anchors": ["jmt/src/tree.rs: put_value_set, insert_at_internal_node, insert_at_leaf_node", "jmt/src/tree_cache.rs: put_node, delete_node, freeze"]}
{"id": "C24", "title": "Root hash depends only on the contents", "statement": "The root hash returned for a version equals the root of the sparse Merkle tree of the key/value-hash pairs live at that version, as defined by a short recursive specification; hence any two histories with equal contents give equal root hashes, and deleting everything gives the placeholder hash.", "quantifier": "for all histories with insertions, updates and deletions", "why_tests_cant": "Quantifies over all histories including those whose nodes are created, collapsed and re-created; tests sample.", "anchors": ["jmt/src/tree.rs: put_value_set, insert_at, insert_at_leaf_node, insert_at_internal_node", "jmt/src/node_type.rs: InternalNode::hash, merkle_hash"]}
{"id": "C25", "title": "Deleting an absent key is a no-op", "statement": "A value set that only deletes keys that are absent leaves the root hash and all reads unchanged and marks no node stale.", "quantifier": "for all reachable trees and all sets of absent keys", "why_tests_cant": "All tree shapes and all positions where the search for the absent key stops.", "anchors": ["jmt/src/tree.rs: insert_at, insert_at_internal_node, insert_at_leaf_node, insert_at (Null)"]}
{"id": "C26", "title": "Multi-version calls equal one call per version", "statement": "`put_value_sets(sets, v)` returns the same root hashes and leads to the same store as calling `put_value_set` once per set with the store updated in between.", "quantifier": "for all lists of value sets and starting stores", "why_tests_cant": "Unbounded lists; interactions between the staging cache and the frozen caches.", "anchors": ["jmt/src/tree.rs: put_value_sets", "jmt/src/tree_cache.rs: freeze, get_node"]}
{"id": "C27", "title": "Batch insertion equals one-by-one insertion", "statement": "`batch_put_value_sets` produces the same root hash and the same readable contents as `put_value_sets` with every value present.", "quantifier": "for all starting trees and all batches", "why_tests_cant": "The batch recursion partitions the sorted batch; all partitions and tree shapes must be covered.", "anchors": ["jmt/src/tree.rs: batch_put_value_sets, batch_insert_at, batch_create_subtree, batch_create_subtree_with_existing_leaf", "jmt/src/types/nibble.rs: NibbleRangeIterator"]}
{"id": "C28", "title": "Within one value set the last write to a key wins", "statement": "If a value set mentions a key several times, the resulting contents and root hash are those of the set in which only the last mention is kept.", "quantifier": "for all value sets and trees", "why_tests_cant": "All interleavings of repeated keys.", "anchors": ["jmt/src/tree.rs: put_value_sets, put"]}
{"id": "C29", "title": "Inclusion proofs verify", "statement": "For a key with value x at version v, the proof from `get_with_proof` verifies against `get_root_hash(v)` with `Some(x)`.", "quantifier": "for all reachable trees, versions and present keys", "why_tests_cant": "All tree shapes and depths up to 256 bits.", "anchors": ["jmt/src/tree.rs: get_with_proof", "jmt/src/node_type.rs: get_child_with_siblings", "jmt/src/types/proof/definition.rs: SparseMerkleProof::verify"]}
{"id": "C30", "title": "Non-inclusion proofs verify", "statement": "For a key absent at version v, the proof from `get_with_proof` verifies against `get_root_hash(v)` with `None`.", "quantifier": "for all reachable trees, versions and absent keys", "why_tests_cant": "Several structurally different reasons for absence at each depth.", "anchors": ["jmt/src/tree.rs: get_with_proof", "jmt/src/types/proof/definition.rs: SparseMerkleProof::verify"]}
{"id": "C31", "title": "Inclusion proofs are sound", "statement": "If `proof.verify(root, k, Some(x))` succeeds for the root hash of a tree, then the tree holds `k` with a value whose hash is the hash of x.", "quantifier": "for all trees and all adversarial proofs on which the hash function does not collide with the tree's own hash inputs", "why_tests_cant": "Adversarial proofs range over all sibling lists.", "anchors": ["jmt/src/types/proof/definition.rs: SparseMerkleProof::verify", "jmt/src/types/proof.rs: SparseMerkleLeafNode::hash, SparseMerkleInternalNode::hash"]}
{"id": "C32", "title": "Non-inclusion proofs are sound", "statement": "If `proof.verify(root, k, None)` succeeds for the root hash of a tree, then the tree has no value for `k`.", "quantifier": "for all trees and all adversarial proofs on which the hash does not collide", "why_tests_cant": "As for inclusion; the adversary also chooses the neighbouring leaf.", "anchors": ["jmt/src/types/proof/definition.rs: SparseMerkleProof::verify"]}
{"id": "C33", "title": "Root recomputation agrees with verification", "statement": "For a proof carrying a leaf, `root_hash()` returns the one root against which the proof can verify for that leaf's key and value; verification fails against every other root.", "quantifier": "for all proofs with a leaf and at most 256 siblings, all roots", "why_tests_cant": "All proofs and all roots.", "anchors": ["jmt/src/types/proof/definition.rs: SparseMerkleProof::{root_hash,verify}"]}
{"id": "C34", "title": "Leaf count is exact", "statement": "`get_leaf_count(v)` is the number of keys live at version v.", "quantifier": "for all histories and versions", "why_tests_cant": "Counts are maintained incrementally through children; any history could break it.", "anchors": ["jmt/src/tree.rs: get_leaf_count", "jmt/src/node_type.rs: InternalNode::leaf_count, sum_leaf_count"]}
{"id": "C35", "title": "Range proofs verify", "statement": "For a present key k, `get_range_proof(k, v)` verifies against the root hash of version v when the verifier supplies exactly the leaves with keys <= k.", "quantifier": "for all reachable trees and present keys", "why_tests_cant": "All shapes; relation between the set of leaves and the proof.", "anchors": ["jmt/src/tree.rs: get_range_proof", "jmt/src/restore.rs: verify"]}
{"id": "C36", "title": "Iteration from a key", "statement": "`JellyfishMerkleIterator::new(store, v, start)` yields exactly the live pairs of version v with key >= start, each once, in ascending key order.", "quantifier": "for all reachable trees, versions and start keys (present or not)", "why_tests_cant": "An explicit stack with bit masks against an unbounded set of trees and start keys.", "anchors": ["jmt/src/iterator.rs: JellyfishMerkleIterator::{new,next}"]}
{"id": "C37", "title": "Iteration from an index", "statement": "`new_by_index(store, v, i)` yields exactly the pairs of version v from the i-th smallest key on; it yields nothing for i >= the number of keys.", "quantifier": "for all reachable trees and indices", "why_tests_cant": "Relies on leaf counts of every internal node and bit masks.", "anchors": ["jmt/src/iterator.rs: JellyfishMerkleIterator::{new_by_index,skip_leaves}"]}
{"id": "C38", "title": "Exclusion proofs name the true neighbours", "statement": "`get_with_exclusion_proof(k, v)` succeeds on a non-empty tree: for an absent k the returned left/right proofs are inclusion proofs of the greatest key below k and the smallest key above k.", "quantifier": "for all reachable trees, versions and keys", "why_tests_cant": "Neighbour search over all shapes and all version assignments of nodes.", "anchors": ["jmt/src/tree.rs: get_with_exclusion_proof, get_bounding_path, search_closest_extreme_node"]}
{"id": "C39", "title": "Pruning is safe", "statement": "After purging every node recorded as stale at or before version v, every version >= v is still completely readable (values, proofs, root hash).", "quantifier": "for all histories and all v", "why_tests_cant": "Sharing of nodes between versions in all histories.", "anchors": ["jmt/src/tree_cache.rs: delete_node, freeze", "jmt/src/mock.rs: purge_stale_nodes"]}
{"id": "C40", "title": "Pruning is complete", "statement": "After purging at version v, the store holds only nodes reachable from the root of some version >= v.", "quantifier": "for all histories and all v", "why_tests_cant": "Every unreachable node in every history would have to be examined.", "anchors": ["jmt/src/tree_cache.rs: freeze", "jmt/src/mock.rs: purge_stale_nodes"]}
{"id": "C41", "title": "Updates do not fail or clash", "statement": "On a store built by the tree's own batches, `put_value_set` at the next version never returns an error or panics, never overwrites an existing node key, and never records a node as stale twice.", "quantifier": "for all histories and all next value sets", "why_tests_cant": "All internal assertions over all reachable states.", "anchors": ["jmt/src/tree.rs: put_value_set", "jmt/src/tree_cache.rs: put_node, delete_node (assert)", "jmt/src/mock.rs: write_node_batch (assert)"]}
{"id": "C42", "title": "Update statistics are exact", "statement": "The statistics of an update batch report exactly the numbers of new nodes, new leaves, stale nodes and stale leaves of that version.", "quantifier": "for all histories", "why_tests_cant": "Counters are maintained by hand next to the sets they should count.", "anchors": ["jmt/src/tree_cache.rs: freeze", "jmt/src/writer.rs: NodeStats"]}
{"id": "C43", "title": "Skipping a version keeps the data", "statement": "Calling `put_value_set` at a version that is not the successor of the latest version either fails or produces a tree containing the latest contents plus the update.", "quantifier": "for all stores and version gaps", "why_tests_cant": "Only shows when callers skip versions; any gap.", "anchors": ["jmt/src/tree.rs: put_value_set", "jmt/src/tree_cache.rs: TreeCache::new, freeze"]}
{"id": "C44", "title": "Bit iteration and reassembly are inverse", "statement": "Collecting the 256 bits of a 32-byte key and reassembling them gives the key; lists of another length are rejected; the common-prefix length in bits is the length of the longest common prefix of the two bit sequences, and in nibbles its quarter rounded down.", "quantifier": "for all 32-byte arrays and all bit lists", "why_tests_cant": "2^256 inputs.", "anchors": ["jmt/src/bytes32ext.rs: iter_bits, from_bit_iter, common_prefix_bits_len, common_prefix_nibbles_len, get_nibble"]}
{"id": "C45", "title": "Nibble paths behave as lists of nibbles", "statement": "`NibblePath` push/pop/last/truncate/get_nibble/nibbles/bits behave as the corresponding list operations, two paths built by any operations with equal nibble sequences are equal, and its byte packing keeps the padding invariant.", "quantifier": "for all paths and operation sequences", "why_tests_cant": "All lengths and parities.", "anchors": ["jmt/src/types/nibble/nibble_path.rs: NibblePath"]}
{"id": "C46", "title": "Nibble ranges partition a sorted batch", "statement": "Iterating nibble ranges over a key-sorted batch sharing a prefix of i nibbles yields consecutive non-empty index ranges covering the batch, one per distinct i-th nibble.", "quantifier": "for all sorted batches and positions", "why_tests_cant": "Binary search over all sorted lists.", "anchors": ["jmt/src/types/nibble.rs: NibbleRangeIterator::next"]}
{"id": "C47", "title": "Internal node hashing is the binary Merkle hash", "statement": "The hash of an internal node with 16 optional children is the root of the 4-level sparse binary tree over them in which a subtree holding a single leaf is replaced by the leaf and an empty one by the placeholder; the child proof for a nibble recombines to the same hash.", "quantifier": "for all sets of children and nibbles", "why_tests_cant": "2^16 occupancy patterns times leaf patterns.", "anchors": ["jmt/src/node_type.rs: merkle_hash, generate_bitmaps, get_child_with_siblings, get_child_without_siblings, range_bitmaps"]}
{"id": "C48", "title": "The store returns the newest value at or below a version", "statement": "`get_value_option(max, k)` returns the value recorded for k at the greatest version <= max, and writing values out of version order for one key is rejected.", "quantifier": "for all sequences of writes and all queries", "why_tests_cant": "All write sequences.", "anchors": ["jmt/src/mock.rs: get_value_option, put_value"]}
{"id": "C49", "title": "Version numbers survive conversion to bytes", "statement": "Converting a version to its 8 big-endian bytes and back is the identity; a byte string of a different length converts to version 0.", "quantifier": "for all 64-bit versions and all byte strings", "why_tests_cant": "2^64 inputs.", "anchors": ["jmt/src/db.rs: Version"]}
{"id": "C50", "title": "Range proofs are sound", "statement": "If the verifier's check of a range proof accepts a set of leaves with greatest key k against the root of a tree, then those leaves are exactly the tree's leaves with keys <= k.", "quantifier": "for all trees, leaf sets and adversarial proofs without hash collisions", "why_tests_cant": "Adversarial proofs and omissions.", "anchors": ["jmt/src/restore.rs: verify, compute_left_sibling", "jmt/src/types/proof/definition.rs: SparseMerkleRangeProof::verify"]}
{"id": "C51", "title": "Restore rebuilds the source tree", "statement": "Feeding all pairs of a tree in key order, in chunks with the source's range proofs, and calling finish leaves a store whose root hash, values and leaf count at the target version equal the source's.", "quantifier": "for all trees and all chunkings", "why_tests_cant": "All chunkings of all trees.", "anchors": ["jmt/src/restore.rs: add_chunk_impl, add_one, insert_at_leaf, freeze, finish_impl"]}
{"id": "C52", "title": "finish implies the expected root", "statement": "If `finish` returns without error, the root written for the target version has the expected root hash.", "quantifier": "for all sequences of add_chunk calls followed by finish", "why_tests_cant": "Early finish and finish after a failed chunk.", "anchors": ["jmt/src/restore.rs: finish_impl, add_chunk_impl"]}
{"id": "C53", "title": "Malformed sparse Merkle proofs are rejected without crashing", "statement": "`SparseMerkleProof::verify` returns `Ok` or `Err` and never panics, for every proof, root and key; in particular more than 256 siblings are rejected. The same holds for `SparseMerkleRangeProof::verify`.", "quantifier": "for all proofs, roots, keys and leaf lists", "why_tests_cant": "Adversarial input space.", "anchors": ["jmt/src/types/proof/definition.rs: SparseMerkleProof::verify, SparseMerkleRangeProof::verify"]}
{"id": "C54", "title": "The store's length counts live keys", "statement": "`VersionedDatabase::len` is the number of keys whose latest recorded value is present, `is_empty` holds exactly when that is 0, and `version` is the greatest version written.", "quantifier": "for all histories", "why_tests_cant": "All histories of deletions and re-insertions.", "anchors": ["jmt/src/mock.rs: VersionedDatabase for MockTreeStore", "jmt/src/db.rs"]}
{"id": "C55", "title": "Iteration reports lost database entries", "statement": "If database entries below the root have been lost, `iter()` does not silently present a shorter list as the contents of the trie.", "quantifier": "for every committed trie and every subset of lost entries", "why_tests_cant": "Requires reasoning about every partially lost database; tests iterate only over intact in-memory databases.", "anchors": ["pmt/src/trie_iterator.rs: TrieIterator::next", "pmt/src/inner.rs: iter"]}
{"id": "C56", "title": "A root hash commits to the contents", "statement": "If two tries, possibly with different histories and databases, produced the same commit root, they held the same key/value pairs when they were committed.", "quantifier": "for every pair of histories and every pair of commits in them, with a hash that does not collide on the strings hashed", "why_tests_cant": "Quantifies over pairs of arbitrary histories; a test can only compare a few roots.", "anchors": ["pmt/src/inner.rs: commit, write_node, encode_raw"]}
{"id": "C57", "title": "The root is the Ethereum (Yellow Paper) root", "statement": "The commit root equals the Merkle-Patricia root TRIE(J) of appendix D of the Ethereum Yellow Paper for the set J of stored pairs.", "quantifier": "for every history of inserts, removes (of keys no stored key properly extends), commits and reopenings, and every enumeration of the contents", "why_tests_cant": "Tests compare a handful of fixtures; the claim is an equality with an independent recursive definition for all contents.", "anchors": ["pmt/src/inner.rs: insert_at, delete_at, degenerate, encode_raw, commit", "pmt/src/nibbles.rs: encode_compact"]}
{"id": "C58", "title": "A failed update does not damage the pruning database", "statement": "On the pruning database, if `insert` fails because a node is missing, a following `commit` does not make any key unreadable that was readable before.", "quantifier": "for every trie over a pruning database with lost entries, every key and value", "why_tests_cant": "Depends on the bookkeeping left behind by an aborted traversal and on which entry was lost.", "anchors": ["pmt/src/inner.rs: insert_at, passing_keys, commit", "pmt/src/db.rs: MemoryDB::remove"]}
{"id": "C59", "title": "The child array behaves as a finite map", "statement": "Under any sequence of insert and remove the sixteen-slot child array of an internal node never panics, its counter is the number of children, get and iteration agree with the finite map of the children in ascending nibble order, and constructing an internal node from it succeeds or panics as a function of that map only.", "quantifier": "for all sequences of insert and remove from the empty array", "why_tests_cant": "Every sequence of updates on 16 slots, including repeated inserts and removes of absent children.", "anchors": ["jmt/src/node_type.rs: Children::{new,insert,get,remove,values,iter_sorted,num_children,is_empty}, InternalNode::new_impl"]}
{"id": "C60", "title": "Nibble cursors are split lists", "statement": "Any cursor obtained from nibbles, next, visited_nibbles and remaining_nibbles behaves as a list of passed nibbles and a list of nibbles to come: peek, next, bits, num_nibbles, is_finished, visited, remaining and get_nibble_path are the corresponding list operations. skip_common_prefix terminates and moves both cursors by exactly the longest common prefix of what they have to come.", "quantifier": "for all paths and all cursor operation sequences", "why_tests_cant": "All paths, positions and parities.", "anchors": ["jmt/src/types/nibble/nibble_path.rs: NibbleIterator, BitIterator, skip_common_prefix"]}
{"id": "C61", "title": "Restoring survives wrong chunks", "statement": "Whatever chunks and range proofs are given to add_chunk, in any order and with any siblings, it never panics, and the state afterwards stands for the pairs received with increasing keys.", "quantifier": "for all hash functions, all stores without data at the target version, all expected roots and all sequences of chunks", "why_tests_cant": "All adversarial sequences of chunks and proofs, including calls after an error.", "anchors": ["jmt/src/restore.rs: add_chunk_impl, add_one, insert_at_leaf, freeze, verify, compute_left_sibling"]}
{"id": "C62", "title": "Interrupted restorations can be resumed", "statement": "A restoration from honest chunks that is interrupted any number of times, opened again each time with JellyfishMerkleRestore::new on the same store and continued from the first pair not yet stored, is accepted throughout, and finish leaves the tree of the source: the same root, leaf count and proofs, the same values, and no change to nodes of other versions.", "quantifier": "for all hash functions without the empty hash in the tree, all reached sources and versions, all target stores without leaves and without data at the target version, all ways to cut the pairs into chunks and the chunks into sessions", "why_tests_cant": "All trees, chunkings and interruption points.", "anchors": ["jmt/src/restore.rs: new, recover_partial_nodes, add_chunk_impl, finish_impl", "jmt/src/mock.rs: get_rightmost_leaf"]}
{"id": "C63", "title": "Resumed restorations survive wrong chunks", "statement": "After JellyfishMerkleRestore::new has reopened an interrupted restoration, add_chunk returns Ok or an error on every chunk and never panics.", "quantifier": "for all interrupted restorations and all chunks", "why_tests_cant": "Needs an adversarial key under a subtree that is already frozen.", "anchors": ["jmt/src/restore.rs: recover_partial_nodes, add_one"]}
{"id": "C64", "title": "Opening a restoration never panics", "statement": "JellyfishMerkleRestore::new returns Ok or an error on every store that holds trees written by put_value_sets.", "quantifier": "for all reached stores, versions and expected roots", "why_tests_cant": "All stores; the tests only open stores with an unfinished restoration.", "anchors": ["jmt/src/restore.rs: new, recover_partial_nodes", "jmt/src/node_type.rs: gen_parent_node_key"]}
{"id": "C65", "title": "Stored nodes are closed upwards and do not dangle", "statement": "Whenever a node is stored at a version that pruning has not passed, all its ancestors are stored at the same version, and every child it names is stored, at a version not after its own.", "quantifier": "for all hash functions, all executions of puts and purges, all stored nodes", "why_tests_cant": "All histories and prunings.", "anchors": ["jmt/src/tree.rs: put, batch update, freeze", "jmt/src/mock.rs: purge_stale_nodes"]}
{"id": "C66", "title": "ICS-23 existence proofs verify", "statement": "For a key with a value, get_with_ics23_proof returns the value and an existence proof that the ICS-23 check accepts against ics23_spec and the root of the version.", "quantifier": "for all hash functions, hashers of the tree, histories of puts and purges, versions, keys and values", "why_tests_cant": "The tests use Sha256 and a few thousand random short keys at version 0; the refuting cases need hashes agreeing on 64 bits, empty values or another hasher.", "anchors": ["jmt/src/tree/ics23_impl.rs: sparse_merkle_proof_to_ics23_existence_proof, get_with_ics23_proof, ics23_spec"]}
{"id": "C67", "title": "ICS-23 nonexistence proofs verify", "statement": "For a key without a value in a tree that is not empty, when the preimages of the keys are known, get_with_ics23_proof returns a nonexistence proof that the ICS-23 check accepts against ics23_spec and the root of the version.", "quantifier": "for all hash functions, histories of puts and purges, versions, keys and preimage stores", "why_tests_cant": "The tests ask for one absent key of a tree of a single version.", "anchors": ["jmt/src/tree/ics23_impl.rs: exclusion_proof_to_ics23_nonexistence_proof, get_with_ics23_proof"]}
{"id": "C68", "title": "ICS-23 existence proofs are sound and unique", "statement": "An existence proof accepted by the ICS-23 check against ics23_spec and the root of a tree proves a key that the tree maps to that value, and no two different proofs of the same pair are accepted.", "quantifier": "for all trees, all proofs (honest or not), all keys and values, hash collision-free on the strings hashed", "why_tests_cant": "Quantifies over all forged proofs.", "anchors": ["jmt/src/tree/ics23_impl.rs: ics23_spec", "jmt/src/proof/definition.rs: INTERNAL_DOMAIN_SEPARATOR, LEAF_DOMAIN_SEPARATOR"]}
{"id": "C69", "title": "ICS-23 nonexistence proofs are sound", "statement": "When the ICS-23 check accepts a nonexistence proof for a key against ics23_spec and the root of a tree, the tree has no value for the key.", "quantifier": "for all trees, all proofs (honest or not) and all keys, hash collision-free on the strings hashed", "why_tests_cant": "Quantifies over all forged proofs; the tests try one wrong key.", "anchors": ["jmt/src/tree/ics23_impl.rs: ics23_spec"]}
{"id": "C70", "title": "Hash caches of batch insertion", "statement": "batch_put_value_sets with hash caches takes the hash of a node from the cache if it is there and computes it otherwise (the comment on get_hash), so that the call returns the roots of the contents, and reads return the values of the batch.", "quantifier": "for all reached stores, all batches and all lists of hash caches", "why_tests_cant": "No test passes a hash cache; quantifies over all caches, right or wrong.", "anchors": ["jmt/src/tree.rs: get_hash", "jmt/src/tree.rs: batch_put_value_sets"]}
{"id": "C71", "title": "A commit in between does not change later roots", "statement": "Inserting a commit at any place of a sequence of calls (no view opened after it) leaves the roots that later commits return as they were.", "quantifier": "for all sequences of calls, all places and all views", "why_tests_cant": "Quantifies over all histories; the node shapes in memory and in the database differ.", "anchors": ["pmt/src/inner.rs: delete_at, degenerate, commit"]}
{"id": "C72", "title": "Reads at every version are right or refused", "statement": "On a store with any purges behind it, reading a key with its proof at any version, purged, kept or not written yet, returns the value of that version with a proof that verifies against that version's root, or an error that a node is missing; root hash and leaf count likewise.", "quantifier": "for all executions of puts and purges, all versions, all keys", "why_tests_cant": "Quantifies over all executions; the tests read purged versions only to see them fail.", "anchors": ["jmt/src/tree.rs: get_with_proof, get_root_hash, get_leaf_count", "jmt/src/mock.rs: purge_stale_nodes"]}
{"id": "C73", "title": "Every call over a database that lost entries agrees or names the loss", "statement": "If the database has lost entries, `insert`, `remove`, `get`, `get_proof` and `contains` do exactly what they do over the full database, or fail with `MissingTrieNode` naming a lost hash, the trie's root, the requested key and a prefix of the key's path, and leave the trie's root, root hash, cache and new-node hashes as they were.", "quantifier": "for every trie, every pair of databases one of which is contained in the other, every key and value", "why_tests_cant": "Every subset of lost entries for every trie and every call; the tests remove one node of one trie.", "anchors": ["pmt/src/inner.rs: insert_at, delete_at, degenerate, get_path_at, get_at, recover_from_db", "pmt/src/inner.rs: contains"]}
{"id": "C74", "title": "Iteration at every version is right or refused", "statement": "On a store with any purges behind it, iterating a version from a key or from an index, be it purged, kept or not written yet, gives exactly the pairs of that version in ascending order, or a first part of them and then the same missing-node error for ever, or fails at once with a missing node.", "quantifier": "for all executions of puts and purges, all versions, all starting keys and indices", "why_tests_cant": "Quantifies over all executions; the tests iterate kept versions only.", "anchors": ["jmt/src/iterator.rs: new, new_by_index, next", "jmt/src/mock.rs: purge_stale_nodes"]}
{"id": "C75", "title": "verify_proof accepts the tree's own proofs and nothing false", "statement": "VersionedTrie::verify_proof accepts the proof of get_proof against the root of the version; and if it accepts any proof against the root of any contents, those contents hold at the key what the version holds there.", "quantifier": "for all executions, kept versions, keys, proofs and contents (soundness under no collision on the strings hashed)", "why_tests_cant": "All proofs and all contents, including forged proofs.", "anchors": ["jmt/src/tree.rs: VersionedTrie for JellyfishMerkleTree", "jmt/src/trie.rs"]}
{"id": "C76", "title": "The version the store calls its latest is always readable", "statement": "Once anything has been written, the version returned by `version()` can be read with proofs and iterated, whatever has been purged, and shows the contents and the root hash of the newest version, even when that is a later one.", "quantifier": "for all executions of puts (also of empty sets) and purges, all keys", "why_tests_cant": "The version can lie below every version that pruning promises to keep; the claim is about all interleavings of empty sets and purges.", "anchors": ["jmt/src/db.rs: version", "jmt/src/tree.rs: get_with_proof", "jmt/src/mock.rs: purge_stale_nodes"]}
{"id": "C77", "title": "Proofs of every kind at every version are right or refused", "statement": "On a store with any purges behind it, asking for an exclusion proof, a range proof or an ICS-23 proof at any version, purged, kept or not written yet, gives a result that is right for the contents of that version, or the error that fits those contents (key not found, empty tree, missing preimage), or reports a missing root or node.", "quantifier": "for all executions of puts and purges, all versions, all keys", "why_tests_cant": "Partial purges leave some nodes of a version in place; a proof could mix versions. The tests ask for proofs at kept versions only.", "anchors": ["jmt/src/tree.rs: get_with_exclusion_proof, get_range_proof", "jmt/src/tree/ics23_impl.rs: get_with_ics23_proof", "jmt/src/mock.rs: purge_stale_nodes"]}
{"id": "C78", "title": "Merged batches write what the batches write", "statement": "If two node batches can be written one after the other, writing NodeBatch::merge of them gives the same store; in particular the batches of two consecutive updates can be merged and written at once.", "quantifier": "for all stores and all batches; for all executions and all pairs of updates", "why_tests_cant": "NodeBatch::merge has no test; the value histories depend on the order of the entries of both batches.", "anchors": ["jmt/src/writer.rs: extend, merge", "jmt/src/mock.rs: write_node_batch, put_value"]}
{"id": "C79", "title": "Writing a batch twice does no harm", "statement": "Writing a batch again to the store it has just been written to leaves the store unchanged, whatever the outcome; on a store that forbids overwriting the second write of the batch of an update panics.", "quantifier": "for all stores, batches and orders of the entries; for all executions", "why_tests_cant": "Quantifies over all batches; the tests do not write a batch twice.", "anchors": ["jmt/src/mock.rs: write_tree_update_batch, write_node_batch, put_value, put_stale_node_index"]}
{"id": "C80", "title": "A refused write leaves the store as it was", "statement": "If writing the batch of an update to a store fails, the store is as before the write.", "quantifier": "for all executions and all updates, also updates made from an older state of the store", "why_tests_cant": "The tests drop the store after a failed write.", "anchors": ["jmt/src/mock.rs: write_node_batch, write_tree_update_batch", "jmt/src/writer.rs: NodeBatch"]}
{"id": "C81", "title": "A commit that failed in the database can be tried again", "statement": "If the database refuses an operation of a commit, the trie, the other views and all committed roots read as before, later calls return what they would have returned, and trying the commit again gives the root hash the first attempt would have given.", "quantifier": "for all histories over an archive database, all orders of the writes and all points of failure", "why_tests_cant": "MemoryDB never fails, so no test reaches the error branches of commit; the writes come in the arbitrary order of a hash map.", "anchors": ["pmt/src/inner.rs: commit, write_node", "pmt/src/db.rs: Database::insert_batch, remove_batch"]}
{"id": "C82", "title": "A failed commit on a pruning database keeps the last root", "statement": "If the database refuses an operation of a commit over a database that prunes, the last committed root can still be read.", "quantifier": "for all histories over a pruning database and all points of failure", "why_tests_cant": "MemoryDB never fails, so no test stops a commit between two removals.", "anchors": ["pmt/src/inner.rs: commit", "pmt/src/db.rs: Database::remove_batch, MemoryDB::remove"]}
{"id": "C83", "title": "A proof read while other threads write and prune is right or an error", "statement": "Let other threads write value sets and prune the in-memory store while get_with_proof(k, v) runs, each of its lookups taking the lock for itself and so seeing the store of its own moment. The call then returns the value of k at version v together with a proof that verifies against the root of version v, or MissingRoot, or a missing node; it never mixes versions. If v was written before the call began and no purge of the whole execution promises less than v, the call succeeds.", "quantifier": "for all hash functions, executions of puts and purges, schedules of the lookups of the reader among the steps of the execution, versions and 32-byte keys", "why_tests_cant": "The interleavings of lookups with writes and purges cannot be enumerated, and a race shows up only for schedules no test controls.", "anchors": ["jmt/src/tree.rs:842-913", "jmt/src/mock.rs:81-125", "jmt/src/mock.rs:133-150", "jmt/src/mock.rs:227-246"]}
{"id": "C84", "title": "Iterating while other threads write and prune lists the version in order, up to an error that stays", "statement": "Let other threads write value sets and prune the in-memory store between the lookups of an iterator over version v. Creating the iterator fails with a missing node, or its calls of next give the pairs of version v from the starting key on, in ascending order, and then None; from some call on, also after a None, the calls may give the same missing-node error for ever. No error occurs when v was written before the iterator was made and no purge of the execution promises less than v.", "quantifier": "for all hash functions, executions of puts and purges, schedules of the lookups, versions, 32-byte starting keys and numbers of calls", "why_tests_cant": "The interleavings of the lookups of an iterator with writes and purges cannot be enumerated; an iterator that skips or repeats a key would need a particular schedule.", "anchors": ["jmt/src/iterator.rs:127-184", "jmt/src/iterator.rs:284-353", "jmt/src/mock.rs:81-125", "jmt/src/mock.rs:227-246"]}
{"id": "C85", "title": "Byte forms are read back and unique", "statement": "For node keys, nodes, sparse Merkle proofs, range proofs, stale-node indices and statistics, reading the borsh bytes of a value gives the value; every accepted byte string is the byte form of what was read from it; and one byte form is never a prefix of the byte form of a different value. A tree update batch is read back from its bytes, and every batch that is read has maps with ascending, distinct keys.", "quantifier": "for all values whose integers fit 64 bits, hashes 32 bytes, sequences fewer than 2^32 elements, and all byte strings", "why_tests_cant": "Uniqueness speaks about all byte strings: a second form of some value, or a form that is a prefix of another, is found by sampling only by luck.", "anchors": ["jmt/src/node_type.rs:37-56", "jmt/src/node_type.rs:105-123", "jmt/src/node_type.rs:140-163", "jmt/src/node_type.rs:186-204", "jmt/src/node_type.rs:304-328", "jmt/src/node_type.rs:698-715", "jmt/src/node_type.rs:756-767", "jmt/src/types/nibble/nibble_path.rs:18-41", "jmt/src/types/proof/definition.rs:18-39", "jmt/src/types/proof/definition.rs:236-250", "jmt/src/writer.rs:24-28", "jmt/src/writer.rs:86-115"]}
{"id": "C86", "title": "The nodes of a tree can be kept in a database of bytes", "statement": "Every node stored by an execution (the roots of pruned versions apart) has a byte form: its path has at most 64 nibbles, its hashes 32 bytes and its counts fit 64 bits. A database from the bytes of keys to the bytes of nodes then finds nothing under the bytes of a key that is not stored, finds bytes that read back as the stored node under the bytes of a stored key, and contains nothing else. Two nodes are equal exactly when their forms are.", "quantifier": "for all executions of puts and purges with fewer than 2^64 keys, all hash functions with 32-byte results, all finite maps of such nodes, all keys", "why_tests_cant": "That no two of all possible keys share their bytes, and that every node any execution can store fits, are statements about infinitely many stores.", "anchors": ["jmt/src/node_type.rs:37-56", "jmt/src/node_type.rs:756-767", "jmt/src/types/nibble/nibble_path.rs:18-41", "jmt/src/node_type.rs:186-204"]}
{"id": "C87", "title": "Values read from bytes satisfy the invariants of their types", "statement": "A node key read from bytes is the key of its nibble path: two keys with the same version and nibbles are equal, and taking the nibbles does not panic. An internal node read from bytes has as many children as its counter says. A batch has only one byte form.", "quantifier": "for all byte strings", "why_tests_cant": "Round-trip tests only read bytes that were written by the library; the violating byte strings are never written.", "anchors": ["jmt/src/types/nibble/nibble_path.rs:18-41", "jmt/src/node_type.rs:186-204", "jmt/src/writer.rs:24-28"]}
{"id": "C88", "title": "A verifier that reads proofs from bytes is total, sound and complete", "statement": "Reading a sparse Merkle proof from bytes and verifying it never panics; when it accepts, the key has a value of the claimed hash (or, for an absence claim, no value) in the tree of the root; the bytes of the proof a tree gives for a key are accepted against its root and are the only bytes that read as that proof.", "quantifier": "for all byte strings, maps, keys, values, executions and versions; soundness for hash functions without collisions on the inputs involved", "why_tests_cant": "A forged byte string is one of infinitely many; tests only flip bytes of honest proofs.", "anchors": ["jmt/src/types/proof/definition.rs:18-39", "jmt/src/types/proof/definition.rs:84-172", "jmt/src/types/proof.rs:44-59"]}
{"id": "C89", "title": "Failed writes of a restoration can be made up for", "statement": "When the store fails to write an accepted chunk, add_chunk answers with an error; sending that chunk again succeeds, and after all chunks have been sent, finish leaves the source's tree as if nothing had failed.", "quantifier": "for all source trees, all chunkings, all patterns of failing writes and any number of repeated sends of each chunk", "why_tests_cant": "All patterns of failures over all trees and chunkings.", "anchors": ["jmt/src/restore.rs: add_chunk_impl, finish_impl"]}
{"id": "C90", "title": "An unfinished restoration stores only what was checked", "statement": "A call of add_chunk that answers with an error writes nothing, and after any sequence of chunks and range proofs, right or wrong, every value and node stored at the target version belongs to the tree with the expected root.", "quantifier": "for all stores, all maps with the expected root, and all adversarial sequences of chunks and siblings without hash collisions", "why_tests_cant": "Adversarial sequences, including chunks accepted after refused ones.", "anchors": ["jmt/src/restore.rs: add_chunk_impl, verify, freeze"]}
{"id": "C91", "title": "A serialised Patricia trie is read back as it was", "statement": "Serialising any Patricia trie with its serde derives and reading the document back gives a trie with the same root node and root hash, with empty caches; as JSON text no trie is refused.", "quantifier": "for all tries of the Rust type, all histories of calls and all views", "why_tests_cant": "Tries of every shape and nesting depth; tests serialise a few shallow ones at most.", "anchors": ["pmt/src/inner.rs:26-47", "pmt/src/node.rs:11-25", "pmt/src/node.rs:36-120", "pmt/src/nibbles.rs:172-190", "serde_hash/src/lib.rs:8-17"]}
{"id": "C92", "title": "A trie read back has the contents of the one written", "statement": "Every lookup on a deserialised trie gives the value that the serialised one held, and later calls behave accordingly.", "quantifier": "for all histories before the writing, all keys, and all histories after the reading", "why_tests_cant": "Whether contents survive depends on what had been committed before; all histories on both sides.", "anchors": ["pmt/src/inner.rs:26-47", "pmt/src/db.rs:61-66"]}
{"id": "C93", "title": "A document that reads as a trie is a sound trie", "statement": "When a JSON document is accepted as a Patricia trie, the trie can be used without panics and its root hash is that of its contents.", "quantifier": "for all JSON documents", "why_tests_cant": "The violating documents are never written by the library.", "anchors": ["pmt/src/inner.rs:26-47", "pmt/src/nibbles.rs:58-60", "pmt/src/nibbles.rs:181-190"]}
{"id": "C94", "title": "A failed commit and its repetition remove what one commit would have", "statement": "When a database operation fails during commit while entries are being written, no entry has been removed; and committing again removes exactly the entries that the commit would have removed had it not failed.", "quantifier": "for all tries, all databases (archive or pruning), all drain orders of the cache and all failing operations", "why_tests_cant": "The in-memory database never fails; all points of failure over all tries.", "anchors": ["pmt/src/inner.rs:279-320", "pmt/src/db.rs:28-48"]}
{"id": "C95", "title": "A key in the log can be read back", "statement": "The text logged for a key is one printable line that reads, as a Rust byte string literal, as exactly that key; different keys and different hashes (and the three hash types) are shown differently.", "quantifier": "for all keys and hashes", "why_tests_cant": "Every byte string, with every mix of escapes.", "anchors": ["jmt/src/lib.rs: EscapedByteSlice", "jmt/src/lib.rs: Debug for KeyHash, ValueHash, RootHash"]}
{"id": "C96", "title": "KeyHash::sha256 tells key types apart", "statement": "`KeyHash::sha256::<K>()` gives different key hashes for different types K (it takes no key).", "quantifier": "for all types built from the standard ones", "why_tests_cant": "All types and all hash functions; one pair of types passes a test while another clashes.", "anchors": ["jmt/src/lib.rs: KeyHash::sha256"]}
{"id": "C97", "title": "is_empty of a Patricia trie", "statement": "`InnerTrie::is_empty` says whether the trie holds no key.", "quantifier": "for all histories and views", "why_tests_cant": "All histories of insertions, removals and commits.", "anchors": ["pmt/src/inner.rs: len, is_empty", "pmt/src/db.rs: MemoryDB::len"]}
{"id": "C98", "title": "Counting and listing a database in use", "statement": "`MemoryDB::len`, `is_empty` and `values`, called while other threads write, do not panic and give the contents before or after the write under way.", "quantifier": "for all executions of writers and all moments", "why_tests_cant": "Depends on the moment at which another thread holds the lock.", "anchors": ["pmt/src/db.rs: MemoryDB::len, is_empty, values"]}
{"id": "C99", "title": "put_leaf is all or nothing", "statement": "An accepted `put_leaf` adds its leaf, and its value from its version on, and changes nothing else; a refused one leaves the store as it was.", "quantifier": "for all stores, node keys and leaves", "why_tests_cant": "All stores; the refusal on the value comes after the node was added.", "anchors": ["jmt/src/mock.rs: put_leaf, put_value"]}
{"id": "C100", "title": "Preimages are returned for their hashes", "statement": "A preimage returned for a key hash was put, hashes to it, and is the last such; if the hasher does not collide on the keys put, each is returned for its hash and nothing for other hashes.", "quantifier": "for all sequences of keys put and all hashers", "why_tests_cant": "All sequences, with hashers that collide.", "anchors": ["jmt/src/mock.rs: put_key_preimage, preimage"]}
{"id": "C101", "title": "Clones of a Patricia trie are independent", "statement": "A clone of a trie, pending changes included, behaves from then on as a map of its own, whatever the clones and the original insert, remove and commit; unchanged, they commit to the same root.", "quantifier": "for all histories with any number of clones and views over one database", "why_tests_cant": "All interleavings of calls on clones that share a database.", "anchors": ["pmt/src/inner.rs: derive(Clone) on InnerTrie", "pmt/src/inner.rs: commit"]}
{"id": "C102", "title": "Threads with their own Patricia tries over one archive database do not disturb each other", "statement": "Any number of tries (clones, or opened at committed roots) over one archive database may be used and committed by different threads, the single node writes of several commits interleaved in any way: every call returns what it would if each trie were a map of its own, and every commit returns a root at which its contents can be read at once, while other commits are still under way.", "quantifier": "for all schedules of calls, clones, openings, starts of commits, single writes in any order, and ends of commits", "why_tests_cant": "The interleavings of writes are chosen by the scheduler and by the order of a hash map; a test sees a few.", "anchors": ["pmt/src/inner.rs: commit", "pmt/src/db.rs: insert_batch", "pmt/src/db.rs: MemoryDB::insert"]}
{"id": "C103", "title": "Calls on a Patricia trie are not disturbed by writes that fall between their look-ups", "statement": "A call that reads, inserts, removes or makes a proof looks up several nodes, each under its own lock; whatever other threads commit in between, over an archive database, reads return the contents of the trie, and changes and proofs give the same trie and the same answer as if the whole call had happened at its start.", "quantifier": "for all histories and for all moments, in anything the other threads can do next, at which the single look-ups fall", "why_tests_cant": "The moments of the look-ups relative to the writes of other threads are chosen by the scheduler.", "anchors": ["pmt/src/inner.rs: recover_from_db", "pmt/src/inner.rs: get_at", "pmt/src/inner.rs: insert_at", "pmt/src/inner.rs: delete_at", "pmt/src/db.rs: MemoryDB::get"]}
{"id": "C104", "title": "Proofs made while other threads commit verify", "statement": "Over an archive database, once a commit of a trie that holds something has returned its root, the proof its trie makes for any key, its look-ups falling between whatever the other threads write, verifies against that root and gives what the key has, or that it has nothing.", "quantifier": "for all histories of threads, all keys, and all moments at which the look-ups of get_proof fall in anything the other threads can do next", "why_tests_cant": "The scheduler chooses the interleaving; the keys are unbounded.", "anchors": ["pmt/src/inner.rs: get_proof", "pmt/src/inner.rs: get_path_at", "pmt/src/inner.rs: verify_proof", "pmt/src/inner.rs: commit"]}
{"id": "C105", "title": "Sizes of byte forms", "statement": "The number of bytes accepted as a node key, a node, a proof or a range proof is determined, or bounded, by what is read from them: a leaf has 65, an internal node from 41 to 49 per child beside 27 or 35 and never more than 819, a proof 5 or 69 and 32 per sibling; the proofs a tree makes have at most 8261 bytes and are read back.", "quantifier": "for all byte strings that are accepted; for all executions, versions kept and keys of 32 bytes", "why_tests_cant": "Byte strings, tree shapes and hash values are unbounded; the deepest proofs need keys whose hashes share 255 bits.", "anchors": ["jmt/src/node_type.rs: BorshSerialize derives", "jmt/src/types/proof/definition.rs: SparseMerkleProof", "jmt/src/tree.rs: get_with_proof"]}
{"id": "C106", "title": "Byte forms are those of the borsh format", "statement": "The bytes accepted as a node key, a node, a sparse Merkle proof, a range proof, a stale-node index or node statistics are exactly the bytes the borsh format gives to the value read: integers little endian at their width, fields in the order of their declaration, sequences after their length in four bytes, variants after their number in one byte. An update batch is written in, and read from, that form.", "quantifier": "for all byte strings and all values that fit their Rust types", "why_tests_cant": "A round trip passes with any layout as long as reading and writing agree; the byte strings and values are unbounded.", "anchors": ["jmt/src/node_type.rs: BorshSerialize and BorshDeserialize derives", "jmt/src/types/proof/definition.rs: SparseMerkleProof, SparseMerkleRangeProof", "jmt/src/writer.rs: NodeBatch, StaleNodeIndex, NodeStats, TreeUpdateBatch"]}
