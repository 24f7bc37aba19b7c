{
 "claims": [
  {
   "property": "C01",
   "status": "proved",
   "theorems": [
    "C01_map_semantics"
   ],
   "note": "All histories over an archive database, any number of views opened at committed roots; hash collision-free on the strings hashed; keys and values shorter than 2^58 bytes."
  },
  {
   "property": "C02",
   "status": "proved",
   "theorems": [
    "C02_empty_value_rejected"
   ],
   "note": "Dropping the rejected insert from any history changes no later output and no final state."
  },
  {
   "property": "C03",
   "status": "partial",
   "theorems": [
    "C03_remove_flag_partial",
    "C03_remove_flag_refuted"
   ],
   "note": "False as stated: removing an absent key at which present keys fork (two of them extend it and go on with different high nibbles) returns true (refuted, for every hash). Proved for tame histories (every removed key is absent, or has no present proper extension, or present keys fork at it): the flag is true exactly for the present keys and for the absent keys at which present keys fork."
  },
  {
   "property": "C04",
   "status": "proved",
   "theorems": [
    "C04_contains_get"
   ],
   "note": "Every state and database."
  },
  {
   "property": "C05",
   "status": "proved",
   "theorems": [
    "C05_nibble_expansion"
   ],
   "note": "The empty key without terminator is excluded: encode_raw panics there."
  },
  {
   "property": "C06",
   "status": "proved",
   "theorems": [
    "C06_compact_roundtrip"
   ],
   "note": "Also equal to the Yellow Paper's hex-prefix function."
  },
  {
   "property": "C07",
   "status": "proved",
   "theorems": [
    "C07_node_codec"
   ],
   "note": "Every valid node, canonical or not."
  },
  {
   "property": "C08",
   "status": "proved",
   "theorems": [
    "C08_commit_reopen"
   ],
   "note": ""
  },
  {
   "property": "C09",
   "status": "proved",
   "theorems": [
    "C09_insertion_order"
   ],
   "note": "Histories without removals, any views and commits."
  },
  {
   "property": "C10",
   "status": "partial",
   "theorems": [
    "C10_root_of_contents_partial",
    "C10_root_of_contents_refuted"
   ],
   "note": "False as stated: removals can leave a non-canonical trie (refuted with Keccak-256). Proved for tame histories: every removed key is absent, or has no present proper extension, or present keys fork at it."
  },
  {
   "property": "C11",
   "status": "proved",
   "theorems": [
    "C11_commit_idempotent"
   ],
   "note": ""
  },
  {
   "property": "C12",
   "status": "proved",
   "theorems": [
    "C12_iteration"
   ],
   "note": ""
  },
  {
   "property": "C13",
   "status": "proved",
   "theorems": [
    "C13_iteration_empty_key_refuted"
   ],
   "note": "The property is false of the code: iteration panics; refutation proved for every hash."
  },
  {
   "property": "C14",
   "status": "partial",
   "theorems": [
    "C14_proof_completeness_partial",
    "C14_proof_completeness_refuted"
   ],
   "note": "Proved for non-empty tries; false for the empty trie (refuted)."
  },
  {
   "property": "C15",
   "status": "proved",
   "theorems": [
    "C15_proof_soundness"
   ],
   "note": "Arbitrary adversarial proofs."
  },
  {
   "property": "C16",
   "status": "proved",
   "theorems": [
    "C16_malformed_proof_refuted"
   ],
   "note": "The property is false of the code: the verifier panics; refutation proved for every hash."
  },
  {
   "property": "C17",
   "status": "proved",
   "theorems": [
    "C17_old_roots"
   ],
   "note": ""
  },
  {
   "property": "C18",
   "status": "proved",
   "theorems": [
    "C18_pruning_refuted"
   ],
   "note": "The property is false of the code; two refutations (removal of an absent key; inserts only with a shared leaf)."
  },
  {
   "property": "C19",
   "status": "proved",
   "theorems": [
    "C19_missing_nodes"
   ],
   "note": ""
  },
  {
   "property": "C20",
   "status": "proved",
   "theorems": [
    "C20_view_proof_refuted"
   ],
   "note": "The property is false of the code: get_proof on a reopened view never succeeds (all inputs) and panics in a reachable case."
  },
  {
   "property": "C21",
   "status": "proved",
   "theorems": [
    "C21_failed_updates"
   ],
   "note": "Every state; on archive databases also the next commit is unaffected."
  },
  {
   "property": "C22",
   "status": "proved",
   "theorems": [
    "C22_versioned_reads"
   ],
   "note": "Histories may also contain pruning; get_with_proof for every version pruning has not given up (all versions when nothing is pruned)."
  },
  {
   "property": "C23",
   "status": "proved",
   "theorems": [
    "C23_earlier_versions_fixed"
   ],
   "note": "Any later operations, pruning included, for every version not pruned away."
  },
  {
   "property": "C24",
   "status": "proved",
   "theorems": [
    "C24_root_is_smt_root",
    "C24_equal_contents_equal_roots",
    "C24_empty_root"
   ],
   "note": "For arbitrary hash functions; the specification is smt_root in JmtSpec.v and is checked on the repository's SHA-256 vectors."
  },
  {
   "property": "C25",
   "status": "proved",
   "theorems": [
    "C25_absent_deletion"
   ],
   "note": ""
  },
  {
   "property": "C26",
   "status": "partial",
   "theorems": [
    "C26_multi_version_partial",
    "C26_multi_version_refuted"
   ],
   "note": "Roots, values, proofs and leaf counts agree; the stores do not: after a set that changes nothing the stale records differ."
  },
  {
   "property": "C27",
   "status": "partial",
   "theorems": [
    "C27_batch_equals_puts",
    "C27_batch_contents",
    "C27_batch_with_hashes",
    "C27_empty_set_refuted"
   ],
   "note": "False for a batch with an empty value set: the batch call panics on its assertion where put_value_sets succeeds (refuted, for every hash). For every other batch on every reached store the results are equal: roots, nodes, values, stale nodes, statistics, or the same failure; also with hash caches that name the right hashes."
  },
  {
   "property": "C28",
   "status": "proved",
   "theorems": [
    "C28_last_write_wins",
    "C28_keep_last"
   ],
   "note": ""
  },
  {
   "property": "C29",
   "status": "proved",
   "theorems": [
    "C29_inclusion_complete"
   ],
   "note": ""
  },
  {
   "property": "C30",
   "status": "proved",
   "theorems": [
    "C30_noninclusion_complete"
   ],
   "note": ""
  },
  {
   "property": "C31",
   "status": "proved",
   "theorems": [
    "C31_inclusion_sound"
   ],
   "note": "Collision-freeness is assumed only for the strings hashed by the tree and the verifier. Siblings are 32 bytes long as in the Rust type."
  },
  {
   "property": "C32",
   "status": "proved",
   "theorems": [
    "C32_noninclusion_sound"
   ],
   "note": "As C31."
  },
  {
   "property": "C33",
   "status": "proved",
   "theorems": [
    "C33_root_hash"
   ],
   "note": ""
  },
  {
   "property": "C34",
   "status": "proved",
   "theorems": [
    "C34_leaf_count"
   ],
   "note": ""
  },
  {
   "property": "C35",
   "status": "proved",
   "theorems": [
    "C35_range_proofs_verify"
   ],
   "note": "Assumes that no string hashed in the tree hashes to the placeholder."
  },
  {
   "property": "C36",
   "status": "proved",
   "theorems": [
    "C36_iterate_from_key"
   ],
   "note": "For every reached store, kept version and 32-byte start key (present or not): construction succeeds, the pairs yielded are exactly those with key not below the start, in strictly ascending order, then None for ever; no panic, error or endless loop."
  },
  {
   "property": "C37",
   "status": "proved",
   "theorems": [
    "C37_iterate_from_index"
   ],
   "note": "For every reached store, kept version and index: the pairs yielded are the sorted pairs of the version from that index on (none from the number of keys on)."
  },
  {
   "property": "C38",
   "status": "partial",
   "theorems": [
    "C38_exclusion_partial",
    "C38_neighbours_written",
    "C38_present_key",
    "C38_exclusion_refuted"
   ],
   "note": "False as stated: the neighbour is looked up at the version asked for, so a neighbour written earlier gives Err(MissingNode) (refuted, for every hash). Proved: whenever a proof is returned it names the true neighbours with verifying inclusion proofs; the only other outcome is that failed lookup, and it needs a neighbour not written at the version."
  },
  {
   "property": "C39",
   "status": "proved",
   "theorems": [
    "C39_pruning_safe"
   ],
   "note": ""
  },
  {
   "property": "C40",
   "status": "partial",
   "theorems": [
    "C40_pruning_complete_partial",
    "C40_pruning_complete_refuted"
   ],
   "note": "True for every node that is not a root; empty roots (and roots copied by an empty set) are never recorded as stale."
  },
  {
   "property": "C41",
   "status": "proved",
   "theorems": [
    "C41_updates_succeed"
   ],
   "note": "Up to the 64-bit version limit."
  },
  {
   "property": "C42",
   "status": "proved",
   "theorems": [
    "C42_statistics"
   ],
   "note": ""
  },
  {
   "property": "C43",
   "status": "proved",
   "theorems": [
    "C43_version_gap_refuted",
    "C43_first_gap_refuted"
   ],
   "note": "The property is false of the code."
  },
  {
   "property": "C44",
   "status": "proved",
   "theorems": [
    "C44_bits_roundtrip",
    "C44_bits_onto",
    "C44_common_prefix"
   ],
   "note": "Also: every 256-bit list is the bits of the key it reassembles to, and the nibble count is the common prefix length of the hexadecimal digits."
  },
  {
   "property": "C45",
   "status": "proved",
   "theorems": [
    "C45_path_is_list",
    "C45_path_unique",
    "C45_padding",
    "C45_new_digits"
   ],
   "note": "NibblePath has no truncate method in this source; all other operations are covered. A push beyond 64 nibbles and an index out of range are the only panics."
  },
  {
   "property": "C46",
   "status": "proved",
   "theorems": [
    "C46_ranges_partition"
   ],
   "note": "Each range is exactly the set of indices with its digit; no fuel or index failure."
  },
  {
   "property": "C47",
   "status": "proved",
   "theorems": [
    "C47_inode_hash",
    "C47_child_search"
   ],
   "note": "The recombination is for nodes that InternalNode::new accepts (non-empty, not a single leaf child)."
  },
  {
   "property": "C48",
   "status": "proved",
   "theorems": [
    "C48_value_history"
   ],
   "note": ""
  },
  {
   "property": "C49",
   "status": "proved",
   "theorems": [
    "C49_version_bytes",
    "C49_bytes_version"
   ],
   "note": ""
  },
  {
   "property": "C50",
   "status": "proved",
   "theorems": [
    "C50_range_proofs_sound"
   ],
   "note": "Collision-freeness is assumed on the strings hashed by the check and by the two trees."
  },
  {
   "property": "C51",
   "status": "partial",
   "theorems": [
    "C51_restore",
    "C51_get_of_absent_key_refuted"
   ],
   "note": "Proved for the root hash, the leaf count and reads with proofs. A plain get of a key absent from the source finds values of earlier versions of the target store (refuted for non-empty targets)."
  },
  {
   "property": "C52",
   "status": "proved",
   "theorems": [
    "C52_finish_root_refuted",
    "C52_finish_after_error_refuted",
    "C52_finish_root_of_received"
   ],
   "note": "The property is false of the code; the third theorem says which root is written."
  },
  {
   "property": "C53",
   "status": "partial",
   "theorems": [
    "C53_verify_total",
    "C53_range_verify_total_partial",
    "C53_range_verify_total_refuted",
    "C53_root_hash_total_refuted"
   ],
   "note": "True of SparseMerkleProof::verify; SparseMerkleRangeProof::verify underflows on more than 256 siblings (a panic with overflow checks on)."
  },
  {
   "property": "C54",
   "status": "proved",
   "theorems": [
    "C54_store_counts",
    "C54_version_of_root_refuted"
   ],
   "note": "version is the greatest version with a non-empty value set, which can lag behind the newest root."
  },
  {
   "property": "C55",
   "status": "proved",
   "theorems": [
    "C55_iteration_reports_loss_refuted"
   ],
   "note": "The property is false of the code."
  },
  {
   "property": "C56",
   "status": "proved",
   "theorems": [
    "C56_root_binding"
   ],
   "note": ""
  },
  {
   "property": "C57",
   "status": "partial",
   "theorems": [
    "C57_yellow_paper_root_partial",
    "C57_yellow_paper_root_refuted"
   ],
   "note": "False as stated: after a removal the root can differ from the Yellow Paper root of the contents (refuted with Keccak-256). Proved for tame histories."
  },
  {
   "property": "C58",
   "status": "proved",
   "theorems": [
    "C58_failed_update_then_commit_refuted"
   ],
   "note": "The property is false of the code."
  },
  {
   "property": "C59",
   "status": "proved",
   "theorems": [
    "C59_children_are_map"
   ],
   "note": ""
  },
  {
   "property": "C60",
   "status": "proved",
   "theorems": [
    "C60_cursor_is_split_list",
    "C60_skip_common_prefix"
   ],
   "note": ""
  },
  {
   "property": "C61",
   "status": "proved",
   "theorems": [
    "C61_add_chunk_total",
    "C52_finish_root_of_received"
   ],
   "note": ""
  },
  {
   "property": "C62",
   "status": "proved",
   "theorems": [
    "C62_resume"
   ],
   "note": "The last pair received is not stored until the next one comes, so a session starts with it again."
  },
  {
   "property": "C63",
   "status": "proved",
   "theorems": [
    "C63_resumed_chunk_panics_refuted"
   ],
   "note": "The property is false of the code."
  },
  {
   "property": "C64",
   "status": "proved",
   "theorems": [
    "C64_new_panics_refuted",
    "C64_new_fails_on_a_tree"
   ],
   "note": "The property is false of the code; the second theorem says that new never starts on an unpruned store with a leaf."
  },
  {
   "property": "C65",
   "status": "proved",
   "theorems": [
    "C65_store_shape"
   ],
   "note": ""
  },
  {
   "property": "C66",
   "status": "partial",
   "theorems": [
    "C66_ics23_existence_partial",
    "C66_ics23_deep_refuted",
    "C66_ics23_empty_value_refuted",
    "C66_ics23_other_hasher_refuted"
   ],
   "note": "Proved for the hasher SHA-256: the proof is returned, and verifies exactly when key and value are not empty and no other key shares the first 64 bits of the hash. False as stated: deep paths, empty values and other hashers (refuted)."
  },
  {
   "property": "C67",
   "status": "partial",
   "theorems": [
    "C67_ics23_nonexistence_partial",
    "C67_ics23_nonexistence_refuted"
   ],
   "note": "Proved: when a proof is returned it verifies exactly when the neighbours can be presented; otherwise a preimage is missing, or a neighbour was not written at the version asked for. That last case refutes the property."
  },
  {
   "property": "C68",
   "status": "proved",
   "theorems": [
    "C68_ics23_existence_sound",
    "C68_ics23_existence_unique"
   ],
   "note": ""
  },
  {
   "property": "C69",
   "status": "proved",
   "theorems": [
    "C69_ics23_nonexistence_sound"
   ],
   "note": ""
  },
  {
   "property": "C70",
   "status": "partial",
   "theorems": [
    "C70_values_any_hashes",
    "C70_missing_hash_refuted",
    "C70_wrong_hash_refuted",
    "C27_batch_with_hashes"
   ],
   "note": "False for hashes and roots: a hash that the cache lacks is not computed, the call panics (refuted, for every hash function); a wrong hash gives a root that is not that of the contents, against which the store's own proofs fail (refuted). Proved: reads return the values of the batch whatever the caches say, and with right caches the result is that without caches."
  },
  {
   "property": "C71",
   "status": "partial",
   "theorems": [
    "C71_commit_invisible_partial",
    "C71_commit_invisible_refuted"
   ],
   "note": "False as stated: a removal of a key that others extend normalises a branch that was read back from the database and leaves one in memory as it is, so a commit before it changes the later root (refuted with Keccak-256). Proved for tame histories."
  },
  {
   "property": "C72",
   "status": "proved",
   "theorems": [
    "C72_every_version",
    "C72_every_root"
   ],
   "note": "The pruned store's nodes are among those of the same execution without purges, since every put writes the same batch on both."
  },
  {
   "property": "C73",
   "status": "partial",
   "theorems": [
    "C73_get",
    "C73_insert",
    "C73_remove",
    "C73_get_proof",
    "C73_contains",
    "C73_contains_key_refuted"
   ],
   "note": "Proved for every trie and all pairs of databases for get, insert, remove and get_proof. False of contains in one point: it agrees or fails too, but its error leaves the key out (C73_contains_key_refuted)."
  },
  {
   "property": "C74",
   "status": "proved",
   "theorems": [
    "C74_from_key",
    "C74_from_index"
   ],
   "note": "For all executions with purges, versions and starting points."
  },
  {
   "property": "C75",
   "status": "proved",
   "theorems": [
    "C75_own_proofs",
    "C75_verify_sound"
   ],
   "note": "Soundness assumes that the hash does not collide on the strings hashed by the tree of the contents and by the verifier."
  },
  {
   "property": "C76",
   "status": "proved",
   "theorems": [
    "C76_latest_version_reads",
    "C76_latest_version_iterates"
   ],
   "note": "For all executions that have written something. That version() is not always the newest version is C54_version_of_root_refuted."
  },
  {
   "property": "C77",
   "status": "proved",
   "theorems": [
    "C77_exclusion",
    "C77_range",
    "C77_ics23"
   ],
   "note": "For all executions with purges and all versions. The range part assumes, as C35, that no node of the tree hashes to the placeholder; the ICS-23 part is for SHA-256 as the hasher with 32-byte output. A missing node can also be reported at a kept version: that is the defect of C38 and C67."
  },
  {
   "property": "C78",
   "status": "proved",
   "theorems": [
    "C78_merge",
    "C78_merged_calls"
   ],
   "note": "For all stores and batches. The converse does not hold: a merge can be written where the batches one after the other are refused (C78_example)."
  },
  {
   "property": "C79",
   "status": "proved",
   "theorems": [
    "C79_again_harmless",
    "C79_again_refused"
   ],
   "note": "For all stores, batches and orders of the entries of a batch."
  },
  {
   "property": "C80",
   "status": "partial",
   "theorems": [
    "C80_older_versions_partial",
    "C80_refused_write_refuted"
   ],
   "note": "False as stated: write_node_batch replaces a node before it asserts that there was none, so of two updates made for the same version the refused second one has replaced the root of that version; the root hash is another one and the store's own proofs fail (refuted with SHA-256). Proved: versions older than the update that is written read as before, whatever the outcome."
  },
  {
   "property": "C81",
   "status": "proved",
   "theorems": [
    "C81_failed_commit"
   ],
   "note": "For all histories, orders and points of failure, over an archive database (light = false)."
  },
  {
   "property": "C82",
   "status": "proved",
   "theorems": [
    "C82_failed_pruning_refuted"
   ],
   "note": "The property is false of the code: the replaced nodes are removed before the new root hash is returned, so a failure (or a crash) between two removals leaves the caller with an old root that cannot be read and without the new one (refuted with Keccak-256)."
  },
  {
   "property": "C83",
   "status": "proved",
   "theorems": [
    "C83_live_read"
   ],
   "note": "Lookup-by-lookup interleaving with atomic writes and purges. A purge that runs between the stale records of one batch is not modelled."
  },
  {
   "property": "C84",
   "status": "proved",
   "theorems": [
    "C84_live_iterate"
   ],
   "note": "Lookup-by-lookup interleaving. The error after None is real: an iterator at its end looks up its root again on every call."
  },
  {
   "property": "C85",
   "status": "proved",
   "theorems": [
    "C85_borsh_exact"
   ],
   "note": "The borsh crate itself is not in the sources and is modelled from its specification (DESIGN.md)."
  },
  {
   "property": "C86",
   "status": "proved",
   "theorems": [
    "C86_stored_nodes_fit",
    "C86_byte_database",
    "C86_shown_exact"
   ],
   "note": "Roots of versions older than the oldest kept one are left out."
  },
  {
   "property": "C87",
   "status": "proved",
   "theorems": [
    "C87_read_keys_refuted",
    "C87_read_path_panics_refuted",
    "C87_read_counter_refuted",
    "C87_batch_forms_refuted"
   ],
   "note": "The property is false of the code: the derived readers check no invariant. A path byte with a nonzero padding nibble gives a second key of the same path, a path of three nibbles without bytes panics when its nibbles are taken, a counter may disagree with the children, and a batch with entries out of order or repeated is accepted."
  },
  {
   "property": "C88",
   "status": "proved",
   "theorems": [
    "C88_bytes_total",
    "C88_bytes_sound",
    "C88_bytes_complete"
   ],
   "note": ""
  },
  {
   "property": "C89",
   "status": "partial",
   "theorems": [
    "C89_write_failures",
    "C89_retry_refuted",
    "C89_one_pair_refuted"
   ],
   "note": "False: the chunk whose write failed is refused when it is sent again (its keys no longer increase), and finish panics on a tree with one pair whose write failed. Proved instead: the exact answers to all calls, with any pattern of failures and repeated sends, and that going on with the next chunk leaves the right tree whenever there are two pairs or the only write succeeded. Failing writes leave the store as it was."
  },
  {
   "property": "C90",
   "status": "proved",
   "theorems": [
    "C90_errors_write_nothing",
    "C90_stored_is_right"
   ],
   "note": "Nodes are compared by their hash with the root of the subtree at their path."
  },
  {
   "property": "C91",
   "status": "partial",
   "theorems": [
    "C91_serde_exact",
    "C91_views_typed",
    "C91_committed_json",
    "C91_json_refuted"
   ],
   "note": "Exact for every trie in serde's data model, and as JSON for every trie just committed. As JSON false in general: serde_json refuses documents nested 128 deep, which an uncommitted trie of thirty keys reaches. serde and serde_json are not in the sources and are modelled from their documentation (DESIGN.md)."
  },
  {
   "property": "C92",
   "status": "partial",
   "theorems": [
    "C92_right_or_lost",
    "C92_uncommitted",
    "C92_committed_refuted"
   ],
   "note": "False once a commit has been made: the database handle is skipped, so the trie is read back over an empty database and lookups fail with MissingTrieNode. Proved instead: every lookup is right or names an entry of the database left behind, and a trie read back before the first commit answers every later history rightly."
  },
  {
   "property": "C93",
   "status": "proved",
   "theorems": [
    "C93_panic_refuted",
    "C93_root_refuted",
    "C93_shape"
   ],
   "note": "The property is false of the code: a leaf with an empty path is accepted and panics on commit, and any root hash is accepted with any root node. C93_shape says what is checked: the shape of the Rust types."
  },
  {
   "property": "C94",
   "status": "proved",
   "theorems": [
    "C94_nothing_removed",
    "C94_retry_removes_the_same"
   ],
   "note": "The first part says an entry is kept, or rewritten when the commit writes the same key. The second is about the entries present before the commit."
  },
  {
   "property": "C95",
   "status": "proved",
   "theorems": [
    "C95_read_back",
    "C95_one_line",
    "C95_distinct",
    "C95_hashes"
   ],
   "note": "The reader of byte string literals is written from the Rust reference, independent of the printer."
  },
  {
   "property": "C96",
   "status": "proved",
   "theorems": [
    "C96_types_refuted",
    "C96_only_the_size",
    "C96_zeros"
   ],
   "note": "The property is false of the code: u64, String and Vec share one key hash, whatever the hash function. The hash is that of a string of zeros, and (no collision) depends on nothing but the size of the byte form of the default."
  },
  {
   "property": "C97",
   "status": "proved",
   "theorems": [
    "C97_is_empty_refuted",
    "C97_before_commit",
    "C97_after_commit"
   ],
   "note": "The property is false of the code, both ways. What it says instead, over an archive database: true before the first commit, false for ever after one returned a root."
  },
  {
   "property": "C98",
   "status": "proved",
   "theorems": [
    "C98_values_refuted",
    "C98_panic_refuted",
    "C98_right_or_nothing",
    "C98_writes",
    "C98_last_write"
   ],
   "note": "The property is false of the code: with a writer there the counts panic and the listing is empty. Without one they are exact."
  },
  {
   "property": "C99",
   "status": "partial",
   "theorems": [
    "C99_accepted",
    "C99_refused",
    "C99_refused_refuted"
   ],
   "note": "Accepted leaves proved. A refused leaf whose value is out of order leaves its node behind (refuted); a refused one never changes a value, and nothing at all when the node key was taken."
  },
  {
   "property": "C100",
   "status": "proved",
   "theorems": [
    "C100_from_puts",
    "C100_complete",
    "C100_others"
   ],
   "note": ""
  },
  {
   "property": "C101",
   "status": "partial",
   "theorems": [
    "C101_clones",
    "C101_same_root",
    "C101_pruning_refuted"
   ],
   "note": "Proved over an archive database; false over a pruning one, where a commit of one removes nodes the other still needs (refuted)."
  },
  {
   "property": "C102",
   "status": "proved",
   "theorems": [
    "C102_threads"
   ],
   "note": "Each call other than a commit is taken at one moment, which C103 justifies; over a pruning database the statement is false already without interleaving (C101_pruning_refuted)."
  },
  {
   "property": "C103",
   "status": "proved",
   "theorems": [
    "C103_moments"
   ],
   "note": "Archive database."
  },
  {
   "property": "C104",
   "status": "proved",
   "theorems": [
    "C104_proofs"
   ],
   "note": "For the empty trie proofs do not verify at all (C14_proof_completeness_refuted)."
  },
  {
   "property": "C105",
   "status": "proved",
   "theorems": [
    "C105_accepted_sizes",
    "C105_proof_size"
   ],
   "note": ""
  },
  {
   "property": "C106",
   "status": "proved",
   "theorems": [
    "C106_borsh_format"
   ],
   "note": "JmtLayoutProps.v; the format is written there for values of any type, apart from the readers and writers of JmtBorshModel.v"
  }
 ]
}
