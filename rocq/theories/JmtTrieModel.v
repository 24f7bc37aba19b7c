(** Model of the convenience methods of the tree: [VersionedTrie],
    /repo/jmt/src/trie.rs and its implementation in tree.rs 62-105.  [get] and
    [contains] are in JmtModel.v ([trie_get], [trie_contains]), [len],
    [is_empty] and [version] are those of the store ([db_len], [db_is_empty],
    [db_version]). *)
From Verif Require Import Base JmtNibModel JmtModel JmtIterModel.
Local Open Scope N_scope.

(** tree.rs 71-73. *)
Definition trie_get_proof (sha : bytes -> bytes) (s : store) (k : bytes) (v : N) : res jerr proof :=
  rbind (get_with_proof sha s k v) (fun '(_, p) => Ok p).
(** tree.rs 75-84: the value is looked up in the tree, the proof is the caller's. *)
Definition trie_verify_proof (sha hv : bytes -> bytes) (s : store) (k : bytes) (v : N) (root : bytes) (p : proof)
  : res jerr unit :=
  rbind (get_with_proof sha s k v) (fun '(x, _) => verify sha hv p root k x).
(** tree.rs 86-88. *)
Definition trie_iter (s : store) (v : N) : res jerr iter := iter_new_by_index s v 0.
