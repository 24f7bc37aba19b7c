(** A commit of the Patricia trie over a database one of whose operations fails
    (pmt/src/inner.rs l.279-320, pmt/src/db.rs l.28-48).  [MemoryDB] never fails
    itself; the trait allows it. *)
From Verif Require Import Base PmtNibblesModel RlpModel PmtModel.

Section hash.
  Context (keccak : bytes -> bytes).

  (** The entries a commit writes, inner.rs l.280-295 (none if the encoding panics). *)
  Definition pending (t : trie) : gmap bytes bytes :=
    let '((cache, _), r) := write_node keccak (t_root t) (t_cache t, t_gen t) in
    match r with
    | Ok (EInline data) => <[keccak data := data]> cache
    | Ok (EHash _) => cache
    | _ => ∅
    end.

  (** The database and the trie after a commit whose database operation number
      [n] (from 0) returned an error, inner.rs l.292-310: [order] is the order in
      which the hash map [cache] was drained.  The inserts before the failing one
      have been done (db.rs l.34-38); the cache is already empty, the generated
      keys are already recorded, all else is as before; the call returns
      [Err(TrieError::Database(_))]. *)
  Definition commit_failing (order : list (bytes * bytes)) (n : nat) (d : db) (t : trie) : db * trie :=
    let gen := (write_node keccak (t_root t) (t_cache t, t_gen t)).1.2 in
    let removed := filter (fun h => h ∉ gen) (elements (t_passing t)) in
    (db_remove_batch (db_insert_batch d (take n order)) (take (n - length order) removed),
     Trie (t_root t) (t_root_hash t) ∅ (t_passing t) gen).
End hash.
