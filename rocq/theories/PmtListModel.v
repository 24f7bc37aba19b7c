(** Model of the counts and listings of the Patricia trie and its database:
    pmt/src/inner.rs l.92-104 and pmt/src/db.rs l.112-130. *)
From Verif Require Import Base PmtNibblesModel RlpModel PmtModel.

(** A call to the database while other threads use it: [busy] says that a
    writer holds the lock or waits for it, in which case [try_read] gives
    nothing (parking_lot is not in /repo; by its documentation). *)
(** db.rs l.112-114: [unwrap] panics when [try_read] gives nothing. *)
Definition mem_len (busy : bool) (d : db) : res unit nat :=
  if busy then Panic else Ok (size (storage d)).
(** db.rs l.116-118. *)
Definition mem_is_empty (busy : bool) (d : db) : res unit bool :=
  if busy then Panic else Ok (bool_decide (storage d = ∅)).
(** db.rs l.120-130: the order of the hash map is arbitrary, here some fixed
    one. *)
Definition mem_values (busy : bool) (d : db) : res unit (list (bytes * bytes)) :=
  Ok (if busy then [] else map_to_list (storage d)).

(** inner.rs l.93-95 and l.102-104; [MemoryDB::len] returns no error. *)
Definition trie_len (busy : bool) (d : db) : res unit nat := mem_len busy d.
Definition trie_is_empty (busy : bool) (d : db) : res unit bool :=
  rmap (fun n => n =? 0) (trie_len busy d).

(** What another thread does: it asks for the lock, then writes and lets go
    (db.rs l.96-106). *)
Inductive write := WInsert (k v : bytes) | WRemove (k : bytes).
Definition do_write (d : db) (w : write) : db :=
  match w with WInsert k v => db_insert d k v | WRemove k => db_remove d k end.
(** One after the other (the lock): [Begin] when the writer's bit is set,
    [End] when it is cleared. *)
Inductive event := Begin (w : write) | End.
Record shared := Shared { sh_db : db; sh_writer : option write }.
Definition sh_step (s : shared) (e : event) : shared :=
  match e, sh_writer s with
  | Begin w, None => Shared (sh_db s) (Some w)
  | End, Some w => Shared (do_write (sh_db s) w) None
  | _, _ => s
  end.
Definition sh_run (d : db) (es : list event) : shared := fold_left sh_step es (Shared d None).
Definition sh_busy (s : shared) : bool := match sh_writer s with Some _ => true | None => false end.
