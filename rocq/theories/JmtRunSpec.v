(** Executions of the Jellyfish Merkle tree: value sets are written at the next
    version and every returned batch is applied to the store; in between the
    store may be pruned. *)
From Verif Require Import Base JmtSpec JmtModel.
Local Open Scope N_scope.

Inductive op :=
| OpPut (sets : list (list write))   (* put_value_sets at the next version, batch applied *)
| OpPurge (least : N).               (* purge_stale_nodes *)

(** The sets written, in version order: set [i] has version [i]. *)
Definition op_sets (o : op) : list (list write) :=
  match o with OpPut sets => sets | OpPurge _ => [] end.
Definition history (ops : list op) : list (list write) := flat_map op_sets ops.

(** The oldest version that pruning promises to keep, after [n] versions. *)
Definition op_low (n lo : N) (o : op) : N :=
  match o with OpPut _ => lo | OpPurge least => N.max lo (N.min least (n - 1)) end.
Fixpoint low_from (n lo : N) (ops : list op) : N :=
  match ops with
  | [] => lo
  | o :: ops' => low_from (n + N.of_nat (length (op_sets o))) (op_low n lo o) ops'
  end.
Definition low (ops : list op) : N := low_from 0 0 ops.

Section Run.
Context (sha hv : bytes -> bytes).

Definition run_op (s : store) (n : N) (o : op) : res jerr store :=
  match o with
  | OpPut sets => rbind (put_value_sets sha hv s sets n) (fun '(_, b) => write_batch s b)
  | OpPurge least => purge s least
  end.
Fixpoint run_from (s : store) (n : N) (ops : list op) : res jerr store :=
  match ops with
  | [] => Ok s
  | o :: ops' =>
      rbind (run_op s n o) (fun s => run_from s (n + N.of_nat (length (op_sets o))) ops')
  end.
Definition run (ops : list op) : res jerr store := run_from empty_store 0 ops.
End Run.

(** What an execution may contain: 32-byte keys, versions below [u64::MAX]. *)
Definition wf_ops (ops : list op) : Prop :=
  wf_sets (history ops) /\ N.of_nat (length (history ops)) <= u64_max.

(** ** Statistics: counting in a batch of new nodes and stale records *)
Definition is_ver (u : N) (kv : nkey * node) : Prop := fst (fst kv) = u.
Global Instance is_ver_dec u kv : Decision (is_ver u kv).
Proof. unfold is_ver. apply _. Defined.
Definition is_ver_leaf (u : N) (kv : nkey * node) : Prop := fst (fst kv) = u /\ is_leaf (snd kv) = true.
Global Instance is_ver_leaf_dec u kv : Decision (is_ver_leaf u kv).
Proof. unfold is_ver_leaf. apply _. Defined.
Definition is_rec (u : N) (r : N * nkey) : Prop := fst r = u.
Global Instance is_rec_dec u r : Decision (is_rec u r).
Proof. unfold is_rec. apply _. Defined.
Definition is_rec_leaf (nodes : gmap nkey node) (u : N) (r : N * nkey) : Prop :=
  fst r = u /\ match nodes !! snd r with Some nd => is_leaf nd = true | None => False end.
Global Instance is_rec_leaf_dec nodes u r : Decision (is_rec_leaf nodes u r).
Proof. unfold is_rec_leaf. destruct (nodes !! snd r); apply _. Defined.
Definition counted (all new : gmap nkey node) (stale : gset (N * nkey)) (u : N) : stats :=
  Stats (N.of_nat (size (filter (is_ver u) new)))
        (N.of_nat (size (filter (is_ver_leaf u) new)))
        (N.of_nat (size (filter (is_rec u) stale)))
        (N.of_nat (size (filter (is_rec_leaf all u) stale))).

(** ** Nodes reachable from a root through child entries *)
Inductive reach (nodes : gmap nkey node) (root : nkey) : nkey -> Prop :=
| reach_root : reach nodes root root
| reach_child nk n i c :
    reach nodes root nk -> nodes !! nk = Some (NInternal n) -> in_children n !! i = Some c ->
    reach nodes root (child_key nk (c_ver c) i).

(** ** The last mention of every key in a value set *)
Fixpoint keep_last (ws : list write) : list write :=
  match ws with
  | [] => []
  | w :: ws' =>
      if decide (fst w ∈ map fst ws') then keep_last ws' else w :: keep_last ws'
  end.

(** ** Writes to a value history: the newest write of a key at or below a
    version, and writes in version order *)
Definition newest (k : bytes) (max : N) (vals : list (N * bytes * option bytes)) : option bytes :=
  match last (filter (fun e : N * bytes * option bytes => snd (fst e) = k /\ fst (fst e) <= max) vals) with
  | Some (_, x) => x
  | None => None
  end.
Definition in_order (vals : list (N * bytes * option bytes)) : Prop :=
  forall a b c k v1 v2 x1 x2, vals = a ++ (v1, k, x1) :: b ++ (v2, k, x2) :: c -> v1 <= v2.

(** A store reached by an execution, and its number of versions. *)
Definition reached (sha hv : bytes -> bytes) (ops : list op) (s : store) : Prop :=
  wf_ops ops /\ run sha hv ops = Ok s.
Definition versions (ops : list op) : N := N.of_nat (length (history ops)).
(** The newest contents. *)
Definition latest (hist : list (list write)) : gmap bytes bytes := fold_left apply_set hist ∅.

(** Everything a client can observe about key [k] at version [v]. *)
Definition obs (sha : bytes -> bytes) (s : store) (v : N) (k : bytes) :=
  (get_root_hash sha s v, get_leaf_count s v, trie_get s k v, get_with_proof sha s k v).
