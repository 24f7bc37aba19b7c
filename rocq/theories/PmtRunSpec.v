(** Client histories of the Patricia trie and what they should observe.

    Several views (the first trie and the ones opened at committed roots) share
    one archive database.  [trace] collects the strings hashed by the writes,
    so that "the hash does not collide during this history" can be said. *)
From Verif Require Import Base PmtNibblesModel RlpModel PmtModel.

Inductive action :=
| AInsert (k v : bytes)
| ARemove (k : bytes)
| AGet (k : bytes)
| AContains (k : bytes)
| ACommit
| AProof (k : bytes).

(** Act on the [i]-th view, or open a new view at the root returned by the
    [j]-th commit so far (most recent first). *)
Inductive op := OAct (i : nat) (a : action) | OOpen (j : nat).

Inductive out :=
| RUnit (r : tres unit)
| RBool (r : tres bool)
| RVal (r : tres (option bytes))
| RRoot (r : tres bytes)
| RProof (r : tres (list bytes))
| RSkip.

(** Recursion bound for a key; any larger bound gives the same results. *)
Definition fuel_for (x : nat) (key : bytes) : nat := 6 * length key + 13 + x.

Section run.
  Context (keccak : bytes -> bytes).

  (** The bytes a node encodes to. *)
  Definition raw (n : node) : bytes :=
    match (encode_raw keccak n (∅, ∅)).2 with Ok e => e | _ => [] end.

  (** The strings hashed when a node is written: the encodings of at least 32
      bytes of the node and of the descendants held in memory. *)
  Fixpoint hashed (n : node) : list bytes :=
    match n with
    | NHash _ => []
    | _ =>
        match n with
        | NExt _ c => hashed c
        | NBranch cs _ => concat (map hashed cs)
        | _ => []
        end ++ (if length (raw n) <? 32 then [] else [raw n])
    end.
  (** Encoding a node without writing it hashes the descendants only. *)
  Definition hashed_below (n : node) : list bytes :=
    match n with
    | NExt _ c => hashed c
    | NBranch cs _ => concat (map hashed cs)
    | _ => []
    end.
  (** A commit also hashes a short root. *)
  Definition hashed_root (n : node) : list bytes :=
    match n with NHash _ => [] | _ => hashed n ++ [raw n] end.

  Record world := World {
    w_db : db;
    w_views : list trie;
    w_roots : list bytes;
    w_trace : list bytes
  }.

  Definition world0 : world := World (db_new false) [new_trie keccak] [] [].

  Definition set_view (w : world) (i : nat) (t : trie) : world :=
    World (w_db w) (<[i := t]> (w_views w)) (w_roots w) (w_trace w).

  Definition act (x : nat) (w : world) (i : nat) (t : trie) (a : action) : out * world :=
    let d := w_db w in
    match a with
    | AInsert k v => let '(t', r) := insert (fuel_for x k) d t k v in (RUnit r, set_view w i t')
    | ARemove k => let '(t', r) := remove (fuel_for x k) d t k in (RBool r, set_view w i t')
    | AGet k => (RVal (get (fuel_for x k) d t k), w)
    | AContains k => (RBool (contains (fuel_for x k) d t k), w)
    | ACommit =>
        let '(d', t', r) := commit keccak d t in
        (RRoot r,
         World d' (<[i := t']> (w_views w))
           (match r with Ok h => h :: w_roots w | _ => w_roots w end)
           (w_trace w ++ hashed_root (t_root t)))
    | AProof k =>
        let '(t', r) := get_proof keccak (fuel_for x k) d t k in
        let path := match get_path_at (fuel_for x k) d (t_root_hash t) (t_root t) (from_raw k true) 0 with
                    | Ok p => p | _ => [] end in
        (RProof r,
         World d (<[i := t']> (w_views w)) (w_roots w)
           (w_trace w ++ concat (map hashed_below (path ++ [t_root t]))))
    end.

  Definition step (x : nat) (w : world) (o : op) : out * world :=
    match o with
    | OAct i a =>
        match w_views w !! i with Some t => act x w i t a | None => (RSkip, w) end
    | OOpen j =>
        match w_roots w !! j with
        | Some r => (RSkip, World (w_db w) (w_views w ++ [at_root r]) (w_roots w) (w_trace w))
        | None => (RSkip, w)
        end
    end.

  Fixpoint run (x : nat) (w : world) (ops : list op) : list out * world :=
    match ops with
    | [] => ([], w)
    | o :: ops' =>
        let '(r, w) := step x w o in
        let '(rs, w) := run x w ops' in
        (r :: rs, w)
    end.
End run.

(** The specification: each view is a finite map, each commit remembers the
    map it was made from. *)
Record spec := Spec { s_views : list (gmap bytes bytes); s_roots : list (gmap bytes bytes) }.
Definition spec0 : spec := Spec [∅] [].

Definition sact (s : spec) (i : nat) (m : gmap bytes bytes) (a : action) : spec :=
  match a with
  | AInsert k v =>
      match v with
      | [] => s
      | _ => Spec (<[i := <[k := v]> m]> (s_views s)) (s_roots s)
      end
  | ARemove k => Spec (<[i := delete k m]> (s_views s)) (s_roots s)
  | ACommit => Spec (s_views s) (m :: s_roots s)
  | _ => s
  end.

Definition sstep (s : spec) (o : op) : spec :=
  match o with
  | OAct i a => match s_views s !! i with Some m => sact s i m a | None => s end
  | OOpen j =>
      match s_roots s !! j with
      | Some m => Spec (s_views s ++ [m]) (s_roots s)
      | None => s
      end
  end.

Definition srun (s : spec) (ops : list op) : spec := fold_left sstep ops s.

(** Two present keys extend [k] and continue with different nibbles (half
    bytes). *)
Definition forks (m : gmap bytes bytes) (k : bytes) : Prop :=
  exists a b x y, is_Some (m !! (k ++ a :: x)) /\ is_Some (m !! (k ++ b :: y)) /\ bval a / 16 <> bval b / 16.
(** What a call may return in a state where the view holds [m].  The flag
    returned by [remove] is right for present keys; with [strict] it is known
    for absent ones too, and wrong for those where present keys fork.  Nothing
    is required of proofs here. *)
Definition act_ok (strict : bool) (m : gmap bytes bytes) (a : action) (r : out) : Prop :=
  match a, r with
  | AInsert k [], RUnit r => r = Err InvalidData
  | AInsert k _, RUnit r => r = Ok tt
  | ARemove k, RBool r => exists b, r = Ok b /\ (is_Some (m !! k) -> b = true) /\ (strict = true -> b = true <-> is_Some (m !! k) \/ forks m k)
  | AGet k, RVal r => r = Ok (m !! k)
  | AContains k, RBool r => r = Ok (bool_decide (is_Some (m !! k)))
  | ACommit, RRoot r => exists h, r = Ok h
  | AProof k, RProof _ => True
  | _, _ => False
  end.

Definition step_ok (strict : bool) (s : spec) (o : op) (r : out) : Prop :=
  match o with
  | OAct i a => match s_views s !! i with Some m => act_ok strict m a r | None => r = RSkip end
  | OOpen _ => r = RSkip
  end.

Fixpoint outs_ok (strict : bool) (s : spec) (ops : list op) (rs : list out) : Prop :=
  match ops, rs with
  | [], [] => True
  | o :: ops', r :: rs' => step_ok strict s o r /\ outs_ok strict (sstep s o) ops' rs'
  | _, _ => False
  end.

(** Keys and values are shorter than 2^58 bytes. *)
Definition short (b : bytes) : Prop := (N.of_nat (length b) < 2 ^ 58)%N.
Definition action_short (a : action) : Prop :=
  match a with
  | AInsert k v => short k /\ short v
  | ARemove k | AGet k | AContains k | AProof k => short k
  | ACommit => True
  end.
Definition op_short (o : op) : Prop := match o with OAct _ a => action_short a | OOpen _ => True end.

(** A removal is tame when the key is absent, or no present key properly
    extends it, or the present keys that extend it fork.  So it is not when the
    key is present and all longer keys continue with the same nibble. *)
Definition proper_prefix (a b : bytes) : Prop := a `prefix_of` b /\ a <> b.
Definition tame_step (s : spec) (o : op) : Prop :=
  match o with
  | OAct i (ARemove k) =>
      forall m, s_views s !! i = Some m -> is_Some (m !! k) ->
        (forall k', is_Some (m !! k') -> ~ proper_prefix k k') \/ forks m k
  | _ => True
  end.
Fixpoint tame (s : spec) (ops : list op) : Prop :=
  match ops with
  | [] => True
  | o :: ops' => tame_step s o /\ tame (sstep s o) ops'
  end.

(** Lexicographic order of byte strings ([Ord] of [Vec<u8>]). *)
Inductive bytes_lt : bytes -> bytes -> Prop :=
| bytes_lt_nil b l : bytes_lt [] (b :: l)
| bytes_lt_head a b l l' : bval a < bval b -> bytes_lt (a :: l) (b :: l')
| bytes_lt_tail a l l' : bytes_lt l l' -> bytes_lt (a :: l) (a :: l').

(** The read of key [k] failed because an entry of the database is missing. *)
Definition lost {A} (d : db) (k : bytes) (r : tres A) : Prop :=
  exists h tr rh, r = Err (MissingTrieNode h tr rh (Some k)) /\ db_get d h = None.

(** A 32-byte hash. *)
Definition hash32 (keccak : bytes -> bytes) : Prop := forall x, length (keccak x) = 32.

(** The history [ops], started with a new trie over an empty archive database,
    leads to world [w], should lead to [s], and the hash does not collide on the
    strings it hashed. *)
Definition reaches (keccak : bytes -> bytes) (x : nat) (ops : list op) (w : world) (s : spec) : Prop :=
  (run keccak x (world0 keccak) ops).2 = w /\ srun spec0 ops = s /\
  Forall op_short ops /\ inj_on keccak (w_trace w).

(** The strings hashed by writing view [v] after world [w] do not collide. *)
Definition commit_collision_free (keccak : bytes -> bytes) (w : world) (v : trie) : Prop :=
  inj_on keccak (w_trace w ++ hashed_root keccak (t_root v)).

Definition no_removal (o : op) : Prop := match o with OAct _ (ARemove _) => False | _ => True end.

(** [l] lists the bindings of [m], each key once. *)
Definition enumerates (l : list (bytes * bytes)) (m : gmap bytes bytes) : Prop :=
  NoDup (map fst l) /\ forall k v, (k, v) ∈ l <-> m !! k = Some v.

(** [d'] is [d] with some entries lost. *)
Definition lost_entries (d d' : db) : Prop := forall h e, db_get d' h = Some e -> db_get d h = Some e.
