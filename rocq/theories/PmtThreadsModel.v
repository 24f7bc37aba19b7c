(** Tries used by several threads over one archive database: each thread has
    its own tries (clones, or opened at a root), the calls change a trie through
    [&mut self], and a commit writes its nodes one at a time
    (pmt/src/inner.rs l.279-320, pmt/src/db.rs l.28-39 and l.96-99: the lock is
    taken for each insertion).

    Simplification: a call other than a commit happens at one moment, though it
    may look up several nodes (see PmtMomentsModel.v).  A pruning database is not modelled here. *)
From Verif Require Import Base PmtNibblesModel RlpModel PmtModel PmtFailModel PmtRunSpec PmtCloneModel.

(** The views and the database; for each view that is committing, the entries
    it has yet to write. *)
Record threads := Threads { th_world : world; th_left : gmap nat (gmap bytes bytes) }.

(** What can happen next: a call that is not a commit, or a clone; a commit starts and
    encodes its nodes (inner.rs l.280-295, which does not use the database); the
    commit of view [i] writes the entry with key [k] (the order is that of a
    hash map); it ends (l.301-320). *)
Inductive event := ECall (o : cop) | EBegin (i : nat) | EPut (i : nat) (k : bytes) | EEnd (i : nat).

Section run.
  Context (keccak : bytes -> bytes).

  (** inner.rs l.301-320, the end of [commit]: the root is read back.  (The
      removals of l.301-310 do nothing in an archive database, db.rs l.101-106;
      the encoding of l.280-287, which does not use the database, is computed
      again for the root.) *)
  Definition commit_end (d : db) (t : trie) : trie * tres bytes :=
    let '((cache, gen), r) := write_node keccak (t_root t) (t_cache t, t_gen t) in
    match r with
    | Ok e =>
        let rh := match e with EHash h => h | EInline data => keccak data end in
        match recover_from_db d rh with
        | Ok (Some n) => (Trie n rh ∅ ∅ ∅, Ok rh)
        | Ok None => (Trie (t_root t) rh ∅ ∅ ∅, Panic)
        | Err e => (Trie (t_root t) rh ∅ ∅ ∅, Err e)
        | Panic => (Trie (t_root t) rh ∅ ∅ ∅, Panic)
        | OutOfFuel => (Trie (t_root t) rh ∅ ∅ ∅, OutOfFuel)
        end
    | Err e => (Trie (t_root t) (t_root_hash t) cache (t_passing t) gen, Err e)
    | Panic => (Trie (t_root t) (t_root_hash t) cache (t_passing t) gen, Panic)
    | OutOfFuel => (Trie (t_root t) (t_root_hash t) cache (t_passing t) gen, OutOfFuel)
    end.

  (** One event.  [pending] (PmtFailModel.v) is what a commit writes. *)
  Definition estep (x : nat) (s : threads) (e : event) : out * threads :=
    let w := th_world s in
    match e with
    | ECall o => let '(r, w') := cstep keccak x w o in (r, Threads w' (th_left s))
    | EBegin i =>
        match w_views w !! i with
        | Some t => (RSkip, Threads (World (w_db w) (w_views w) (w_roots w) (w_trace w ++ hashed_root keccak (t_root t)))
                              (<[i := pending keccak t]> (th_left s)))
        | None => (RSkip, s)
        end
    | EPut i k =>
        match th_left s !! i with
        | Some rest =>
            match rest !! k with
            | Some e => (RSkip, Threads (World (db_insert (w_db w) k e) (w_views w) (w_roots w) (w_trace w))
                                  (<[i := delete k rest]> (th_left s)))
            | None => (RSkip, s)
            end
        | None => (RSkip, s)
        end
    | EEnd i =>
        match w_views w !! i with
        | Some t =>
            let '(t', r) := commit_end (w_db w) t in
            (RRoot r, Threads (World (w_db w) (<[i := t']> (w_views w))
                                 (match r with Ok h => h :: w_roots w | _ => w_roots w end) (w_trace w))
                        (delete i (th_left s)))
        | None => (RSkip, s)
        end
    end.
  Fixpoint erun (x : nat) (s : threads) (es : list event) : list out * threads :=
    match es with
    | [] => ([], s)
    | e :: es' =>
        let '(r, s) := estep x s e in
        let '(rs, s) := erun x s es' in
        (r :: rs, s)
    end.

  (** [&mut self]: nothing else happens to a trie that is committing; a commit
      ends when all is written. *)
  Definition enabled (s : threads) (e : event) : Prop :=
    match e with
    | ECall (CCall (OAct i a)) => a <> ACommit /\ th_left s !! i = None
    | ECall (CCall (OOpen _)) => True
    | ECall (CClone i) => th_left s !! i = None
    | EBegin i => is_Some (w_views (th_world s) !! i) /\ th_left s !! i = None
    | EPut i k => exists rest, th_left s !! i = Some rest /\ is_Some (rest !! k)
    | EEnd i => th_left s !! i = Some ∅
    end.
  Fixpoint possible (x : nat) (s : threads) (es : list event) : Prop :=
    match es with
    | [] => True
    | e :: es' => enabled s e /\ possible x (estep x s e).2 es'
    end.
End run.

(** What should be observed: each view is a map of its own, a commit happens
    when it ends. *)
Definition as_op (e : event) : option cop :=
  match e with ECall o => Some o | EEnd i => Some (CCall (OAct i ACommit)) | _ => None end.
Definition sestep (s : spec) (e : event) : spec :=
  match as_op e with Some o => scstep s o | None => s end.
Definition estep_ok (s : spec) (e : event) (r : out) : Prop :=
  match as_op e with Some o => cstep_ok s o r | None => r = RSkip end.
Fixpoint eouts_ok (s : spec) (es : list event) (rs : list out) : Prop :=
  match es, rs with
  | [], [] => True
  | e :: es', r :: rs' => estep_ok s e r /\ eouts_ok (sestep s e) es' rs'
  | _, _ => False
  end.
Definition event_short (e : event) : Prop := match e with ECall o => cop_short o | _ => True end.
