(** Model of pmt/src/node.rs, pmt/src/db.rs and pmt/src/inner.rs.

    The database handle is shared ([Arc<D>]) between a trie and the views opened
    from it, so it is passed separately from the trie's own fields.  The only
    [Database] implementation in /repo, [MemoryDB], never fails, hence no
    database errors.  [keccak] is an arbitrary function. *)
From Verif Require Import Base PmtNibblesModel RlpModel.
Open Scope res_scope.

(** pmt/src/node.rs l.36-44 with the structs of l.72-120; [children] is the
    16-element array. *)
Inductive node : Type :=
| NEmpty
| NLeaf (key : hex) (value : bytes)
| NExt (prefix : hex) (n : node)
| NBranch (children : list node) (value : option bytes)
| NHash (h : bytes).

(** [Default::default()] for the children array, inner.rs l.414-417, l.457-460. *)
Definition no_children : list node := replicate 16 NEmpty.

(** pmt/src/node.rs l.93-108. *)
Definition branch_insert (cs : list node) (v : option bytes) (i : nat) (n : node)
  : tres (list node * option bytes) :=
  if i =? 16 then
    match n with
    | NLeaf _ lv => Ok (cs, Some lv)
    | _ => Err NodeErr
    end
  else if i <? length cs then Ok (<[i := n]> cs, v) else Panic.

(** pmt/src/db.rs l.62-66. *)
Record db := Db { light : bool; storage : gmap bytes bytes }.

(** pmt/src/db.rs l.69-74. *)
Definition db_new (l : bool) : db := Db l ∅.
(** pmt/src/db.rs l.88-94. *)
Definition db_get (d : db) (k : bytes) : option bytes := storage d !! k.
(** pmt/src/db.rs l.96-99. *)
Definition db_insert (d : db) (k v : bytes) : db := Db (light d) (<[k := v]> (storage d)).
(** pmt/src/db.rs l.101-106: removal is a no-op unless [light]. *)
Definition db_remove (d : db) (k : bytes) : db :=
  if light d then Db true (delete k (storage d)) else d.
(** pmt/src/db.rs l.28-39 applied to the drained cache (distinct keys). *)
Definition db_insert_batch (d : db) (kvs : list (bytes * bytes)) : db :=
  fold_left (fun d kv => db_insert d kv.1 kv.2) kvs d.
(** pmt/src/db.rs l.42-47. *)
Definition db_remove_batch (d : db) (ks : list bytes) : db :=
  fold_left db_remove ks d.

(** pmt/src/inner.rs l.26-47 without the database handle. *)
Record trie := Trie {
  t_root : node;
  t_root_hash : bytes;
  t_cache : gmap bytes bytes;
  t_passing : gset bytes;
  t_gen : gset bytes
}.

(** inner.rs l.49-52. *)
Inductive encoded := EHash (h : bytes) | EInline (data : bytes).

(** Sequencing of fallible steps over a list ([for] loop with [?]). *)
Fixpoint rmapM {E A B} (f : A -> res E B) (l : list A) : res E (list B) :=
  match l with
  | [] => Ok []
  | a :: l' => try! b := f a in try! bs := rmapM f l' in Ok (b :: bs)
  end.

(** inner.rs l.779-826.  Fuel bounds the nesting depth of inline nodes. *)
Fixpoint decode_node (fuel : nat) (data : bytes) : tres node :=
  match fuel with
  | O => OutOfFuel
  | S f =>
      match rlp_prototype data with
      | PData 0 => Ok NEmpty
      | PList 2 =>
          try! it0 := rlp_at data 0 in
          try! k := rlp_data it0 in
          try! key := from_compact k in
          try! leaf := is_leaf key in
          if leaf then
            try! it1 := rlp_at data 1 in
            try! v := rlp_data it1 in
            Ok (NLeaf key v)
          else
            try! it1 := rlp_at data 1 in
            try! n := decode_node f it1 in
            Ok (NExt key n)
      | PList 17 =>
          try! nodes := rmapM (fun i => try! it := rlp_at data i in decode_node f it) (seq 0 16) in
          try! vr := rlp_at data 16 in
          if rlp_is_empty vr then Ok (NBranch nodes None)
          else try! v := rlp_data vr in Ok (NBranch nodes (Some v))
      | _ =>
          if rlp_is_data data && (rlp_size data =? 32) then
            try! h := rlp_data data in Ok (NHash h)
          else Err InvalidData
      end
  end.

(** inner.rs l.828-838; each nesting level consumes at least one byte, so the
    length of the data is enough fuel (proved in PmtProof). *)
Definition recover_from_db (d : db) (h : bytes) : tres (option node) :=
  match db_get d h with
  | Some data => try! n := decode_node (S (length data)) data in Ok (Some n)
  | None => Ok None
  end.

(** inner.rs l.328-395 ([get_at], [get_extension_node], [get_hash_node]). *)
Fixpoint get_at (fuel : nat) (d : db) (rh : bytes) (n : node) (path : hex) (idx : nat)
  : tres (option bytes) :=
  match fuel with
  | O => OutOfFuel
  | S f =>
      try! partial := offset path idx in
      match n with
      | NEmpty => Ok None
      | NLeaf k v => if decide (k = partial) then Ok (Some v) else Ok None
      | NBranch cs v =>
          match partial with
          | [] => Ok v
          | x :: _ =>
              if x =? 16 then Ok v
              else match cs !! x with
                   | Some c => get_at f d rh c path (idx + 1)
                   | None => Panic
                   end
          end
      | NExt prefix c =>
          let m := common_prefix partial prefix in
          if m =? length prefix then get_at f d rh c path (idx + m) else Ok None
      | NHash h =>
          try! o := recover_from_db d h in
          match o with
          | Some n' => get_at f d rh n' path idx
          | None =>
              try! tr := slice path 0 idx in
              Err (MissingTrieNode h (Some tr) (Some rh) None)
          end
      end
  end.

(** Replacing [err_key], inner.rs l.121-136, l.159-172, l.185-198, l.225-238. *)
Definition with_key {A} (key : bytes) (r : tres A) : tres A :=
  match r with
  | Err (MissingTrieNode h tr rh _) => Err (MissingTrieNode h tr rh (Some key))
  | _ => r
  end.

(** inner.rs l.117-137. *)
Definition get (fuel : nat) (d : db) (t : trie) (key : bytes) : tres (option bytes) :=
  with_key key (get_at fuel d (t_root_hash t) (t_root t) (from_raw key true) 0).

(** inner.rs l.140-143. *)
Definition contains (fuel : nat) (d : db) (t : trie) (key : bytes) : tres bool :=
  try! o := get_at fuel d (t_root_hash t) (t_root t) (from_raw key true) 0 in
  Ok (match o with Some _ => true | None => false end).

(** Updates record the hashes they pass through in [passing_keys] even when
    they fail; a step returns the new set together with its outcome. *)
Definition upd (A : Type) : Type := (gset bytes * tres A)%type.
Definition ubind {A B} (x : upd A) (f : gset bytes -> A -> upd B) : upd B :=
  let '(pk, r) := x in
  match r with
  | Ok a => f pk a
  | Err e => (pk, Err e)
  | Panic => (pk, Panic)
  | OutOfFuel => (pk, OutOfFuel)
  end.
Notation "'upd!' ( pk , x ) := e1 'in' e2" := (ubind e1 (fun pk x => e2))
  (at level 200, pk name, x pattern, e1 at level 100, e2 at level 200).

(** inner.rs l.397-510. *)
Fixpoint insert_at (fuel : nat) (d : db) (rh : bytes) (pk : gset bytes)
    (n : node) (path : hex) (idx : nat) (value : bytes) : upd node :=
  match fuel with
  | O => (pk, OutOfFuel)
  | S f =>
      upd! (pk, partial) := (pk, offset path idx) in
      match n with
      | NEmpty => (pk, Ok (NLeaf partial value))
      | NLeaf old lv =>
          let m := common_prefix partial old in
          if m =? length old then (pk, Ok (NLeaf old value))
          else
            (pk,
             try! o1 := offset old (m + 1) in
             try! i1 := at_ old m in
             try! (cs1, v1) := branch_insert no_children None i1 (NLeaf o1 lv) in
             try! o2 := offset partial (m + 1) in
             try! i2 := at_ partial m in
             try! (cs2, v2) := branch_insert cs1 v1 i2 (NLeaf o2 value) in
             if m =? 0 then Ok (NBranch cs2 v2)
             else try! pre := slice partial 0 m in Ok (NExt pre (NBranch cs2 v2)))
      | NBranch cs v =>
          match partial with
          | [] => (pk, Panic)
          | x :: _ =>
              if x =? 16 then (pk, Ok (NBranch cs (Some value)))
              else match cs !! x with
                   | Some c =>
                       upd! (pk, c') := insert_at f d rh pk c path (idx + 1) value in
                       (pk, Ok (NBranch (<[x := c']> cs) v))
                   | None => (pk, Panic)
                   end
          end
      | NExt prefix sub =>
          let m := common_prefix partial prefix in
          if m =? 0 then
            upd! (pk, b) :=
              (pk, try! x := at_ prefix 0 in
                   try! o := offset prefix 1 in
                   branch_insert no_children None x
                     (if length prefix =? 1 then sub else NExt o sub)) in
            insert_at f d rh pk (NBranch b.1 b.2) path idx value
          else if m =? length prefix then
            upd! (pk, n') := insert_at f d rh pk sub path (idx + m) value in
            (pk, Ok (NExt prefix n'))
          else
            upd! (pk, o) := (pk, offset prefix m) in
            upd! (pk, n') := insert_at f d rh pk (NExt o sub) path (idx + m) value in
            (pk, try! pre := slice prefix 0 m in Ok (NExt pre n'))
      | NHash h =>
          let pk := {[h]} ∪ pk in
          upd! (pk, o) := (pk, recover_from_db d h) in
          match o with
          | Some n' => insert_at f d rh pk n' path idx value
          | None =>
              (pk, try! tr := slice path 0 idx in
                   Err (MissingTrieNode h (Some tr) (Some rh) None))
          end
      end
  end.

(** Indices of the non-empty children, inner.rs l.597-604. *)
Definition is_empty_node (n : node) : bool := match n with NEmpty => true | _ => false end.
Fixpoint used_from (i : nat) (cs : list node) : list nat :=
  match cs with
  | [] => []
  | c :: cs' => if is_empty_node c then used_from (S i) cs' else i :: used_from (S i) cs'
  end.
Definition used_indices (cs : list node) : list nat := used_from 0 cs.

(** inner.rs l.592-660. *)
Fixpoint degenerate (fuel : nat) (d : db) (rh : bytes) (pk : gset bytes) (n : node) : upd node :=
  match fuel with
  | O => (pk, OutOfFuel)
  | S f =>
      match n with
      | NBranch cs v =>
          match used_indices cs, v with
          | [], Some val => (pk, Ok (NLeaf (from_raw [] true) val))
          | [i], None =>
              match cs !! i with
              | Some c => degenerate f d rh pk (NExt [i] c)
              | None => (pk, Panic)
              end
          | _, _ => (pk, Ok n)
          end
      | NExt prefix c =>
          match c with
          | NExt sub_prefix c' => degenerate f d rh pk (NExt (join prefix sub_prefix) c')
          | NLeaf k v => (pk, Ok (NLeaf (join prefix k) v))
          | NHash h =>
              let pk := {[h]} ∪ pk in
              upd! (pk, o) := (pk, recover_from_db d h) in
              match o with
              | Some n' => degenerate f d rh pk (NExt prefix n')
              | None => (pk, Err (MissingTrieNode h None (Some rh) None))
              end
          | _ => (pk, Ok n)
          end
      | _ => (pk, Ok n)
      end
  end.

(** inner.rs l.512-586.  The early returns of l.523 and l.532 skip [degenerate]. *)
Fixpoint delete_at (fuel : nat) (d : db) (rh : bytes) (pk : gset bytes)
    (n : node) (path : hex) (idx : nat) : upd (node * bool) :=
  match fuel with
  | O => (pk, OutOfFuel)
  | S f =>
      upd! (pk, partial) := (pk, offset path idx) in
      let finish (x : upd (node * bool)) : upd (node * bool) :=
        upd! (pk, nd) := x in
        if nd.2 then upd! (pk, n') := degenerate f d rh pk nd.1 in (pk, Ok (n', true))
        else (pk, Ok nd) in
      match n with
      | NEmpty => finish (pk, Ok (NEmpty, false))
      | NLeaf k v =>
          if decide (k = partial) then (pk, Ok (NEmpty, true))
          else finish (pk, Ok (n, false))
      | NBranch cs v =>
          match partial with
          | [] => (pk, Panic)
          | x :: _ =>
              if x =? 16 then (pk, Ok (NBranch cs None, true))
              else match cs !! x with
                   | Some c =>
                       finish (upd! (pk, cd) := delete_at f d rh pk c path (idx + 1) in
                               (pk, Ok (if cd.2 then NBranch (<[x := cd.1]> cs) v else NBranch cs v,
                                        cd.2)))
                   | None => (pk, Panic)
                   end
          end
      | NExt prefix c =>
          let m := common_prefix partial prefix in
          if m =? length prefix then
            finish (upd! (pk, cd) := delete_at f d rh pk c path (idx + m) in
                    (pk, Ok (if cd.2 then NExt prefix cd.1 else NExt prefix c, cd.2)))
          else finish (pk, Ok (n, false))
      | NHash h =>
          let pk := {[h]} ∪ pk in
          upd! (pk, o) := (pk, recover_from_db d h) in
          match o with
          | Some n' => finish (delete_at f d rh pk n' path idx)
          | None =>
              (pk, try! tr := slice path 0 idx in
                   Err (MissingTrieNode h (Some tr) (Some rh) None))
          end
      end
  end.

(** Trie with a new [passing_keys] set / a new root. *)
Definition set_passing (t : trie) (pk : gset bytes) : trie :=
  Trie (t_root t) (t_root_hash t) (t_cache t) pk (t_gen t).
Definition set_root (t : trie) (n : node) : trie :=
  Trie n (t_root_hash t) (t_cache t) (t_passing t) (t_gen t).

(** inner.rs l.146-177. *)
Definition insert (fuel : nat) (d : db) (t : trie) (key value : bytes) : trie * tres unit :=
  match value with
  | [] => (t, Err InvalidData)
  | _ =>
      let '(pk, r) := insert_at fuel d (t_root_hash t) (t_passing t) (t_root t)
                        (from_raw key true) 0 value in
      let t' := set_passing t pk in
      match with_key key r with
      | Ok n => (set_root t' n, Ok tt)
      | Err e => (t', Err e)
      | Panic => (t', Panic)
      | OutOfFuel => (t', OutOfFuel)
      end
  end.

(** inner.rs l.180-204. *)
Definition remove (fuel : nat) (d : db) (t : trie) (key : bytes) : trie * tres bool :=
  let '(pk, r) := delete_at fuel d (t_root_hash t) (t_passing t) (t_root t)
                    (from_raw key true) 0 in
  let t' := set_passing t pk in
  match with_key key r with
  | Ok (n, removed) => (set_root t' n, Ok removed)
  | Err e => (t', Err e)
  | Panic => (t', Panic)
  | OutOfFuel => (t', OutOfFuel)
  end.

(** inner.rs l.669-715; the pushed path is deepest node first. *)
Fixpoint get_path_at (fuel : nat) (d : db) (rh : bytes) (n : node) (path : hex) (idx : nat)
  : tres (list node) :=
  match fuel with
  | O => OutOfFuel
  | S f =>
      try! partial := offset path idx in
      match n with
      | NEmpty | NLeaf _ _ => Ok []
      | NBranch cs v =>
          match partial with
          | [] => Ok []
          | x :: _ =>
              if x =? 16 then Ok []
              else match cs !! x with
                   | Some c => get_path_at f d rh c path (idx + 1)
                   | None => Panic
                   end
          end
      | NExt prefix c =>
          let m := common_prefix partial prefix in
          if m =? length prefix then get_path_at f d rh c path (idx + m) else Ok []
      | NHash h =>
          try! o := recover_from_db d h in
          match o with
          | Some n' =>
              try! rest := get_path_at f d rh n' path idx in
              Ok (rest ++ [n'])
          | None => Err (MissingTrieNode h None (Some rh) None)
          end
      end
  end.

Section hash.
  Context (keccak : bytes -> bytes).

  (** inner.rs l.58-69. *)
  Definition new_trie : trie := Trie NEmpty (keccak null_rlp) ∅ ∅ ∅.

  (** inner.rs l.75-86. *)
  Definition at_root (root_hash : bytes) : trie := Trie (NHash root_hash) root_hash ∅ ∅ ∅.

  (** Pending writes and generated keys, threaded through the encoder. *)
  Definition wst : Type := (gmap bytes bytes * gset bytes)%type.

  (** inner.rs l.717-735; [enc] is [encode_raw] of the node. *)
  Definition write_with (enc : wst -> wst * tres bytes) (n : node) (w : wst) : wst * tres encoded :=
    match n with
    | NHash h => (w, Ok (EHash h))
    | _ =>
        let '(w, r) := enc w in
        match r with
        | Ok data =>
            if length data <? 32 then (w, Ok (EInline data))
            else let h := keccak data in
                 ((<[h := data]> w.1, {[h]} ∪ w.2), Ok (EHash h))
        | Err e => (w, Err e)
        | Panic => (w, Panic)
        | OutOfFuel => (w, OutOfFuel)
        end
    end.

  (** [stream.append(&hash.as_bytes())] / [stream.append_raw(&data, 1)]. *)
  Definition enc_item (e : encoded) : bytes :=
    match e with EHash h => rlp_str h | EInline d => d end.

  (** inner.rs l.737-777. *)
  Fixpoint encode_raw (n : node) (w : wst) {struct n} : wst * tres bytes :=
    match n with
    | NEmpty => (w, Ok null_rlp)
    | NLeaf k v => (w, try! c := encode_compact k in Ok (rlp_list [rlp_str c; rlp_str v]))
    | NExt p c =>
        match encode_compact p with
        | Ok cp =>
            let '(w, r) := write_with (encode_raw c) c w in
            (w, try! e := r in Ok (rlp_list [rlp_str cp; enc_item e]))
        | Err e => (w, Err e)
        | Panic => (w, Panic)
        | OutOfFuel => (w, OutOfFuel)
        end
    | NBranch cs v =>
        let '(w, r) :=
          (fix go (cs : list node) (w : wst) : wst * tres (list bytes) :=
             match cs with
             | [] => (w, Ok [])
             | c :: cs' =>
                 let '(w, r) := write_with (encode_raw c) c w in
                 match r with
                 | Ok e =>
                     let '(w, rs) := go cs' w in
                     (w, try! l := rs in Ok (enc_item e :: l))
                 | Err e => (w, Err e)
                 | Panic => (w, Panic)
                 | OutOfFuel => (w, OutOfFuel)
                 end
             end) cs w in
        (w, try! items := r in
            Ok (rlp_list (items ++ [match v with Some v => rlp_str v | None => null_rlp end])))
    | NHash _ => (w, Panic)
    end.

  Definition write_node (n : node) (w : wst) : wst * tres encoded :=
    write_with (encode_raw n) n w.

  (** inner.rs l.279-320. *)
  Definition commit (d : db) (t : trie) : db * trie * tres bytes :=
    let '((cache, gen), r) := write_node (t_root t) (t_cache t, t_gen t) in
    match r with
    | Ok e =>
        let '(rh, cache) :=
          match e with
          | EHash h => (h, cache)
          | EInline data => (keccak data, <[keccak data := data]> cache)
          end in
        let d := db_insert_batch d (map_to_list cache) in
        let removed := filter (fun h => h ∉ gen) (elements (t_passing t)) in
        let d := db_remove_batch d removed in
        match recover_from_db d rh with
        | Ok (Some n) => (d, Trie n rh ∅ ∅ ∅, Ok rh)
        | Ok None => (d, Trie (t_root t) rh ∅ ∅ ∅, Panic)
        | Err e => (d, Trie (t_root t) rh ∅ ∅ ∅, Err e)
        | Panic => (d, Trie (t_root t) rh ∅ ∅ ∅, Panic)
        | OutOfFuel => (d, Trie (t_root t) rh ∅ ∅ ∅, OutOfFuel)
        end
    | Err e => (d, Trie (t_root t) (t_root_hash t) cache (t_passing t) gen, Err e)
    | Panic => (d, Trie (t_root t) (t_root_hash t) cache (t_passing t) gen, Panic)
    | OutOfFuel => (d, Trie (t_root t) (t_root_hash t) cache (t_passing t) gen, OutOfFuel)
    end.

  (** inner.rs l.208-210. *)
  Definition root_hash (d : db) (t : trie) : db * trie * tres bytes := commit d t.

  (** The encoding of the collected nodes in order, inner.rs l.246-250. *)
  Fixpoint encode_all (ns : list node) (w : wst) : wst * tres (list bytes) :=
    match ns with
    | [] => (w, Ok [])
    | n :: ns' =>
        let '(w, r) := encode_raw n w in
        match r with
        | Ok b => let '(w, rs) := encode_all ns' w in (w, try! l := rs in Ok (b :: l))
        | Err e => (w, Err e)
        | Panic => (w, Panic)
        | OutOfFuel => (w, OutOfFuel)
        end
    end.

  (** inner.rs l.221-251. *)
  Definition get_proof (fuel : nat) (d : db) (t : trie) (key : bytes) : trie * tres (list bytes) :=
    match with_key key (get_path_at fuel d (t_root_hash t) (t_root t) (from_raw key true) 0) with
    | Ok path =>
        let path := match t_root t with NEmpty => path | r => path ++ [r] end in
        let '((cache, gen), r) := encode_all (rev path) (t_cache t, t_gen t) in
        (Trie (t_root t) (t_root_hash t) cache (t_passing t) gen, r)
    | Err e => (t, Err e)
    | Panic => (t, Panic)
    | OutOfFuel => (t, OutOfFuel)
    end.

  (** The database built from a proof, inner.rs l.265-272. *)
  Definition proof_db (root_hash : bytes) (proof : list bytes) : db :=
    fold_left (fun d e =>
      if bool_decide (root_hash = keccak e) || (32 <=? length e)
      then db_insert d (keccak e) e else d) proof (db_new true).

  (** inner.rs l.259-277. *)
  Definition verify_proof (fuel : nat) (root_hash : bytes) (key : bytes) (proof : list bytes)
    : tres (option bytes) :=
    match get fuel (proof_db root_hash proof) (at_root root_hash) key with
    | Err _ => Err InvalidProof
    | r => r
    end.
End hash.

(** pmt/src/trie_iterator.rs l.7-19: trace status and trace node. *)
Inductive tstatus := TStart | TDoing | TChild (i : nat) | TEnd.

(** trie_iterator.rs l.31-41. *)
Definition advance (n : node) (s : tstatus) : tstatus :=
  match s with
  | TStart => TDoing
  | TDoing => match n with NBranch _ _ => TChild 0 | _ => TEnd end
  | TChild i => if i <? 15 then TChild (i + 1) else TEnd
  | TEnd => TEnd
  end.

(** trie_iterator.rs l.45-52: current nibble path and the node stack (top first). *)
Record iter := Iter { i_nibble : hex; i_nodes : list (node * tstatus) }.

(** trie_iterator.rs l.58-66. *)
Definition iter_new (t : trie) : iter := Iter (from_raw [] false) [(t_root t, TStart)].

(** One round of the loop of trie_iterator.rs l.76-159: either the iterator
    continues, or it returns an item. *)
Inductive iter_step_out := IContinue (it : iter) | IReturn (it : iter) (item : option (bytes * bytes)).

(** [truncate(cur_len - n)], l.85-86, l.90-91. *)
Definition truncate_by (h : hex) (n : nat) : tres hex :=
  if n <=? length h then Ok (take (length h - n) h) else Panic.

Definition iter_step (d : db) (it : iter) : tres iter_step_out :=
  match i_nodes it with
  | [] => Ok (IReturn it None)
  | (n, st) :: below =>
      let stack := (n, advance n st) :: below in
      match st, n with
      | TEnd, NLeaf k _ =>
          try! h := truncate_by (i_nibble it) (length k) in Ok (IContinue (Iter h below))
      | TEnd, NExt p _ =>
          try! h := truncate_by (i_nibble it) (length p) in Ok (IContinue (Iter h below))
      | TEnd, NBranch _ _ =>
          Ok (IContinue (Iter (take (length (i_nibble it) - 1) (i_nibble it)) below))
      | TEnd, _ => Ok (IContinue (Iter (i_nibble it) below))
      | TDoing, NExt p c => Ok (IContinue (Iter (i_nibble it ++ p) ((c, TStart) :: stack)))
      | TDoing, NLeaf k v =>
          let h := i_nibble it ++ k in
          try! kb := encode_raw_nibbles h in
          Ok (IReturn (Iter h stack) (Some (kb.1, v)))
      | TDoing, NBranch _ (Some v) =>
          try! kb := encode_raw_nibbles (i_nibble it) in
          Ok (IReturn (Iter (i_nibble it) stack) (Some (kb.1, v)))
      | TDoing, NBranch _ None => Ok (IContinue (Iter (i_nibble it) stack))
      | TDoing, NHash h =>
          match recover_from_db d h with
          | Ok (Some n') => Ok (IContinue (Iter (i_nibble it) ((n', TStart) :: below)))
          | Ok None => Ok (IContinue (Iter (i_nibble it) below))
          | Err _ => Ok (IReturn (Iter (i_nibble it) stack) None)
          | Panic => Panic
          | OutOfFuel => OutOfFuel
          end
      | TChild i, NBranch cs _ =>
          let h := (if i =? 0 then i_nibble it else take (length (i_nibble it) - 1) (i_nibble it)) ++ [i] in
          match cs !! i with
          | Some c => Ok (IContinue (Iter h ((c, TStart) :: stack)))
          | None => Panic
          end
      | _, NEmpty => Ok (IContinue (Iter (i_nibble it) below))
      | _, _ => Ok (IContinue (Iter (i_nibble it) stack))
      end
  end.

(** [iter().collect()], inner.rs l.98-100: run [next] until it returns [None].
    Fuel counts loop rounds. *)
Fixpoint iter_collect (fuel : nat) (d : db) (it : iter) : tres (list (bytes * bytes)) :=
  match fuel with
  | O => OutOfFuel
  | S f =>
      try! o := iter_step d it in
      match o with
      | IContinue it' => iter_collect f d it'
      | IReturn it' None => Ok []
      | IReturn it' (Some x) => try! l := iter_collect f d it' in Ok (x :: l)
      end
  end.

(** inner.rs l.98-100. *)
Definition values (fuel : nat) (d : db) (t : trie) : tres (list (bytes * bytes)) :=
  iter_collect fuel d (iter_new t).
