(** Vocabulary for the Patricia trie proofs: hash-free tries, what they
    contain, how they are encoded.  Nothing here is used by the model. *)
From Verif Require Import Base PmtNibblesModel RlpModel PmtModel.

(** A terminated nibble path. *)
Definition tpath (p : hex) : Prop := exists b, Forall (fun x => x < 16) b /\ p = b ++ [16].

(** The value a hash-free trie holds at a terminated path. *)
Fixpoint lk (t : node) (p : hex) {struct t} : option bytes :=
  match t with
  | NEmpty => None
  | NLeaf k v => if decide (k = p) then Some v else None
  | NExt q c => if decide (take (length q) p = q) then lk c (drop (length q) p) else None
  | NBranch cs v =>
      match p with
      | [] => None
      | x :: p' =>
          if x =? 16 then v
          else match map lk cs !! x with Some f => f p' | None => None end
      end
  | NHash _ => None
  end.

(** A trie holds exactly the bindings of a map. *)
Definition holds (t : node) (m : gmap bytes bytes) : Prop :=
  (forall k, lk t (from_raw k true) = m !! k) /\
  (forall p, tpath p -> lk t p <> None -> exists k, p = from_raw k true).

(** All subtries, the trie itself first. *)
Fixpoint subs (t : node) : list node :=
  t :: match t with
       | NExt _ c => subs c
       | NBranch cs _ => concat (map subs cs)
       | _ => []
       end.

Definition is_branch (t : node) : Prop := match t with NBranch _ _ => True | _ => False end.
Definition oval (v : option bytes) : nat := match v with Some _ => 1 | None => 0 end.
Definition vsize (v : option bytes) : nat := match v with Some x => length x | None => 0 end.
(** Number of occupied slots of a branch. *)
Fixpoint occupied (cs : list node) : nat :=
  match cs with
  | [] => 0
  | c :: cs' => (if is_empty_node c then 0 else 1) + occupied cs'
  end.

(** Well-formed hash-free tries with paths of length at most [L] and values
    of length at most [V]; with [c = true] also canonical: every branch has at
    least two occupied slots. *)
Inductive wf (c : bool) (V : nat) : nat -> node -> Prop :=
| wf_empty L : wf c V L NEmpty
| wf_leaf L b v : Forall (fun x => x < 16) b -> S (length b) <= L -> v <> [] -> length v <= V ->
    wf c V L (NLeaf (b ++ [16]) v)
| wf_ext L p s : p <> [] -> Forall (fun x => x < 16) p -> is_branch s ->
    wf c V L s -> wf c V (length p + L) (NExt p s)
| wf_branch L ts v : length ts = 16 -> Forall (wf c V L) ts ->
    v <> Some [] -> vsize v <= V ->
    (c = true -> 2 <= occupied ts + oval v) ->
    wf c V (S L) (NBranch ts v).

Section hash.
  Context (keccak : bytes -> bytes).

  Definition hp (h : hex) : bytes := match encode_compact h with Ok c => c | _ => [] end.

  (** How a node appears inside its parent. *)
  Definition ref (e : bytes) : bytes := if length e <? 32 then e else rlp_str (keccak e).

  (** The encoding of a hash-free trie. *)
  Fixpoint enc (t : node) : bytes :=
    match t with
    | NEmpty => null_rlp
    | NLeaf k v => rlp_list [rlp_str (hp k); rlp_str v]
    | NExt p c => rlp_list [rlp_str (hp p); ref (enc c)]
    | NBranch cs v =>
        rlp_list (map (fun c => ref (enc c)) cs ++
                  [match v with Some v => rlp_str v | None => null_rlp end])
    | NHash _ => []
    end.

  Definition long (t : node) : Prop := 32 <= length (enc t).

  (** What decoding [enc t] can see: long children are hash references. *)
  Fixpoint collapse (t : node) : node :=
    let go c := if length (enc c) <? 32 then collapse c else NHash (keccak (enc c)) in
    match t with
    | NExt p c => NExt p (go c)
    | NBranch cs v => NBranch (map go cs) v
    | _ => t
    end.
  Definition cref (t : node) : node :=
    if length (enc t) <? 32 then collapse t else NHash (keccak (enc t)).

  (** The database knows the long subtries of [t]; unless [C], it may lack some. *)
  Definition known (C : bool) (d : db) (s : node) : Prop :=
    db_get d (keccak (enc s)) = Some (enc s) \/
    (C = false /\ db_get d (keccak (enc s)) = None).
  Definition stored (C : bool) (d : db) (t : node) : Prop :=
    Forall (fun s => long s -> known C d s) (subs t).

  (** [n] is [t] with some long subtries replaced by the hash of their
      encoding, all of them stored in the database. *)
  Inductive repr (C : bool) (d : db) : node -> node -> Prop :=
  | repr_empty : repr C d NEmpty NEmpty
  | repr_leaf k v : repr C d (NLeaf k v) (NLeaf k v)
  | repr_ext p n t : repr C d n t -> repr C d (NExt p n) (NExt p t)
  | repr_branch ns ts v : Forall2 (repr C d) ns ts -> repr C d (NBranch ns v) (NBranch ts v)
  | repr_hash t : long t -> stored C d t -> repr C d (NHash (keccak (enc t))) t.
End hash.
