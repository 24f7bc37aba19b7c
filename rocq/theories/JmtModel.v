(** Model of the Jellyfish Merkle tree: /repo/jmt/src/node_type.rs,
    tree_cache.rs, tree.rs, types/proof.rs, types/proof/definition.rs,
    reader.rs, writer.rs and the in-memory store mock.rs.

    Simplifications, all local to this file:
    - [NibblePath] is the list of its nibbles ([JmtNibModel.npath] has the
      packed form, C45 and C60 say they agree); the assert that a path never exceeds 64 nibbles in [push]
      is not modelled.
    - [Children] (an array of 16 options with a counter) is a finite map from
      nibbles ([JmtChildrenModel] has the array form; C59 says they agree).
    - the flag [leaf_count_migration] is written but never read inside nodes,
      it is dropped from nodes; [JellyfishMerkleTree::new] sets it to true.
    - [usize] counters do not overflow upwards; [u64] versions do.
    - text of error messages is dropped, the error kind is kept. *)
From Verif Require Import Base JmtNibModel.
Local Open Scope N_scope.

(** Versions ([types.rs] 10): [u64]. *)
Definition u64_max : N := 18446744073709551615.
(** types.rs 13. *)
Definition pre_genesis : N := u64_max.

Notation path := (list nib).
(** node_type.rs 51-56, [NodeKey]. *)
Notation nkey := (N * list nib)%type.
(** node_type.rs 81-85, [gen_child_node_key]. *)
Definition child_key (nk : nkey) (v : N) (i : nib) : nkey := (v, snd nk ++ [i]).

(** node_type.rs 115-123. *)
Inductive ntype := TLeaf | TLegacy | TInternal (leaf_count : N).
(** node_type.rs 152-164. *)
Record child := Child { c_hash : bytes; c_ver : N; c_type : ntype }.
(** node_type.rs 199-204 (see the note above). *)
Notation children := (gmap nib child).
(** node_type.rs 321-328. *)
Record inode := INode { in_children : children; in_count : option N }.
(** node_type.rs 718-729; a leaf has key hash and value hash (666-671). *)
Inductive node := NNull | NLeaf (k vh : bytes) | NInternal (n : inode).

Global Instance ntype_eq_dec : EqDecision ntype. Proof. solve_decision. Defined.
Global Instance child_eq_dec : EqDecision child. Proof. solve_decision. Defined.
Global Instance inode_eq_dec : EqDecision inode.
Proof. intros [a b] [c d]. destruct (decide (a = c)), (decide (b = d)); [left|right..]; congruence. Defined.
Global Instance node_eq_dec : EqDecision node. Proof. solve_decision. Defined.

(** Error kinds ([bail!], [ensure!], [format_err!]) of the modelled calls. *)
Inductive jerr :=
| MissingNode (nk : nkey)         (* reader.rs 14-17 *)
| MissingRoot (v : N)             (* lib.rs 139-146 *)
| MissingValue (v : N) (k : bytes)(* reader.rs 24-31 *)
| NullNonRoot (nk : nkey)         (* tree.rs 578-581, 904-907 *)
| NodeExists (nk : nkey)          (* tree_cache.rs 235 *)
| RanOutOfNibbles                 (* tree.rs 867, 995 *)
| ValuesOutOfOrder                (* mock.rs 164 *)
| DuplicateStale                  (* mock.rs 213 *)
| StaleMissing                    (* mock.rs 241 *)
| KeyNotFound                     (* tree.rs 1205 *)
| TooManySiblings                 (* definition.rs 104-109 *)
| KeyMismatch                     (* definition.rs 116-121 *)
| ValueMismatch                   (* definition.rs 123-129 *)
| NotInclusion                    (* definition.rs 131 *)
| KeyPresent                      (* definition.rs 137-140 *)
| NotSameSubtree                  (* definition.rs 141-146 *)
| RootMismatch                    (* definition.rs 175-180, 299-304 *)
| MissingLeft | MissingRight      (* definition.rs 283, 291 *)
| EmptyTree                       (* tree.rs 1025-1027 *)
| FoundExact                      (* tree.rs 1080 *)
| InvalidExclusion                (* tree.rs 1146 *)
| NoChildren | NullChild | Cyclic (* tree.rs 1185, 1192, 1195 *)
| LeafCountUnknown | IterBug      (* iterator.rs 209, 223, 263 *)
| EmptyChunk | KeysNotIncreasing | TooManyRight | RootWritten | NullStored. (* restore.rs *)

Section JMT.
(** [sha] is the SHA-256 of types/proof.rs 36-44 and 79-86 (always SHA-256),
    [hv] the hasher [H] of lib.rs 251-257, 285-296.  Both arbitrary. *)
Context (sha hv : bytes -> bytes).

(** lib.rs 163: the 32 ASCII bytes ["SPARSE_MERKLE_PLACEHOLDER_HASH__"]. *)
Definition placeholder : bytes :=
  [x53; x50; x41; x52; x53; x45; x5f; x4d; x45; x52; x4b; x4c; x45; x5f; x50; x4c;
   x41; x43; x45; x48; x4f; x4c; x44; x45; x52; x5f; x48; x41; x53; x48; x5f; x5f].
(** types/proof.rs 17: ["JMT::LeafNode"]. *)
Definition leaf_domain : bytes :=
  [x4a; x4d; x54; x3a; x3a; x4c; x65; x61; x66; x4e; x6f; x64; x65].
(** types/proof.rs 18: ["JMT::IntrnalNode"]. *)
Definition internal_domain : bytes :=
  [x4a; x4d; x54; x3a; x3a; x49; x6e; x74; x72; x6e; x61; x6c; x4e; x6f; x64; x65].
(** types/proof.rs 36-44 and 79-86. *)
Definition sm_internal (l r : bytes) : bytes := sha (internal_domain ++ l ++ r).
Definition sm_leaf (k vh : bytes) : bytes := sha (leaf_domain ++ k ++ vh).

(** ** Internal nodes *)

(** node_type.rs 169-181. *)
Definition child_is_leaf (c : child) : bool :=
  match c_type c with TLeaf => true | _ => false end.
Definition child_leaf_count (c : child) : option N :=
  match c_type c with TLeaf => Some 1 | TLegacy => None | TInternal n => Some n end.

(** node_type.rs 287-298, [iter_sorted] (also [iter] and, without the nibble,
    [values]). *)
Definition children_sorted (cs : children) : list (nib * child) :=
  omap (fun i => match cs !! i with Some c => Some (i, c) | None => None end) all_nibs.

(** node_type.rs 427-437, [sum_leaf_count]. *)
Fixpoint sum_leaf_count (l : list (nib * child)) : option N :=
  match l with
  | [] => Some 0
  | (_, c) :: l' =>
      match child_leaf_count c with
      | None => None
      | Some n => match sum_leaf_count l' with None => None | Some m => Some (n + m) end
      end
  end.

(** node_type.rs 396-425: [new]/[new_migration]; the [expect] makes the two
    [ensure!] panics. *)
Definition inode_new (cs : children) : res jerr inode :=
  match children_sorted cs with
  | [] => Panic
  | [(_, c)] => if child_is_leaf c then Panic
                else Ok (INode cs (sum_leaf_count (children_sorted cs)))
  | _ => Ok (INode cs (sum_leaf_count (children_sorted cs)))
  end.

(** node_type.rs 443-448. *)
Definition inode_type (n : inode) : ntype :=
  match in_count n with Some c => TInternal c | None => TLegacy end.

(** node_type.rs 478-491, [generate_bitmaps] (the assert compares a bitmap
    with itself or-ed with a subset). *)
Definition gen_bitmaps (cs : children) : res jerr (N * N) :=
  let bm := fold_left (fun '(e, l) '(i, c) =>
                let bit := N.shiftl 1 (nib_val i) in
                (N.lor e bit, if child_is_leaf c then N.lor l bit else l))
              (children_sorted cs) (0, 0) in
  if N.lor (fst bm) (snd bm) =? fst bm then Ok bm else Panic.

(** [u16] bit counting, on the sixteen bits. *)
Definition u16_bits (x : N) : list N :=
  filter (fun i => N.testbit x i = true) [0;1;2;3;4;5;6;7;8;9;10;11;12;13;14;15].
Definition count_ones (x : N) : nat := length (u16_bits x).
Definition trailing_zeros (x : N) : N := default 16 (head (u16_bits x)).

(** node_type.rs 494-501, [range_bitmaps]; [width] is [2^h], so its
    [count_ones() == 1] holds. *)
Definition range_bitmaps (start : N) (h : nat) (bm : N * N) : res jerr (N * N) :=
  let width := 2 ^ N.of_nat h in
  if (start <? 16) && (start mod width =? 0) && (width <=? 16) && (start + width <=? 16)
  then
    let mask := N.land (N.shiftl (N.shiftl 1 width - 1) start) 65535 in
    Ok (N.land (fst bm) mask, N.land (snd bm) mask)
  else Panic.

(** The child named by a bitmap: [Nibble::from(trailing_zeros)], then
    [self.child(..).unwrap()]. *)
Definition only_child (cs : children) (bm : N) : res jerr (nib * child) :=
  match nib_of (trailing_zeros bm) with
  | None => Panic
  | Some i => match cs !! i with None => Panic | Some c => Ok (i, c) end
  end.

(** node_type.rs 503-543, [merkle_hash] on [start, start + 2^h). *)
Fixpoint merkle_hash (cs : children) (h : nat) (start : N) (bm : N * N) : res jerr bytes :=
  rbind (range_bitmaps start h bm) (fun r =>
  if fst r =? 0 then Ok placeholder
  else
    match h with
    | O => rbind (only_child cs (fst r)) (fun ic => Ok (c_hash (snd ic)))
    | S h' =>
        if (count_ones (fst r) =? 1)%nat && negb (snd r =? 0)
        then rbind (only_child cs (fst r)) (fun ic => Ok (c_hash (snd ic)))
        else
          rbind (merkle_hash cs h' start r) (fun lh =>
          rbind (merkle_hash cs h' (start + 2 ^ N.of_nat h') r) (fun rh =>
          Ok (sm_internal lh rh)))
    end).

(** node_type.rs 450-456, [InternalNode::hash]. *)
Definition inode_hash (n : inode) : res jerr bytes :=
  rbind (gen_bitmaps (in_children n)) (fun bm => merkle_hash (in_children n) 4 0 bm).

(** node_type.rs 837-844, [Node::hash]; 816-825, [Node::node_type]
    (unreachable for null); 828-834, [Node::leaf_count]. *)
Definition node_hash (nd : node) : res jerr bytes :=
  match nd with
  | NNull => Ok placeholder
  | NLeaf k vh => Ok (sm_leaf k vh)
  | NInternal n => inode_hash n
  end.
Definition node_type (nd : node) : res jerr ntype :=
  match nd with
  | NNull => Panic
  | NLeaf _ _ => Ok TLeaf
  | NInternal n => Ok (inode_type n)
  end.
Definition node_leaf_count (nd : node) : option N :=
  match nd with NNull => Some 0 | NLeaf _ _ => Some 1 | NInternal n => in_count n end.
Definition is_leaf (nd : node) : bool := match nd with NLeaf _ _ => true | _ => false end.

(** node_type.rs 640-662, the two half starts (in [u8]). *)
Definition child_half_start (n : nib) (h : nat) : N :=
  N.land (N.land (N.shiftl 255 (N.of_nat h)) 255) (nib_val n).
Definition sibling_half_start (n : nib) (h : nat) : N :=
  N.lxor (child_half_start n h) (N.shiftl 1 (N.of_nat h)).

(** node_type.rs 549-593, [get_child_without_siblings]: heights 3 down to 0;
    [h] counts the heights left. *)
Fixpoint child_without (cs : children) (bm : N * N) (nk : nkey) (n : nib) (h : nat)
  : res jerr (option nkey) :=
  match h with
  | O => Panic
  | S h' =>
      rbind (range_bitmaps (child_half_start n h') h' bm) (fun r =>
      if fst r =? 0 then Ok None
      else if (h' =? 0)%nat || ((count_ones (fst r) =? 1)%nat && negb (snd r =? 0))
      then rbind (only_child cs (fst r)) (fun ic =>
             Ok (Some (child_key nk (c_ver (snd ic)) (fst ic))))
      else child_without cs bm nk n h')
  end.
Definition get_child_without_siblings (n : inode) (nk : nkey) (i : nib)
  : res jerr (option nkey) :=
  rbind (gen_bitmaps (in_children n)) (fun bm => child_without (in_children n) bm nk i 4).

(** node_type.rs 613-634, [get_child_with_siblings]. *)
Fixpoint child_with (cs : children) (bm : N * N) (nk : nkey) (n : nib) (h : nat)
    (sibs : list bytes) : res jerr (option nkey * list bytes) :=
  match h with
  | O => Panic
  | S h' =>
      rbind (merkle_hash cs h' (sibling_half_start n h') bm) (fun s =>
      let sibs := sibs ++ [s] in
      rbind (range_bitmaps (child_half_start n h') h' bm) (fun r =>
      if fst r =? 0 then Ok (None, sibs)
      else if (h' =? 0)%nat || ((count_ones (fst r) =? 1)%nat && negb (snd r =? 0))
      then rbind (only_child cs (fst r)) (fun ic =>
             Ok (Some (child_key nk (c_ver (snd ic)) (fst ic)), sibs))
      else child_with cs bm nk n h' sibs))
  end.
Definition get_child_with_siblings (n : inode) (nk : nkey) (i : nib)
  : res jerr (option nkey * list bytes) :=
  rbind (gen_bitmaps (in_children n)) (fun bm => child_with (in_children n) bm nk i 4 []).

(** ** The store *)

(** mock.rs 31-38 and 45-49, without the preimage table. *)
Record store := Store {
  st_nodes : gmap nkey node;
  st_stale : gset (N * nkey);
  st_hist : gmap bytes (list (N * option bytes));
  st_overwrite : bool
}.
Definition empty_store : store := Store ∅ ∅ ∅ false.

(** mock.rs 86-88 and reader.rs 14-17. *)
Definition st_get_node (s : store) (nk : nkey) : res jerr node :=
  match st_nodes s !! nk with Some nd => Ok nd | None => Err (MissingNode nk) end.

(** mock.rs 107-123, [get_value_option]: the last entry with a version at
    most [max]. *)
Fixpoint hist_find (l : list (N * option bytes)) (max : N) : option bytes :=
  match l with
  | [] => None
  | (v, x) :: l' => if v <=? max then x else hist_find l' max
  end.
Definition st_get_value_option (s : store) (max : N) (k : bytes) : option bytes :=
  match st_hist s !! k with Some h => hist_find (rev h) max | None => None end.
(** reader.rs 23-32. *)
Definition st_get_value (s : store) (max : N) (k : bytes) : res jerr bytes :=
  match st_get_value_option s max k with
  | Some x => Ok x | None => Err (MissingValue max k) end.

(** ** The tree cache *)

(** writer.rs 82-88. *)
Record stats := Stats { s_new_nodes : N; s_new_leaves : N; s_stale_nodes : N; s_stale_leaves : N }.

(** tree_cache.rs 88-103 and 118-147; the values of the frozen batch and the
    current ones are kept apart as in the code. *)
Record cache := Cache {
  tc_root : nkey;
  tc_next : N;
  tc_nodes : gmap nkey node;
  tc_values : gmap (N * bytes) (option bytes);
  tc_new_leaves : N;
  tc_stale : gset nkey;
  tc_stale_leaves : N;
  fz_nodes : gmap nkey node;
  fz_values : gmap (N * bytes) (option bytes);
  fz_stale : gset (N * nkey);
  fz_stats : list stats;
  fz_roots : list bytes;
  tc_store : store
}.

(** tree_cache.rs 154-189, [TreeCache::new]. *)
Definition cache_new (s : store) (next : N) : cache :=
  let mk root nodes :=
    Cache root next nodes ∅ 0 ∅ 0 ∅ ∅ ∅ [] [] s in
  if next =? 0 then
    match st_nodes s !! (pre_genesis, []) with
    | Some _ => mk (pre_genesis, []) ∅
    | None => mk (0, []) {[ (0, []) := NNull ]}
    end
  else mk (next - 1, []) ∅.

(** tree_cache.rs 204-212, [get_node_option] (a reader of this store never
    errs), and 192-200, [get_node]. *)
Definition tc_get_option (tc : cache) (nk : nkey) : option node :=
  match tc_nodes tc !! nk with
  | Some nd => Some nd
  | None => match fz_nodes tc !! nk with
            | Some nd => Some nd
            | None => st_nodes (tc_store tc) !! nk
            end
  end.
Definition tc_get (tc : cache) (nk : nkey) : res jerr node :=
  match tc_get_option tc nk with Some nd => Ok nd | None => Err (MissingNode nk) end.

(** tree_cache.rs 220-222. *)
Definition tc_set_root (tc : cache) (nk : nkey) : cache :=
  Cache nk (tc_next tc) (tc_nodes tc) (tc_values tc) (tc_new_leaves tc) (tc_stale tc)
    (tc_stale_leaves tc) (fz_nodes tc) (fz_values tc) (fz_stale tc) (fz_stats tc)
    (fz_roots tc) (tc_store tc).

(** tree_cache.rs 225-236, [put_node]. *)
Definition tc_put (tc : cache) (nk : nkey) (nd : node) : res jerr cache :=
  match tc_nodes tc !! nk with
  | Some _ => Err (NodeExists nk)
  | None =>
      Ok (Cache (tc_root tc) (tc_next tc) (<[nk := nd]> (tc_nodes tc)) (tc_values tc)
            (if is_leaf nd then tc_new_leaves tc + 1 else tc_new_leaves tc) (tc_stale tc)
            (tc_stale_leaves tc) (fz_nodes tc) (fz_values tc) (fz_stale tc) (fz_stats tc)
            (fz_roots tc) (tc_store tc))
  end.

(** tree_cache.rs 238-240, [put_value]. *)
Definition tc_put_value (tc : cache) (v : N) (k : bytes) (x : option bytes) : cache :=
  Cache (tc_root tc) (tc_next tc) (tc_nodes tc) (<[(v, k) := x]> (tc_values tc))
    (tc_new_leaves tc) (tc_stale tc) (tc_stale_leaves tc) (fz_nodes tc) (fz_values tc)
    (fz_stale tc) (fz_stats tc) (fz_roots tc) (tc_store tc).

(** tree_cache.rs 243-255, [delete_node]. *)
Definition tc_delete (tc : cache) (nk : nkey) (leaf : bool) : res jerr cache :=
  match tc_nodes tc !! nk with
  | None =>
      if decide (nk ∈ tc_stale tc) then Panic
      else
        Ok (Cache (tc_root tc) (tc_next tc) (tc_nodes tc) (tc_values tc)
              (tc_new_leaves tc) ({[nk]} ∪ tc_stale tc)
              (if leaf then tc_stale_leaves tc + 1 else tc_stale_leaves tc)
              (fz_nodes tc) (fz_values tc) (fz_stale tc) (fz_stats tc) (fz_roots tc)
              (tc_store tc))
  | Some _ =>
      if leaf && (tc_new_leaves tc =? 0) then Panic
      else
        Ok (Cache (tc_root tc) (tc_next tc) (delete nk (tc_nodes tc)) (tc_values tc)
              (if leaf then tc_new_leaves tc - 1 else tc_new_leaves tc) (tc_stale tc)
              (tc_stale_leaves tc) (fz_nodes tc) (fz_values tc) (fz_stale tc) (fz_stats tc)
              (fz_roots tc) (tc_store tc))
  end.

(** tree_cache.rs 258-325, [freeze]. *)
Definition tc_freeze (tc : cache) : res jerr cache :=
  rbind (match tc_get_option tc (tc_root tc) with
         | Some nd => Ok (nd, tc)
         | None => rbind (tc_put tc (tc_root tc) NNull) (fun tc => Ok (NNull, tc))
         end) (fun '(root_node, tc) =>
  rbind (node_hash root_node) (fun root_hash =>
  rbind (if (0 <? tc_next tc) && bool_decide (tc_nodes tc = ∅) && bool_decide (tc_stale tc = ∅)
         then rbind (tc_get tc (tc_root tc)) (fun nd =>
                tc_put tc (tc_next tc, snd (tc_root tc)) nd)
         else Ok tc) (fun tc =>
  if tc_next tc =? u64_max then Panic
  else
    Ok (Cache (tc_root tc) (tc_next tc + 1) ∅ ∅ 0 ∅ 0
          (tc_nodes tc ∪ fz_nodes tc)
          (tc_values tc ∪ fz_values tc)
          (set_map (fun nk => (tc_next tc, nk)) (tc_stale tc) ∪ fz_stale tc)
          (fz_stats tc ++
             [Stats (N.of_nat (size (tc_nodes tc))) (tc_new_leaves tc)
                (N.of_nat (size (tc_stale tc))) (tc_stale_leaves tc)])
          (fz_roots tc ++ [root_hash])
          (tc_store tc))))).

(** ** Updates *)

(** tree.rs 1256-1263, [PutResult]. *)
Inductive put_result := Updated (nk : nkey) (nd : node) | Removed | NotChanged.

(** tree.rs 818-839, [create_leaf_node]; the iterator is given by the nibbles
    it has visited and those left. *)
Definition create_leaf (nk : nkey) (visited rest : list nib) (vh : bytes) (tc : cache)
  : res jerr (nkey * node * cache) :=
  let k := pack (visited ++ rest) in
  if (length k =? 32)%nat then
    rbind (tc_put tc nk (NLeaf k vh)) (fun tc => Ok (nk, NLeaf k vh, tc))
  else Panic.

(** tree.rs 786-808: the loop building single-child internal nodes bottom-up;
    [n] iterations left, [p] is [common_nibble_path]. *)
Fixpoint chain (n : nat) (v : N) (p : path) (nk : nkey) (nd : inode) (tc : cache)
  : res jerr (nkey * inode * cache) :=
  match n with
  | O => Ok (nk, nd, tc)
  | S n' =>
      match unsnoc p with
      | None => Panic
      | Some (p', i) =>
          rbind (inode_hash nd) (fun h =>
          rbind (inode_new {[ i := Child h v (inode_type nd) ]}) (fun nd' =>
          rbind (tc_put tc (v, p') (NInternal nd')) (fun tc =>
          chain n' v p' (v, p') nd' tc)))
      end
  end.

(** tree.rs 696-815, [insert_at_leaf_node]. *)
Definition insert_at_leaf (nk : nkey) (k0 vh0 : bytes) (v : N) (visited rest : list nib)
    (value : option bytes) (tc : cache) : res jerr (put_result * cache) :=
  let '(_, vis_left, ex_left) := skip_common visited (nibs k0) in
  match vis_left with
  | _ :: _ => Panic
  | [] =>
    let '(n_common, new_left, ex_below) := skip_common rest ex_left in
    let common := visited ++ take n_common rest in
    match new_left with
    | [] =>
        match ex_below with
        | _ :: _ => Panic
        | [] =>
            rbind (tc_delete tc nk true) (fun tc =>
            match value with
            | Some vh =>
                rbind (create_leaf (v, snd nk) common [] vh tc) (fun '(nk', nd, tc) =>
                Ok (Updated nk' nd, tc))
            | None => Ok (Removed, tc)
            end)
        end
    | new_ix :: new_left' =>
        match value with
        | None => Ok (NotChanged, tc)
        | Some vh =>
            rbind (tc_delete tc nk true) (fun tc =>
            match ex_below with
            | [] => Panic
            | ex_ix :: _ =>
                if decide (ex_ix = new_ix) then Panic
                else
                  let nk' := (v, common) in
                  rbind (tc_put tc (child_key nk' v ex_ix) (NLeaf k0 vh0)) (fun tc =>
                  rbind (create_leaf (child_key nk' v new_ix) (common ++ [new_ix]) new_left' vh tc)
                    (fun '(_, new_nd, tc) =>
                  rbind (node_hash new_nd) (fun new_h =>
                  let cs : children :=
                    <[new_ix := Child new_h v TLeaf]>
                      {[ ex_ix := Child (sm_leaf k0 vh0) v TLeaf ]} in
                  rbind (inode_new cs) (fun nd =>
                  rbind (tc_put tc nk' (NInternal nd)) (fun tc =>
                  rbind (chain n_common v common nk' nd tc) (fun '(nk'', nd', tc) =>
                  Ok (Updated nk'' (NInternal nd'), tc)))))))
            end)
        end
    end
  end.

(** tree.rs 643-690: the part of [insert_at_internal_node] after the
    recursive call. *)
Definition finish_internal (nk : nkey) (n : inode) (i : nib) (v : N) (r : put_result)
    (tc : cache) : res jerr (put_result * cache) :=
  match r with
  | NotChanged => Ok (NotChanged, tc)
  | _ =>
      rbind (match r with
             | Updated _ nd =>
                 rbind (node_hash nd) (fun h =>
                 rbind (node_type nd) (fun t =>
                 Ok (<[i := Child h v t]> (in_children n))))
             | _ => Ok (delete i (in_children n))
             end) (fun cs =>
      rbind (tc_delete tc nk false) (fun tc =>
      let store_internal :=
        rbind (inode_new cs) (fun nd =>
        rbind (tc_put tc (v, snd nk) (NInternal nd)) (fun tc =>
        Ok (Updated (v, snd nk) (NInternal nd), tc))) in
      match children_sorted cs with
      | [] => Ok (Removed, tc)
      | [(j, c)] =>
          if child_is_leaf c then
            let ck := child_key nk (c_ver c) j in
            rbind (tc_get tc ck) (fun child_nd =>
            rbind (tc_delete tc ck true) (fun tc =>
            rbind (tc_put tc (v, snd nk) child_nd) (fun tc =>
            Ok (Updated (v, snd nk) child_nd, tc))))
          else store_internal
      | _ => store_internal
      end))
  end.

(** tree.rs 543-602, [insert_at], and 607-641, the first half of
    [insert_at_internal_node].  The iterator over the key is [visited] and
    [rest]. *)
Fixpoint insert_at (rest : list nib) (nk : nkey) (v : N) (visited : list nib)
    (value : option bytes) (tc : cache) {struct rest} : res jerr (put_result * cache) :=
  let '(nd, found) :=
    match tc_get_option tc nk with Some nd => (nd, true) | None => (NNull, false) end in
  match nd with
  | NInternal n =>
      match rest with
      | [] => Panic
      | i :: rest' =>
          rbind (match in_children n !! i with
                 | Some c =>
                     insert_at rest' (child_key nk (c_ver c) i) v (visited ++ [i]) value tc
                 | None =>
                     match value with
                     | Some vh =>
                         rbind (create_leaf (child_key nk v i) (visited ++ [i]) rest' vh tc)
                           (fun '(nk', nd, tc) => Ok (Updated nk' nd, tc))
                     | None => Ok (NotChanged, tc)
                     end
                 end) (fun '(r, tc) => finish_internal nk n i v r tc)
      end
  | NLeaf k0 vh0 => insert_at_leaf nk k0 vh0 v visited rest value tc
  | NNull =>
      match snd nk with
      | _ :: _ => Err (NullNonRoot nk)
      | [] =>
          rbind (if (fst nk =? v) && found then tc_delete tc nk false else Ok tc) (fun tc =>
          match value with
          | Some vh =>
              rbind (create_leaf (v, []) visited rest vh tc) (fun '(nk', nd, tc) =>
              Ok (Updated nk' nd, tc))
          | None => Ok (NotChanged, tc)
          end)
      end
  end.

(** tree.rs 504-538, [put]. *)
Definition put (k : bytes) (value : option bytes) (v : N) (tc : cache) : res jerr cache :=
  rbind (insert_at (nibs k) (tc_root tc) v [] value tc) (fun '(r, tc) =>
  match r with
  | Updated nk _ => Ok (tc_set_root tc nk)
  | NotChanged => Ok tc
  | Removed => tc_put (tc_set_root tc (v, [])) (v, []) NNull
  end).

(** tree.rs 480-497: the puts of one value set, then [freeze]. *)
Definition put_one (v : N) (tc : cache) (k : bytes) (x : option bytes) : res jerr cache :=
  put k (match x with Some y => Some (hv y) | None => None end) v (tc_put_value tc v k x).
Fixpoint put_set (v : N) (kvs : list (bytes * option bytes)) (tc : cache) : res jerr cache :=
  match kvs with
  | [] => Ok tc
  | (k, x) :: kvs' => rbind (put_one v tc k x) (put_set v kvs')
  end.
(** tree.rs 479-499: the loop over value sets; [first_version + idx] may
    overflow. *)
Fixpoint put_sets (v : N) (sets : list (list (bytes * option bytes))) (tc : cache)
  : res jerr cache :=
  match sets with
  | [] => Ok tc
  | kvs :: sets' =>
      if u64_max <? v then Panic
      else rbind (put_set v kvs tc) (fun tc =>
           rbind (tc_freeze tc) (put_sets (v + 1) sets'))
  end.

(** writer.rs 107-114 with 28-31, [TreeUpdateBatch]. *)
Record batch := Batch {
  b_nodes : gmap nkey node;
  b_values : gmap (N * bytes) (option bytes);
  b_stale : gset (N * nkey);
  b_stats : list stats
}.
(** tree_cache.rs 328-342. *)
Definition batch_of (tc : cache) : list bytes * batch :=
  (fz_roots tc, Batch (fz_nodes tc) (fz_values tc) (fz_stale tc) (fz_stats tc)).

(** tree.rs 474-502, [put_value_sets], and 419-431, [put_value_set]. *)
Definition put_value_sets (s : store) (sets : list (list (bytes * option bytes))) (first : N)
  : res jerr (list bytes * batch) :=
  rbind (put_sets first sets (cache_new s first)) (fun tc => Ok (batch_of tc)).
Definition put_value_set (s : store) (kvs : list (bytes * option bytes)) (v : N)
  : res jerr (bytes * batch) :=
  rbind (put_value_sets s [kvs] v) (fun '(roots, b) =>
  match roots with [r] => Ok (r, b) | _ => Panic end).

(** ** Writing a batch *)

(** mock.rs 153-180, [put_value]. *)
Definition hist_put (h : option (list (N * option bytes))) (v : N) (x : option bytes)
  : res jerr (list (N * option bytes)) :=
  match h with
  | None => Ok [(v, x)]
  | Some l =>
      match unsnoc l with
      | None => Ok [(v, x)]
      | Some (init, (lv, _)) =>
          if v <? lv then Err ValuesOutOfOrder
          else if v =? lv then Ok (init ++ [(lv, x)])
          else Ok (l ++ [(v, x)])
      end
  end.
Fixpoint hist_puts (vals : list (N * bytes * option bytes))
    (h : gmap bytes (list (N * option bytes))) : res jerr (gmap bytes (list (N * option bytes))) :=
  match vals with
  | [] => Ok h
  | ((v, k), x) :: vals' =>
      rbind (hist_put (h !! k) v x) (fun l => hist_puts vals' (<[k := l]> h))
  end.

(** The values of a batch in the order of the [BTreeMap]: by version; the
    order of different keys at one version does not matter and is not
    modelled. *)
Definition le_ver (a b : N * bytes * option bytes) : Prop := fst (fst a) <= fst (fst b).
Global Instance le_ver_dec : RelDecision le_ver.
Proof. intros a b. unfold le_ver. apply _. Defined.
Definition values_sorted (m : gmap (N * bytes) (option bytes)) : list (N * bytes * option bytes) :=
  merge_sort le_ver (map_to_list m).

(** mock.rs 133-150, [write_node_batch]; a panic or error leaves the store
    half written in Rust, here it yields no store. *)
Definition write_node_batch (s : store) (nodes : gmap nkey node)
    (values : gmap (N * bytes) (option bytes)) : res jerr store :=
  if negb (st_overwrite s) && negb (bool_decide (nodes ##ₘ st_nodes s)) then Panic
  else
    rbind (hist_puts (values_sorted values) (st_hist s)) (fun h =>
    Ok (Store (nodes ∪ st_nodes s) (st_stale s) h (st_overwrite s))).

(** mock.rs 217-225, [write_tree_update_batch]. *)
Definition write_batch (s : store) (b : batch) : res jerr store :=
  rbind (write_node_batch s (b_nodes b) (b_values b)) (fun s =>
  if bool_decide (b_stale b ## st_stale s)
  then Ok (Store (st_nodes s) (b_stale b ∪ st_stale s) (st_hist s) (st_overwrite s))
  else Err DuplicateStale).

(** mock.rs 227-246, [purge_stale_nodes].  The records are sorted by version
    first, so [take_while] is a filter; an error leaves the store half purged
    in Rust, here it yields no store. *)
Definition purge (s : store) (least : N) : res jerr store :=
  let logs := filter (fun l : N * nkey => (fst l <= least)%N) (st_stale s) in
  if bool_decide (set_Forall (fun l : N * nkey => is_Some (st_nodes s !! snd l)) logs)
     && (size (set_map (C := gset (N * nkey)) (D := gset nkey) snd logs) =? size logs)%nat
  then Ok (Store (filter (fun kv : nkey * node => fst kv ∉ set_map (C := gset (N * nkey)) (D := gset nkey) snd logs) (st_nodes s))
             (st_stale s ∖ logs) (st_hist s) (st_overwrite s))
  else Err StaleMissing.

(** ** Reads *)

(** types/proof/definition.rs 17-39. *)
Record proof := Proof { p_leaf : option (bytes * bytes); p_siblings : list bytes }.

(** tree.rs 842-913, [get_with_proof].  The loop runs at most 65 times and
    every round but the last takes a nibble, so the recursion is on the nibbles
    left; [depth0] tells the first round. *)
Fixpoint gwp (s : store) (v : N) (k : bytes) (rest : list nib) (nk : nkey) (depth0 : bool)
    (sibs : list bytes) {struct rest} : res jerr (option bytes * proof) :=
  match st_nodes s !! nk with
  | None => Err (if depth0 then MissingRoot v else MissingNode nk)
  | Some (NInternal n) =>
      match rest with
      | [] => Err RanOutOfNibbles
      | i :: rest' =>
          rbind (get_child_with_siblings n nk i) (fun '(ck, more) =>
          let sibs := sibs ++ more in
          match ck with
          | Some nk' => gwp s v k rest' nk' false sibs
          | None => Ok (None, Proof None (rev sibs))
          end)
      end
  | Some (NLeaf k0 vh0) =>
      rbind (if decide (k0 = k) then rbind (st_get_value s v k0) (fun x => Ok (Some x))
             else Ok None) (fun x =>
      Ok (x, Proof (Some (k0, vh0)) (rev sibs)))
  | Some NNull => if depth0 then Ok (None, Proof None []) else Err (NullNonRoot nk)
  end.
Definition get_with_proof (s : store) (k : bytes) (v : N) : res jerr (option bytes * proof) :=
  gwp s v k (nibs k) (v, []) true [].

(** tree.rs 68-70, [VersionedTrie::get]; trie.rs 18-20, [contains]. *)
Definition trie_get (s : store) (k : bytes) (v : N) : option bytes := st_get_value_option s v k.
Definition trie_contains (s : store) (k : bytes) (v : N) : bool :=
  match trie_get s k v with Some _ => true | None => false end.
(** tree.rs 72-74, [get_proof]. *)
Definition get_proof (s : store) (k : bytes) (v : N) : res jerr proof :=
  rbind (get_with_proof s k v) (fun r => Ok (snd r)).

(** tree.rs 1225-1243, [get_root_hash_option] and [get_root_hash]; the missing
    root is the plain error of [get_root_node]. *)
Definition get_root_hash_option (s : store) (v : N) : res jerr (option bytes) :=
  match st_nodes s !! (v, []) with
  | None => Ok None
  | Some nd => rbind (node_hash nd) (fun h => Ok (Some h))
  end.
Definition get_root_hash (s : store) (v : N) : res jerr bytes :=
  match st_nodes s !! (v, []) with
  | None => Err (MissingRoot v)
  | Some nd => node_hash nd
  end.
(** tree.rs 1246-1256, [get_leaf_count] of a tree made by [new]. *)
Definition get_leaf_count (s : store) (v : N) : res jerr (option N) :=
  match st_nodes s !! (v, []) with
  | None => Err (MissingRoot v)
  | Some nd => Ok (node_leaf_count nd)
  end.

(** ** Proof verification *)

(** The fold of definition.rs 155-173 and 195-210: siblings from the bottom,
    zipped with the key bits from number [len-1] down. *)
Fixpoint fold_siblings (cur : bytes) (sibs : list bytes) (bits_down : list bool) : bytes :=
  match sibs, bits_down with
  | s :: sibs', b :: bits' =>
      fold_siblings (if b : bool then sm_internal s cur else sm_internal cur s) sibs' bits'
  | _, _ => cur
  end.
Definition proof_leaf_hash (p : proof) : bytes :=
  match p_leaf p with Some (k, vh) => sm_leaf k vh | None => placeholder end.

(** definition.rs 98-183, [verify]. *)
Definition verify (p : proof) (root k : bytes) (value : option bytes) : res jerr unit :=
  if (256 <? length (p_siblings p))%nat then Err TooManySiblings
  else
    rbind (match value, p_leaf p with
           | Some x, Some (lk, lvh) =>
               if decide (k = lk) then
                 if decide (hv x = lvh) then Ok tt else Err ValueMismatch
               else Err KeyMismatch
           | Some _, None => Err NotInclusion
           | None, Some (lk, _) =>
               if decide (k = lk) then Err KeyPresent
               else if (length (p_siblings p) <=? common_prefix_bits_len k lk)%nat
               then Ok tt else Err NotSameSubtree
           | None, None => Ok tt
           end) (fun _ =>
    let actual :=
      fold_siblings (proof_leaf_hash p) (p_siblings p)
        (drop (256 - length (p_siblings p)) (rev (iter_bits k))) in
    if decide (actual = root) then Ok tt else Err RootMismatch).

(** definition.rs 185-211, [root_hash]; without a leaf the [expect] panics,
    with more than 256 siblings the subtraction does. *)
Definition root_hash (p : proof) : res jerr bytes :=
  match p_leaf p with
  | None => Panic
  | Some (lk, _) =>
      if (256 <? length (p_siblings p))%nat then Panic
      else
        Ok (fold_siblings (proof_leaf_hash p) (p_siblings p)
              (drop (256 - length (p_siblings p)) (rev (iter_bits lk))))
  end.

(** definition.rs 264-309, [SparseMerkleRangeProof::verify]: the bits of the
    last leaf's key upwards, taking siblings from the left or right list. *)
Fixpoint range_fold (cur : bytes) (bits_down : list bool) (left right : list bytes)
  : res jerr bytes :=
  match bits_down with
  | [] => Ok cur
  | true :: bits' =>
      match left with
      | [] => Err MissingLeft
      | s :: left' => range_fold (sm_internal s cur) bits' left' right
      end
  | false :: bits' =>
      match right with
      | [] => Err MissingRight
      | s :: right' => range_fold (sm_internal cur s) bits' left right'
      end
  end.
Definition range_verify (right : list bytes) (root : bytes) (leaf : bytes * bytes)
    (left : list bytes) : res jerr unit :=
  let n := (length left + length right)%nat in
  if (256 <? n)%nat then Panic
  else
    rbind (range_fold (sm_leaf (fst leaf) (snd leaf))
             (drop (256 - n) (rev (iter_bits (fst leaf)))) left right) (fun h =>
    if decide (h = root) then Ok tt else Err RootMismatch).

(** tree.rs 76-86, [VersionedTrie::verify_proof]: looks the value up first. *)
Definition verify_proof (s : store) (k : bytes) (v : N) (root : bytes) (p : proof)
  : res jerr unit :=
  rbind (get_with_proof s k v) (fun '(x, _) => verify p root k x).

(** tree.rs 1199-1223, [get_range_proof]: the siblings, top-down, where the
    key's bit is 0, again bottom-up. *)
Fixpoint right_siblings (sibs_down : list bytes) (bits : list bool) : list bytes :=
  match sibs_down, bits with
  | s :: sibs', b :: bits' =>
      if b : bool then right_siblings sibs' bits' else s :: right_siblings sibs' bits'
  | _, _ => []
  end.
Definition get_range_proof (s : store) (k : bytes) (v : N) : res jerr (list bytes) :=
  rbind (get_with_proof s k v) (fun '(x, p) =>
  match x with
  | None => Err KeyNotFound
  | Some _ => Ok (rev (right_siblings (rev (p_siblings p)) (iter_bits k)))
  end).

(** ** Store-wide queries (db.rs) *)

(** db.rs 159-165, [len]; 213-215, [is_empty]; 168-179, [version]. *)
Definition hist_live (h : list (N * option bytes)) : bool :=
  match last h with Some (_, Some _) => true | _ => false end.
Definition db_len (s : store) : nat :=
  size (filter (fun kv : bytes * list (N * option bytes) => hist_live (snd kv) = true) (st_hist s)).
Definition db_is_empty (s : store) : bool := (db_len s =? 0)%nat.
Definition db_version (s : store) : N :=
  map_fold (fun _ h acc => fold_left (fun a (e : N * option bytes) => if a <? fst e then fst e else a) h acc)
    0 (st_hist s).

End JMT.
