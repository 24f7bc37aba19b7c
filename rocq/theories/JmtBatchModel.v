(** [batch_put_value_sets]: writing a whole value set by one recursion. *)
From Verif Require Import Base JmtNibModel JmtModel JmtIterModel.
Local Open Scope N_scope.

Section Batch.
Context (sha hv : bytes -> bytes).

(** tree.rs 129-143, [get_hash]: a given hash cache has to name every path. *)
Definition get_hash (hc : option (gmap path bytes)) (nk : nkey) (nd : node) : res jerr bytes :=
  match hc with
  | Some c => match c !! snd nk with Some h => Ok h | None => Panic end
  | None => node_hash sha nd
  end.

(** [&kvs[left..=right]] (tree.rs 229, 241, 330, 339 and 394). *)
Definition slice (kvs : list (bytes * bytes)) (l r : nat) : res jerr (list (bytes * bytes)) :=
  if ((l <=? S r) && (S r <=? length kvs))%nat then Ok (take (S r - l) (drop l kvs)) else Panic.
(** [for (left, right) in NibbleRangeIterator::new(kvs, depth)] with
    [child_index = kvs[left].0.0.get_nibble(depth)] (tree.rs 216-219, 321-322 and
    388-389).  The ranges are computed before the loop instead of during it; they
    depend on [kvs] and [depth] only. *)
Definition ranges (kvs : list (bytes * bytes)) (depth : nat) : res jerr (list (nat * nat)) :=
  match nibble_ranges kvs depth with
  | Ok rs => Ok rs | Err _ => Panic | Panic => Panic | OutOfFuel => OutOfFuel end.
Fixpoint each_range {A} (step : nib -> list (bytes * bytes) -> A -> res jerr A)
    (kvs : list (bytes * bytes)) (depth : nat) (rs : list (nat * nat)) (a : A) : res jerr A :=
  match rs with
  | [] => Ok a
  | (l, r) :: rs' =>
      match kvs !! l with
      | None => Panic
      | Some (k, _) =>
          match get_nibble k depth with
          | None => Panic
          | Some i =>
              rbind (slice kvs l r) (fun sub =>
              rbind (step i sub a) (each_range step kvs depth rs'))
          end
      end
  end.
(** [children.insert(child_index, Child::new(get_hash(..), version, node_type()))]
    (tree.rs 249-256, 345-352 and 399-406). *)
Definition add_child (hc : option (gmap path bytes)) (v : N) (i : nib) (nk : nkey) (nd : node)
    (cs : children) : res jerr children :=
  rbind (get_hash hc nk nd) (fun h =>
  rbind (node_type nd) (fun t => Ok (<[i := Child h v t]> cs))).
(** [InternalNode::new_migration] and [put_node] at the end of each function
    (tree.rs 258-265, 365-369 and 408-412). *)
Definition put_internal (nk : nkey) (cs : children) (tc : cache) : res jerr (nkey * node * cache) :=
  rbind (inode_new cs) (fun nd =>
  rbind (tc_put tc nk (NInternal nd)) (fun tc => Ok (nk, NInternal nd, tc))).

(** tree.rs 373-414, [batch_create_subtree].  The recursion ends at depth 64 at
    the latest (the iterator asserts it); the fuel bounds it. *)
Fixpoint batch_create (fuel : nat) (nk : nkey) (v : N) (kvs : list (bytes * bytes)) (depth : nat)
    (hc : option (gmap path bytes)) (tc : cache) : res jerr (nkey * node * cache) :=
  match kvs with
  | [(k, vh)] => rbind (tc_put tc nk (NLeaf k vh)) (fun tc => Ok (nk, NLeaf k vh, tc))
  | _ =>
      match fuel with
      | O => OutOfFuel
      | S n =>
          rbind (ranges kvs depth) (fun rs =>
          rbind (each_range (fun i sub '(cs, tc) =>
              rbind (batch_create n (child_key nk v i) v sub (S depth) hc tc) (fun '(nk', nd, tc) =>
              rbind (add_child hc v i nk' nd cs) (fun cs => Ok (cs, tc)))) kvs depth rs (∅, tc))
            (fun '(cs, tc) => put_internal nk cs tc))
      end
  end.

(** tree.rs 301-371, [batch_create_subtree_with_existing_leaf]; the state of the
    loop is the children, [isolated_existing_leaf] and the cache. *)
Fixpoint batch_create_leaf (fuel : nat) (nk : nkey) (v : N) (k0 vh0 : bytes)
    (kvs : list (bytes * bytes)) (depth : nat) (hc : option (gmap path bytes)) (tc : cache)
  : res jerr (nkey * node * cache) :=
  let split :=
    match fuel with
    | O => OutOfFuel
    | S n =>
        match get_nibble k0 depth with
        | None => Panic
        | Some bucket =>
            rbind (ranges kvs depth) (fun rs =>
            rbind (each_range (fun i sub '(cs, alone, tc) =>
                let ck := child_key nk v i in
                rbind (if decide (bucket = i)
                       then rbind (batch_create_leaf n ck v k0 vh0 sub (S depth) hc tc) (fun r => Ok (false, r))
                       else rbind (batch_create n ck v sub (S depth) hc tc) (fun r => Ok (alone, r)))
                  (fun '(alone, (nk', nd, tc)) =>
                rbind (add_child hc v i nk' nd cs) (fun cs => Ok (cs, alone, tc))))
                kvs depth rs (∅, true, tc)) (fun '(cs, alone, tc) =>
            rbind (if (alone : bool)
                   then rbind (tc_put tc (child_key nk v bucket) (NLeaf k0 vh0)) (fun tc =>
                        Ok (<[bucket := Child (sm_leaf sha k0 vh0) v TLeaf]> cs, tc))
                   else Ok (cs, tc)) (fun '(cs, tc) =>
            put_internal nk cs tc)))
        end
    end in
  match kvs with
  | [(k, vh)] =>
      if decide (k = k0)
      then rbind (tc_put tc nk (NLeaf k0 vh)) (fun tc => Ok (nk, NLeaf k0 vh, tc))
      else split
  | _ => split
  end.

(** tree.rs 194-298, [batch_insert_at]. *)
Fixpoint batch_insert_at (fuel : nat) (nk : nkey) (v : N) (kvs : list (bytes * bytes)) (depth : nat)
    (hc : option (gmap path bytes)) (tc : cache) : res jerr (nkey * node * cache) :=
  match kvs with
  | [] => Panic
  | _ =>
      rbind (tc_get tc nk) (fun nd =>
      match nd with
      | NInternal n0 =>
          rbind (tc_delete tc nk false) (fun tc =>
          match fuel with
          | O => OutOfFuel
          | S n =>
              rbind (ranges kvs depth) (fun rs =>
              rbind (each_range (fun i sub '(cs, tc) =>
                  rbind (match in_children n0 !! i with
                         | Some c => batch_insert_at n (child_key nk (c_ver c) i) v sub (S depth) hc tc
                         | None => batch_create n (child_key nk v i) v sub (S depth) hc tc
                         end) (fun '(nk', nd, tc) =>
                  rbind (add_child hc v i nk' nd cs) (fun cs => Ok (cs, tc))))
                  kvs depth rs (in_children n0, tc)) (fun '(cs, tc) =>
              put_internal (v, snd nk) cs tc))
          end)
      | NLeaf k0 vh0 =>
          rbind (tc_delete tc nk true) (fun tc =>
          batch_create_leaf fuel (v, snd nk) v k0 vh0 kvs depth hc tc)
      | NNull =>
          match snd nk with
          | _ :: _ => Err (NullNonRoot nk)
          | [] =>
              rbind (if fst nk =? v then tc_delete tc nk false else Ok tc) (fun tc =>
              batch_create fuel (v, []) v kvs depth hc tc)
          end
      end)
  end.

(** Collecting into a [BTreeMap]: sorted by key, the last value of a key stays
    (tree.rs 166-169). *)
Fixpoint bt_insert (k x : bytes) (l : list (bytes * bytes)) : list (bytes * bytes) :=
  match l with
  | [] => [(k, x)]
  | (k', x') :: l' =>
      if key_ltb k k' then (k, x) :: l
      else if key_ltb k' k then (k', x') :: bt_insert k x l'
      else (k, x) :: l'
  end.
Definition bt_collect (kvs : list (bytes * bytes)) : list (bytes * bytes) :=
  fold_left (fun l kv => bt_insert (fst kv) (snd kv) l) kvs [].

(** tree.rs 161-185: one value set, without [freeze]. *)
Definition batch_set (v : N) (kvs : list (bytes * bytes)) (hc : option (gmap path bytes)) (tc : cache)
  : res jerr cache :=
  match kvs with
  | [] => Panic
  | _ =>
      let sorted := bt_collect kvs in
      let tc := fold_left (fun tc kv => tc_put_value tc v (fst kv) (Some (snd kv))) sorted tc in
      rbind (batch_insert_at 64 (tc_root tc) v (map (fun kv => (fst kv, hv (snd kv))) sorted) 0 hc tc)
        (fun '(nk, _, tc) => Ok (tc_set_root tc nk))
  end.
(** tree.rs 158-189: the loop; [zip_eq] panics on different lengths.  The
    emptiness of a set is asserted before [first_version + idx] is computed. *)
Fixpoint batch_sets (v : N) (sets : list (list (bytes * bytes))) (hcs : list (option (gmap path bytes)))
    (tc : cache) : res jerr cache :=
  match sets, hcs with
  | [], [] => Ok tc
  | kvs :: sets', hc :: hcs' =>
      if u64_max <? v then Panic
      else rbind (batch_set v kvs hc tc) (fun tc =>
           rbind (tc_freeze sha tc) (batch_sets (v + 1) sets' hcs'))
  | _, _ => Panic
  end.
(** tree.rs 145-192, [batch_put_value_sets]. *)
Definition batch_put_value_sets (s : store) (sets : list (list (bytes * bytes)))
    (hashes : option (list (gmap path bytes))) (first : N) : res jerr (list bytes * batch) :=
  let hcs := match hashes with Some hs => map Some hs | None => map (fun _ => None) sets end in
  rbind (batch_sets first sets hcs (cache_new s first)) (fun tc => Ok (batch_of tc)).
End Batch.
