(** Model of the leaf iterator: /repo/jmt/src/iterator.rs.

    Simplifications: the reader is the in-memory store of JmtModel.v; [usize]
    counters are unbounded numbers; the text of error messages is dropped.
    The stack is a list with its last element first. *)
From Verif Require Import Base JmtNibModel JmtModel.
Local Open Scope N_scope.

(** [leading_zeros] of a [u16]. *)
Definition leading_zeros (x : N) : N :=
  match last (u16_bits x) with Some i => 15 - i | None => 16 end.
(** [x <<= 1] on a [u16]. *)
Definition shl1 (x : N) : N := N.land (N.shiftl x 1) 65535.

(** The derived order of [KeyHash] (lib.rs 168-182): byte arrays compared
    lexicographically. *)
Fixpoint key_ltb (k l : bytes) : bool :=
  match k, l with
  | [], [] => false
  | [], _ :: _ => true
  | _ :: _, [] => false
  | a :: k', b :: l' =>
      if Byte.to_N a <? Byte.to_N b then true
      else if Byte.to_N b <? Byte.to_N a then false
      else key_ltb k' l'
  end.

(** iterator.rs 27-42. *)
Record visit := Visit { vi_key : nkey; vi_node : inode; vi_bitmap : N; vi_next : N }.

(** iterator.rs 47-56, [NodeVisitInfo::new]. *)
Definition visit_new (nk : nkey) (n : inode) : res jerr visit :=
  rbind (gen_bitmaps (in_children n)) (fun bm =>
  if fst bm =? 0 then Panic
  else Ok (Visit nk n (fst bm) (N.shiftl 1 (trailing_zeros (fst bm))))).

(** iterator.rs 70-72 and 89-91: shift left until a child is met.  A bit
    shifted out leaves zero and the loop never ends. *)
Fixpoint seek (fuel : nat) (bm next : N) : res jerr N :=
  if N.land next bm =? 0 then
    match fuel with O => OutOfFuel | S f => seek f bm (shl1 next) end
  else Ok next.

(** iterator.rs 61-79, [new_next_child_to_visit]. *)
Definition visit_at (nk : nkey) (n : inode) (i : nib) : res jerr visit :=
  rbind (gen_bitmaps (in_children n)) (fun bm =>
  let next := N.shiftl 1 (nib_val i) in
  if fst bm <? next then Panic
  else rbind (seek 16 (fst bm) next) (fun next => Ok (Visit nk n (fst bm) next))).

(** iterator.rs 82-85, [is_rightmost]. *)
Definition is_rightmost (vi : visit) : res jerr bool :=
  if leading_zeros (vi_next vi) <? leading_zeros (vi_bitmap vi) then Panic
  else Ok (leading_zeros (vi_next vi) =? leading_zeros (vi_bitmap vi)).
(** iterator.rs 88-94, [advance]. *)
Definition advance (vi : visit) : res jerr visit :=
  rbind (is_rightmost vi) (fun r : bool =>
  if r then Panic
  else rbind (seek 16 (vi_bitmap vi) (shl1 (vi_next vi))) (fun next =>
       Ok (Visit (vi_key vi) (vi_node vi) (vi_bitmap vi) next))).

(** iterator.rs 104-117. *)
Record iter := Iter { it_version : N; it_stack : list visit; it_done : bool }.

(** iterator.rs 192-201, [cleanup_stack]. *)
Fixpoint cleanup (st : list visit) : res jerr (list visit) :=
  match st with
  | [] => Ok []
  | vi :: st' =>
      rbind (is_rightmost vi) (fun r : bool =>
      if r then cleanup st' else rbind (advance vi) (fun vi => Ok (vi :: st')))
  end.

(** iterator.rs 126-190, [new]: [rest] are the nibbles left of the starting
    key, [nk] the current node key. *)
Fixpoint it_descend (s : store) (v : N) (start : bytes) (rest : path) (nk : nkey)
    (st : list visit) : res jerr iter :=
  rbind (st_get_node s nk) (fun nd =>
  match nd with
  | NInternal n =>
      match rest with
      | [] => Panic
      | i :: rest' =>
          match in_children n !! i with
          | Some c =>
              rbind (visit_at nk n i) (fun vi =>
              it_descend s v start rest' (child_key nk (c_ver c) i) (vi :: st))
          | None =>
              rbind (gen_bitmaps (in_children n)) (fun bm =>
              if 15 <? leading_zeros (fst bm) then Panic
              else if nib_val i <? 15 - leading_zeros (fst bm)
              then rbind (visit_at nk n i) (fun vi => Ok (Iter v (vi :: st) false))
              else rbind (cleanup st) (fun st => Ok (Iter v st false)))
          end
      end
  | NLeaf k _ =>
      if key_ltb k start
      then rbind (cleanup st) (fun st =>
             Ok (Iter v st (match st with [] => true | _ => false end)))
      else Ok (Iter v st false)
  | NNull => Ok (Iter v st true)
  end).
Definition iter_new (s : store) (v : N) (start : bytes) : res jerr iter :=
  it_descend s v start (nibs start) (v, []) [].

(** iterator.rs 259-275, [skip_leaves]. *)
Fixpoint skip_leaves (l : list (nib * child)) (skipped idx : N) : res jerr (nib * child * N) :=
  match l with
  | [] => Err IterBug
  | (i, c) :: l' =>
      match child_leaf_count c with
      | None => Panic
      | Some n => if skipped + n <=? idx then skip_leaves l' (skipped + n) idx
                  else Ok (i, c, skipped)
      end
  end.

(** iterator.rs 223-256, the loop of [new_by_index]; [fuel] rounds, the last
    round's [get_node] included. *)
Fixpoint it_index (fuel : nat) (s : store) (v idx : N) (nk : nkey) (nd : node)
    (skipped : N) (st : list visit) : res jerr iter :=
  match fuel with
  | O => Err IterBug
  | S f =>
      match nd with
      | NNull => Panic
      | NLeaf _ _ => if skipped =? idx then Ok (Iter v st false) else Err IterBug
      | NInternal n =>
          rbind (skip_leaves (children_sorted (in_children n)) skipped idx)
            (fun '(i, c, skipped) =>
          let nk' := child_key nk (c_ver c) i in
          rbind (visit_at nk n i) (fun vi =>
          rbind (st_get_node s nk') (fun nd' =>
          it_index f s v idx nk' nd' skipped (vi :: st))))
      end
  end.
(** iterator.rs 206-257, [new_by_index]; [ROOT_NIBBLE_HEIGHT] is 64
    (types/nibble.rs 19). *)
Definition iter_new_by_index (s : store) (v idx : N) : res jerr iter :=
  rbind (st_get_node s (v, [])) (fun nd =>
  match node_leaf_count nd with
  | None => Err LeafCountUnknown
  | Some total =>
      if total <=? idx then Ok (Iter v [] true)
      else it_index 65 s v idx (v, []) nd 0 []
  end).

(** iterator.rs 316-352, the loop of [next]; [fuel] rounds.  An item is a pair
    or an error; the iterator is kept after an error. *)
Fixpoint it_loop (fuel : nat) (s : store) (v : N) (st : list visit)
  : res jerr (option (bytes * bytes + jerr) * iter) :=
  match fuel with
  | O => OutOfFuel
  | S f =>
      match st with
      | [] => Panic
      | vi :: st' =>
          match nib_of (trailing_zeros (vi_next vi)) with
          | None => Panic
          | Some i =>
              match in_children (vi_node vi) !! i with
              | None => Panic
              | Some c =>
                  let nk := child_key (vi_key vi) (c_ver c) i in
                  match st_nodes s !! nk with
                  | None => Ok (Some (inr (MissingNode nk)), Iter v st false)
                  | Some (NInternal n) =>
                      rbind (visit_new nk n) (fun vi' => it_loop f s v (vi' :: st))
                  | Some (NLeaf k _) =>
                      match st_get_value s (fst nk) k with
                      | Ok x => rbind (cleanup st) (fun st' => Ok (Some (inl (k, x)), Iter v st' false))
                      | Err e => Ok (Some (inr e), Iter v st false)
                      | Panic => Panic
                      | OutOfFuel => OutOfFuel
                      end
                  | Some NNull => Ok (Some (inr (NullNonRoot nk)), Iter v st false)
                  end
              end
          end
      end
  end.

(** iterator.rs 284-353, [next].  A path has at most 64 nibbles, so 65 rounds
    of the loop are enough (C36 shows that the result is never [OutOfFuel]). *)
Definition it_next (s : store) (it : iter)
  : res jerr (option (bytes * bytes + jerr) * iter) :=
  if it_done it then Ok (None, it)
  else
    match it_stack it with
    | [] =>
        match st_nodes s !! (it_version it, []) with
        | Some (NLeaf k _) =>
            let it' := Iter (it_version it) [] true in
            match st_get_value s (it_version it) k with
            | Ok x => Ok (Some (inl (k, x)), it')
            | Err e => Ok (Some (inr e), it')
            | Panic => Panic
            | OutOfFuel => OutOfFuel
            end
        | Some (NInternal _) => Ok (None, it)
        | Some NNull => Panic
        | None => Ok (Some (inr (MissingNode (it_version it, []))), it)
        end
    | st => it_loop 65 s (it_version it) st
    end.
