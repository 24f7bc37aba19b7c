(** Model of the exclusion proofs: /repo/jmt/src/tree.rs 915-1196 and
    1269-1311.

    Simplifications: the reader is the in-memory store of JmtModel.v; the text
    of error messages is dropped.  A stack ([Vec] used with [push] and [pop]) is
    a list with its last element first; a nibble path popped from its end is
    kept reversed. *)
From Verif Require Import Base JmtNibModel JmtModel JmtIterModel.
Local Open Scope N_scope.

(** tree.rs 1284-1297. *)
Inductive extreme := ExLeft | ExRight.
Definition opposite (e : extreme) : extreme :=
  match e with ExLeft => ExRight | ExRight => ExLeft end.

(** [max_by_key] and [min_by_key] on nibbles. *)
Definition max_nib (l : list nib) : option nib :=
  fold_left (fun acc j => match acc with
    | Some a => if nib_val a <=? nib_val j then Some j else Some a
    | None => Some j end) l None.
Definition min_nib (l : list nib) : option nib :=
  fold_left (fun acc j => match acc with
    | Some a => if nib_val j <? nib_val a then Some j else Some a
    | None => Some j end) l None.
Definition child_nibs (n : inode) : list nib := map fst (children_sorted (in_children n)).

(** tree.rs 922-941, [neighbor_nibble]. *)
Definition neighbor_nibble (n : inode) (i : nib) (e : extreme) : option nib :=
  match e with
  | ExLeft => max_nib (filter (fun j => nib_val j < nib_val i) (child_nibs n))
  | ExRight => min_nib (filter (fun j => nib_val i < nib_val j) (child_nibs n))
  end.

(** tree.rs 1159-1165, [min_or_max]. *)
Definition min_or_max (n : inode) (e : extreme) : option nib :=
  match e with ExLeft => min_nib (child_nibs n) | ExRight => max_nib (child_nibs n) end.

(** tree.rs 1150-1196, [get_extreme_key_hash]; [fuel] rounds, [top] tells depth
    zero. *)
Fixpoint extreme_key (fuel : nat) (s : store) (v : N) (nk : nkey) (top : bool) (e : extreme)
  : res jerr bytes :=
  match fuel with
  | O => Err Cyclic
  | S f =>
      match st_nodes s !! nk with
      | None => Err (if top then MissingRoot v else MissingNode nk)
      | Some (NInternal n) =>
          match min_or_max n e with
          | None => Panic
          | Some i =>
              rbind (get_child_without_siblings n nk i) (fun ck =>
              match ck with
              | Some nk' => extreme_key f s v nk' false e
              | None => Err NoChildren
              end)
          end
      | Some (NLeaf k _) => Ok k
      | Some NNull => Err NullChild
      end
  end.

(** tree.rs 943-957, the loop of [search_closest_extreme_node]. *)
Fixpoint closest (parents : list inode) (rpath : list nib) (e : extreme) : res jerr (option path) :=
  match parents with
  | [] => Ok None
  | n :: parents' =>
      match rpath with
      | [] => Panic
      | i :: rpath' =>
          match neighbor_nibble n i e with
          | Some j => Ok (Some (rev rpath' ++ [j]))
          | None => closest parents' rpath' e
          end
      end
  end.
(** tree.rs 915-969, [search_closest_extreme_node]: the neighbour is looked up
    at the version asked for.  [ROOT_NIBBLE_HEIGHT] is 64. *)
Definition search_extreme (s : store) (v : N) (e : extreme) (p : path) (parents : list inode)
  : res jerr (option bytes) :=
  rbind (closest parents (rev p) e) (fun o =>
  match o with
  | None => Ok None
  | Some q =>
      rbind (extreme_key (65 - length q) s v (v, q) (length q =? 0)%nat (opposite e)) (fun k =>
      Ok (Some k))
  end).

(** tree.rs 1299-1311, without the comparison, which [bounding_path] makes. *)
Inductive found :=
| FoundLeaf (k : bytes) (p : path) (parents : list inode)
| FoundInternal (p : path) (parents : list inode).

(** tree.rs 972-1039, [search_for_closest_node]; every round but the last takes
    a nibble of the key. *)
Fixpoint search_node (s : store) (v : N) (rest : list nib) (nk : nkey) (visited : path)
    (parents : list inode) {struct rest} : res jerr found :=
  match st_nodes s !! nk with
  | None => Err (match visited with [] => MissingRoot v | _ => MissingNode nk end)
  | Some (NInternal n) =>
      match rest with
      | [] => Err RanOutOfNibbles
      | i :: rest' =>
          rbind (get_child_without_siblings n nk i) (fun ck =>
          match ck with
          | Some nk' => search_node s v rest' nk' (visited ++ [i]) (n :: parents)
          | None => Ok (FoundInternal (visited ++ [i]) (n :: parents))
          end)
      end
  | Some (NLeaf k _) => Ok (FoundLeaf k visited parents)
  | Some NNull => Err (match visited with [] => EmptyTree | _ => NullNonRoot nk end)
  end.

(** tree.rs 1041-1104, [get_bounding_path]. *)
Definition bounding_path (s : store) (k : bytes) (v : N) : res jerr (option bytes * option bytes) :=
  rbind (search_node s v (nibs k) (v, []) [] []) (fun r =>
  match r with
  | FoundLeaf k0 p parents =>
      if key_ltb k0 k
      then rbind (search_extreme s v ExRight p parents) (fun r => Ok (Some k0, r))
      else if key_ltb k k0
      then rbind (search_extreme s v ExLeft p parents) (fun l => Ok (l, Some k0))
      else Err FoundExact
  | FoundInternal p parents =>
      rbind (search_extreme s v ExRight p parents) (fun r =>
      rbind (search_extreme s v ExLeft p parents) (fun l => Ok (l, r)))
  end).

(** tree.rs 1269-1282. *)
Inductive exclusion :=
| ExLeftmost (leftmost_right : proof)
| ExMiddle (leftmost_right rightmost_left : proof)
| ExRightmost (rightmost_left : proof).

Section Excl.
Context (sha : bytes -> bytes).
(** tree.rs 1106-1148, [get_with_exclusion_proof]. *)
Definition get_with_exclusion_proof (s : store) (k : bytes) (v : N)
  : res jerr (bytes * proof + exclusion) :=
  rbind (get_with_proof sha s k v) (fun '(x, p) =>
  match x with
  | Some x => Ok (inl (x, p))
  | None =>
      rbind (bounding_path s k v) (fun '(l, r) =>
      match l, r with
      | Some l, Some r =>
          rbind (get_with_proof sha s l v) (fun pl =>
          rbind (get_with_proof sha s r v) (fun pr =>
          Ok (inr (ExMiddle (snd pr) (snd pl)))))
      | Some l, None => rbind (get_with_proof sha s l v) (fun pl => Ok (inr (ExRightmost (snd pl))))
      | None, Some r => rbind (get_with_proof sha s r v) (fun pr => Ok (inr (ExLeftmost (snd pr))))
      | None, None => Err InvalidExclusion
      end)
  end).
End Excl.
