(** Model of the restoration of a tree from chunks of pairs:
    /repo/jmt/src/restore.rs.

    Simplifications: the store is the in-memory one of JmtModel.v, used both to
    read and to write; [partial_nodes] is a list with its last element first;
    the sixteen optional children of a partial node are a finite map from
    nibbles (as for [Children] in JmtModel.v); the flag
    [leaf_count_migration] is dropped, as it is in nodes; counters do not
    overflow; the text of error messages is dropped. *)
From Verif Require Import Base JmtNibModel JmtModel JmtIterModel.
Local Open Scope N_scope.

(** restore.rs 34-45, [ChildInfo]. *)
Inductive cinfo := CInternal (hash : option bytes) (leaf_count : option N) | CLeaf (k vh : bytes).
(** restore.rs 64-71, [InternalInfo]. *)
Record pinfo := PInfo { pi_key : nkey; pi_children : gmap nib cinfo }.
(** restore.rs 74-80, [new_empty]; 82-85, [set_child]. *)
Definition pinfo_empty (nk : nkey) : pinfo := PInfo nk ∅.
Definition set_child (i : nib) (c : cinfo) (p : pinfo) : pinfo :=
  PInfo (pi_key p) (<[i := c]> (pi_children p)).

(** restore.rs 114-170, without [leaf_count_migration]; the nodes and the
    values of [frozen_nodes] are two fields. *)
Record rstate := RState {
  rs_store : store;
  rs_ver : N;
  rs_partial : list pinfo;
  rs_frozen : gmap nkey node;
  rs_values : gmap (N * bytes) (option bytes);
  rs_prev : option (bytes * bytes);
  rs_num : N;
  rs_root : bytes
}.
Definition with_partial (st : rstate) (ps : list pinfo) (fz : gmap nkey node) : rstate :=
  RState (rs_store st) (rs_ver st) ps fz (rs_values st) (rs_prev st) (rs_num st) (rs_root st).

(** [iter().rposition(|x| x.is_some())] on the children. *)
Definition rightmost_child (cs : gmap nib cinfo) : option nib :=
  last (filter (fun i => is_Some (cs !! i)) all_nibs).

Section Restore.
Context (sha hv : bytes -> bytes).
Notation sm_leaf := (sm_leaf sha).
Notation sm_internal := (sm_internal sha).

(** restore.rs 49-60, [into_child]. *)
Definition into_child (v : N) (c : cinfo) : res jerr child :=
  match c with
  | CInternal None _ => Panic
  | CInternal (Some h) n => Ok (Child h v (match n with Some c => TInternal c | None => TLegacy end))
  | CLeaf k vh => Ok (Child (sm_leaf k vh) v TLeaf)
  end.
(** restore.rs 89-108, [into_internal_node]. *)
Fixpoint into_children (v : N) (cs : gmap nib cinfo) (l : list nib) : res jerr children :=
  match l with
  | [] => Ok ∅
  | i :: l' =>
      match cs !! i with
      | None => into_children v cs l'
      | Some c => rbind (into_child v c) (fun d =>
                  rbind (into_children v cs l') (fun m => Ok (<[i := d]> m)))
      end
  end.
Definition into_internal (v : N) (p : pinfo) : res jerr inode :=
  rbind (into_children v (pi_children p) all_nibs) inode_new.

(** restore.rs 486-512, [freeze_previous_leaf]. *)
Definition freeze_previous_leaf (st : rstate) : res jerr (gmap nkey node) :=
  if rs_num st =? 0 then Ok (rs_frozen st)
  else
    match rs_partial st with
    | [] => Panic
    | p :: _ =>
        match rightmost_child (pi_children p) with
        | None => Panic
        | Some i =>
            match pi_children p !! i with
            | Some (CLeaf k vh) =>
                Ok (<[child_key (pi_key p) (rs_ver st) i := NLeaf k vh]> (rs_frozen st))
            | _ => Panic
            end
        end
    end.

(** restore.rs 516-553, [freeze_internal_nodes]; [p] is the last partial
    node, [ps] the ones above. *)
Fixpoint freeze_internal (v : N) (keep : nat) (p : pinfo) (ps : list pinfo) (fz : gmap nkey node)
  : res jerr (list pinfo * gmap nkey node) :=
  if (S (length ps) <=? keep)%nat then Ok (p :: ps, fz)
  else
    rbind (into_internal v p) (fun n =>
    rbind (inode_hash sha n) (fun h =>
    let fz := <[pi_key p := NInternal n]> fz in
    match ps with
    | [] => Ok ([], fz)
    | par :: ps' =>
        match rightmost_child (pi_children par) with
        | None => Panic
        | Some i =>
            match pi_children par !! i with
            | Some (CInternal None None) =>
                freeze_internal v keep (set_child i (CInternal (Some h) (in_count n)) par) ps' fz
            | _ => Panic
            end
        end
    end)).
(** restore.rs 479-482, [freeze]. *)
Definition freeze (st : rstate) (keep : nat) : res jerr rstate :=
  rbind (freeze_previous_leaf st) (fun fz =>
  match rs_partial st with
  | [] => Ok (with_partial st [] fz)
  | p :: ps => rbind (freeze_internal (rs_ver st) keep p ps fz) (fun '(ps, fz) =>
               Ok (with_partial st ps fz))
  end).

(** restore.rs 425-439: [n] new partial nodes with a single child. *)
Fixpoint chain (v : N) (visited rest : path) (n : nat) (ps : list pinfo) {struct n}
  : res jerr (list pinfo * path) :=
  match n with
  | O => Ok (ps, visited)
  | S n' =>
      match rest with
      | [] => Panic
      | x :: rest' =>
          chain v (visited ++ [x]) rest' n'
            (set_child x (CInternal None None) (pinfo_empty (v, visited)) :: ps)
      end
  end.
(** [partial_nodes[i]] counted from the root, and [last_mut]. *)
Definition partial_at (ps : list pinfo) (i : nat) : option pinfo :=
  if (i <? length ps)%nat then ps !! (length ps - 1 - i)%nat else None.
Definition set_last (ps : list pinfo) (i : nib) (c : cinfo) : res jerr (list pinfo) :=
  match ps with [] => Panic | p :: ps' => Ok (set_child i c p :: ps') end.

(** restore.rs 399-476, [insert_at_leaf]; [visited] and [rest] are the two
    parts of the nibble iterator. *)
Definition insert_at_leaf (st : rstate) (idx : nib) (ek evh k vh : bytes) (visited rest : path)
  : res jerr rstate :=
  rbind (set_last (rs_partial st) idx (CInternal None None)) (fun ps =>
  let c := common_prefix_nibbles_len ek k in
  rbind (chain (rs_ver st) visited rest (c - length (rs_partial st)) ps) (fun '(ps, visited) =>
  match get_nibble ek c, get_nibble k c with
  | Some e, Some n =>
      let ps := set_child e (CLeaf ek evh) (pinfo_empty (rs_ver st, visited)) :: ps in
      rbind (freeze (with_partial st ps (rs_frozen st)) (length ps)) (fun st =>
      if nib_val e <? nib_val n then
        rbind (set_last (rs_partial st) n (CLeaf k vh)) (fun ps =>
        Ok (with_partial st ps (rs_frozen st)))
      else Panic)
  | _, _ => Panic
  end)).

(** restore.rs 344-394, [add_one]: round [i] of the loop; [visited ++ rest]
    are the nibbles of the key. *)
Fixpoint add_loop (st : rstate) (k vh : bytes) (visited rest : path) : res jerr rstate :=
  match rest with
  | [] => Ok st
  | x :: rest' =>
      match partial_at (rs_partial st) (length visited) with
      | None => Panic
      | Some p =>
          match pi_children p !! x with
          | Some (CLeaf ek evh) =>
              if (length visited =? length (rs_partial st) - 1)%nat
              then insert_at_leaf st x ek evh k vh (visited ++ [x]) rest'
              else Panic
          | Some (CInternal _ _) => add_loop st k vh (visited ++ [x]) rest'
          | None =>
              rbind (freeze st (S (length visited))) (fun st =>
              match partial_at (rs_partial st) (length visited) with
              | None => Panic
              | Some _ =>
                  Ok (with_partial st
                        (alter (set_child x (CLeaf k vh)) (length (rs_partial st) - 1 - length visited)%nat
                           (rs_partial st))
                        (rs_frozen st))
              end)
          end
      end
  end.
Definition add_one (st : rstate) (k vh : bytes) : res jerr rstate := add_loop st k vh [] (nibs k).

(** restore.rs 637-668, [compute_left_sibling_impl] on [2^h] children. *)
Fixpoint left_sibling (h : nat) (l : list (option cinfo)) : res jerr (bytes * bool) :=
  match h with
  | O =>
      match l with
      | [Some (CInternal (Some x) _)] => Ok (x, false)
      | [Some (CLeaf k vh)] => Ok (sm_leaf k vh, true)
      | [None] => Ok (placeholder, true)
      | _ => Panic
      end
  | S h' =>
      rbind (left_sibling h' (take (2 ^ h') l)) (fun '(lh, ll) =>
      rbind (left_sibling h' (drop (2 ^ h') l)) (fun '(rh, rl) =>
      if bool_decide (lh = placeholder) && rl then Ok (rh, true)
      else if ll && bool_decide (rh = placeholder) then Ok (lh, true)
      else Ok (sm_internal lh rh, false)))
  end.
(** restore.rs 629-634, [compute_left_sibling]. *)
Definition compute_left_sibling (p : pinfo) (n : nib) (h : nat) : res jerr bytes :=
  let slots := map (fun i => pi_children p !! i) all_nibs in
  rbind (left_sibling h (take (2 ^ h) (drop (N.to_nat (sibling_half_start n h)) slots)))
    (fun '(x, _) => Ok x).

(** restore.rs 576-593: the left siblings, in the order they are pushed; [i]
    is the number of the first bit. *)
Fixpoint left_siblings (ps : list pinfo) (k : bytes) (bits : list bool) (i : nat)
  : res jerr (list bytes) :=
  match bits with
  | [] => Ok []
  | false :: bits' => left_siblings ps k bits' (S i)
  | true :: bits' =>
      rbind (if (length ps * 4 <=? i)%nat then Ok placeholder
             else match partial_at ps (i / 4), get_nibble k (i / 4) with
                  | Some p, Some n => compute_left_sibling p n (3 - i mod 4)
                  | _, _ => Panic
                  end) (fun s =>
      rbind (left_siblings ps k bits' (S i)) (fun l => Ok (s :: l)))
  end.
(** restore.rs 601-615: [left] has its last element first; [nv] is the number
    of visited right siblings, [nr] the number in the proof. *)
Fixpoint trim (bits_up : list bool) (left : list bytes) (nv nr : nat) : res jerr (list bytes) :=
  match bits_up with
  | [] => Ok left
  | true :: bits' =>
      match left with
      | [] => Panic
      | s :: left' => if decide (s = placeholder) then trim bits' left' nv nr else Ok left
      end
  | false :: bits' => if (nr <? nv)%nat then trim bits' left (nv - 1) nr else Ok left
  end.
(** restore.rs 559-626, [verify]. *)
Definition rs_verify (st : rstate) (right : list bytes) : res jerr unit :=
  match rs_prev st with
  | None => Panic
  | Some (k, vh) =>
      rbind (left_siblings (rs_partial st) k (iter_bits k) 0) (fun l =>
      let nv := length (filter (fun b => b = false) (iter_bits k)) in
      if (nv <? length right)%nat then Err TooManyRight
      else rbind (trim (rev (iter_bits k)) (rev l) nv (length right)) (fun left =>
           range_verify sha right (rs_root st) (k, vh) left))
  end.

(** Outcome of a call that changes the state even when it fails. *)
Inductive rres := RDone (st : rstate) (e : option jerr) | RPanic.

(** restore.rs 318-331, one pair. *)
Definition add_pair (st : rstate) (k x : bytes) : res jerr rstate :=
  let st := RState (rs_store st) (rs_ver st) (rs_partial st) (rs_frozen st)
              (<[(rs_ver st, k) := Some x]> (rs_values st)) (rs_prev st) (rs_num st) (rs_root st) in
  rbind (add_one st k (hv x)) (fun st =>
  Ok (RState (rs_store st) (rs_ver st) (rs_partial st) (rs_frozen st) (rs_values st)
        (Some (k, hv x)) (rs_num st + 1) (rs_root st))).
(** restore.rs 318-331, the loop; the flag says whether it ran to the end. *)
Fixpoint add_pairs (st : rstate) (chunk : list (bytes * bytes)) : res jerr (rstate * bool) :=
  match chunk with
  | [] => Ok (st, true)
  | (k, x) :: chunk' =>
      if match rs_prev st with Some (pk, _) => key_ltb pk k | None => true end
      then rbind (add_pair st k x) (fun st => add_pairs st chunk')
      else Ok (st, false)
  end.
(** restore.rs 311-341, [add_chunk_impl].  When the store refuses the batch
    (values out of order) the state is kept as it is. *)
Definition add_chunk (st : rstate) (chunk : list (bytes * bytes)) (right : list bytes) : rres :=
  match chunk with
  | [] => RDone st (Some EmptyChunk)
  | _ =>
      match add_pairs st chunk with
      | Ok (st, false) => RDone st (Some KeysNotIncreasing)
      | Ok (st, true) =>
          match rs_verify st right with
          | Ok _ =>
              match write_node_batch (rs_store st) (rs_frozen st) (rs_values st) with
              | Ok s => RDone (RState s (rs_ver st) (rs_partial st) ∅ ∅ (rs_prev st) (rs_num st) (rs_root st)) None
              | Err e => RDone st (Some e)
              | _ => RPanic
              end
          | Err e => RDone st (Some e)
          | _ => RPanic
          end
      | _ => RPanic
      end
  end.

(** restore.rs 672-699, [finish_impl]; the result is the store. *)
Definition finish (st : rstate) : res jerr store :=
  let general :=
    rbind (freeze st 0) (fun st => write_node_batch (rs_store st) (rs_frozen st) (rs_values st)) in
  match rs_partial st with
  | [p] =>
      match filter (fun i => is_Some (pi_children p !! i)) all_nibs with
      | [i] =>
          match pi_children p !! i with
          | Some (CLeaf k vh) =>
              if bool_decide (rs_frozen st = ∅) && bool_decide (rs_values st = ∅)
              then write_node_batch (rs_store st) {[ (rs_ver st, []) := NLeaf k vh ]} ∅
              else Panic
          | _ => general
          end
      | _ => general
      end
  | _ => general
  end.

(** restore.rs 215-232, [new_overwrite]. *)
Definition new_overwrite (s : store) (v : N) (root : bytes) : rstate :=
  RState s v [pinfo_empty (v, [])] ∅ ∅ None 0 root.

(** mock.rs 90-105, [get_rightmost_leaf]: the leaf with the greatest key; the
    iteration order of the hash map decides between leaves with one key. *)
Definition rightmost_leaf (s : store) : option (nkey * (bytes * bytes)) :=
  fold_left (fun acc (e : nkey * node) =>
      match snd e with
      | NLeaf k vh =>
          match acc with
          | Some (_, (k0, _)) => if key_ltb k0 k then Some (fst e, (k, vh)) else acc
          | None => Some (fst e, (k, vh))
          end
      | _ => acc
      end) (map_to_list (st_nodes s)) None.

(** restore.rs 250-253; the path is reversed. *)
Fixpoint climb (s : store) (v : N) (rp : path) : res jerr path :=
  match st_nodes s !! (v, rev rp) with
  | None => Ok rp
  | Some _ => match rp with [] => Panic | _ :: rp' => climb s v rp' end
  end.
(** restore.rs 267-280, the children found in the store. *)
Fixpoint scan (s : store) (v : N) (p : path) (l : list nib) : res jerr (gmap nib cinfo) :=
  match l with
  | [] => Ok ∅
  | i :: l' =>
      match st_nodes s !! (v, p ++ [i]) with
      | None => scan s v p l'
      | Some NNull => Err NullStored
      | Some (NLeaf k vh) => rbind (scan s v p l') (fun m => Ok (<[i := CLeaf k vh]> m))
      | Some (NInternal n) =>
          rbind (inode_hash sha n) (fun h =>
          rbind (scan s v p l') (fun m => Ok (<[i := CInternal (Some h) (in_count n)]> m)))
      end
  end.
(** restore.rs 264-302, the loop: from the lowest partial node up.  [nv] is
    the version of the rightmost leaf, [v] the one to restore. *)
Fixpoint recover_loop (s : store) (nv v : N) (prev : option nib) (rp : path) : res jerr (list pinfo) :=
  let below := match prev with
               | None => all_nibs
               | Some j => filter (fun i => nib_val i < nib_val j) all_nibs
               end in
  rbind (scan s v (rev rp) below) (fun cs =>
  let cs := match prev with None => cs | Some j => <[j := CInternal None None]> cs end in
  let p := PInfo (nv, rev rp) cs in
  match rp with
  | [] => Ok [p]
  | j :: rp' => rbind (recover_loop s nv v (Some j) rp') (fun ps => Ok (p :: ps))
  end).
(** restore.rs 236-306, [recover_partial_nodes]. *)
Definition recover_partial_nodes (s : store) (v : N) (nk : nkey) : res jerr (list pinfo) :=
  match rev (snd nk) with
  | [] => Err RootWritten
  | _ :: rp =>
      rbind (climb s (fst nk) rp) (fun rp => recover_loop s (fst nk) v None rp)
  end.
(** restore.rs 173-213, [new]. *)
Definition restore_new (s : store) (v : N) (root : bytes) : res jerr rstate :=
  match rightmost_leaf s with
  | None => Ok (new_overwrite s v root)
  | Some (nk, lf) =>
      rbind (recover_partial_nodes s v nk) (fun ps =>
      Ok (RState s v ps ∅ ∅ (Some lf) 0 root))
  end.
End Restore.
