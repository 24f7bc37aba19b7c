(** Model of reads while other threads write to the same store and prune it.

    Every lookup of a [MockTreeStore] takes the read lock for itself
    (/repo/jmt/src/mock.rs 86-88 and 107-124), so the lookups of one call may see
    different stores; [write_node_batch] (mock.rs 133-150) and
    [purge_stale_nodes] (mock.rs 227-246) hold the write lock from start to end.
    A reader is modelled by [rd]: its lookup number [j] sees the store [rd j].
    The functions below are those of JmtModel.v and JmtIterModel.v with the
    number of the next lookup passed along.

    Simplification: the stale records of a batch are put one by one under
    locks of their own (mock.rs 211-225); no lookup of a reader sees them, and a
    purge that runs between two of them is not modelled. *)
From Verif Require Import Base JmtNibModel JmtModel JmtIterModel.
Local Open Scope N_scope.

Section Live.
Context (sha : bytes -> bytes) (rd : nat -> store).

(** tree.rs 842-913, [get_with_proof]; the value is looked up last. *)
Fixpoint gwp_live (j : nat) (v : N) (k : bytes) (rest : list nib) (nk : nkey) (depth0 : bool)
    (sibs : list bytes) {struct rest} : res jerr (option bytes * proof) :=
  match st_nodes (rd j) !! nk with
  | None => Err (if depth0 then MissingRoot v else MissingNode nk)
  | Some (NInternal n) =>
      match rest with
      | [] => Err RanOutOfNibbles
      | i :: rest' =>
          rbind (get_child_with_siblings sha n nk i) (fun '(ck, more) =>
          let sibs := sibs ++ more in
          match ck with
          | Some nk' => gwp_live (S j) v k rest' nk' false sibs
          | None => Ok (None, Proof None (rev sibs))
          end)
      end
  | Some (NLeaf k0 vh0) =>
      rbind (if decide (k0 = k) then rbind (st_get_value (rd (S j)) v k0) (fun x => Ok (Some x))
             else Ok None) (fun x =>
      Ok (x, Proof (Some (k0, vh0)) (rev sibs)))
  | Some NNull => if depth0 then Ok (None, Proof None []) else Err (NullNonRoot nk)
  end.
Definition get_with_proof_live (k : bytes) (v : N) : res jerr (option bytes * proof) :=
  gwp_live 0 v k (nibs k) (v, []) true [].

(** iterator.rs 126-190, [new]. *)
Fixpoint it_descend_live (j : nat) (v : N) (start : bytes) (rest : path) (nk : nkey)
    (st : list visit) : res jerr (iter * nat) :=
  rbind (st_get_node (rd j) nk) (fun nd =>
  match nd with
  | NInternal n =>
      match rest with
      | [] => Panic
      | i :: rest' =>
          match in_children n !! i with
          | Some c =>
              rbind (visit_at nk n i) (fun vi =>
              it_descend_live (S j) v start rest' (child_key nk (c_ver c) i) (vi :: st))
          | None =>
              rbind (gen_bitmaps (in_children n)) (fun bm =>
              if 15 <? leading_zeros (fst bm) then Panic
              else if nib_val i <? 15 - leading_zeros (fst bm)
              then rbind (visit_at nk n i) (fun vi => Ok (Iter v (vi :: st) false, S j))
              else rbind (cleanup st) (fun st => Ok (Iter v st false, S j)))
          end
      end
  | NLeaf k _ =>
      if key_ltb k start
      then rbind (cleanup st) (fun st =>
             Ok (Iter v st (match st with [] => true | _ => false end), S j))
      else Ok (Iter v st false, S j)
  | NNull => Ok (Iter v st true, S j)
  end).
Definition iter_new_live (v : N) (start : bytes) : res jerr (iter * nat) :=
  it_descend_live 0 v start (nibs start) (v, []) [].

(** iterator.rs 316-352, the loop of [next]. *)
Fixpoint it_loop_live (fuel : nat) (j : nat) (v : N) (st : list visit)
  : res jerr (option (bytes * bytes + jerr) * iter * nat) :=
  match fuel with
  | O => OutOfFuel
  | S f =>
      match st with
      | [] => Panic
      | vi :: st' =>
          match nib_of (trailing_zeros (vi_next vi)) with
          | None => Panic
          | Some i =>
              match in_children (vi_node vi) !! i with
              | None => Panic
              | Some c =>
                  let nk := child_key (vi_key vi) (c_ver c) i in
                  match st_nodes (rd j) !! nk with
                  | None => Ok (Some (inr (MissingNode nk)), Iter v st false, S j)
                  | Some (NInternal n) =>
                      rbind (visit_new nk n) (fun vi' => it_loop_live f (S j) v (vi' :: st))
                  | Some (NLeaf k _) =>
                      match st_get_value (rd (S j)) (fst nk) k with
                      | Ok x => rbind (cleanup st) (fun st' => Ok (Some (inl (k, x)), Iter v st' false, S (S j)))
                      | Err e => Ok (Some (inr e), Iter v st false, S (S j))
                      | Panic => Panic
                      | OutOfFuel => OutOfFuel
                      end
                  | Some NNull => Ok (Some (inr (NullNonRoot nk)), Iter v st false, S j)
                  end
              end
          end
      end
  end.

(** iterator.rs 284-353, [next]. *)
Definition it_next_live (j : nat) (it : iter)
  : res jerr (option (bytes * bytes + jerr) * iter * nat) :=
  if it_done it then Ok (None, it, j)
  else
    match it_stack it with
    | [] =>
        match st_nodes (rd j) !! (it_version it, []) with
        | Some (NLeaf k _) =>
            let it' := Iter (it_version it) [] true in
            match st_get_value (rd (S j)) (it_version it) k with
            | Ok x => Ok (Some (inl (k, x)), it', S (S j))
            | Err e => Ok (Some (inr e), it', S (S j))
            | Panic => Panic
            | OutOfFuel => OutOfFuel
            end
        | Some (NInternal _) => Ok (None, it, S j)
        | Some NNull => Panic
        | None => Ok (Some (inr (MissingNode (it_version it, []))), it, S j)
        end
    | st => it_loop_live 65 j (it_version it) st
    end.

(** A client that calls [next] [n] times: what the calls return. *)
Fixpoint listing_live (n : nat) (j : nat) (it : iter) : list (option (bytes * bytes + jerr)) :=
  match n with
  | O => []
  | S n => match it_next_live j it with Ok (x, it', j') => x :: listing_live n j' it' | _ => [] end
  end.
End Live.
