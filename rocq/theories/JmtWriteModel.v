(** Model of writing to the store with what a failure leaves behind, and of
    merging batches: /repo/jmt/src/mock.rs 132-225 and writer.rs 60-77.

    [write_batch] of JmtModel.v yields no store when the write fails.  The
    functions below write entry by entry and yield the store as it is when they
    stop.  The lock of the store (parking_lot) is released by a panic and does
    not poison, so the store can be used after one.

    Simplification: the entries come as lists.  A [BTreeMap] is iterated in the
    order of its keys; the theorems hold for every order of the nodes and stale
    records, and for every order of the values that is by version first. *)
From Verif Require Import Base JmtNibModel JmtModel.
Local Open Scope N_scope.

(** mock.rs 134-140: the node is replaced before the assertion. *)
Fixpoint insert_nodes (over : bool) (l : list (nkey * node)) (n : gmap nkey node) : res jerr unit * gmap nkey node :=
  match l with
  | [] => (Ok tt, n)
  | (nk, nd) :: l' =>
      match over, n !! nk with
      | false, Some _ => (Panic, <[nk := nd]> n)
      | _, _ => insert_nodes over l' (<[nk := nd]> n)
      end
  end.
(** mock.rs 141-148. *)
Fixpoint insert_values (l : list (N * bytes * option bytes)) (h : gmap bytes (list (N * option bytes)))
  : res jerr unit * gmap bytes (list (N * option bytes)) :=
  match l with
  | [] => (Ok tt, h)
  | ((v, k), x) :: l' =>
      match hist_put (h !! k) v x with
      | Ok e => insert_values l' (<[k := e]> h)
      | Err e => (Err e, h)
      | Panic => (Panic, h)
      | OutOfFuel => (OutOfFuel, h)
      end
  end.
(** mock.rs 211-215 and 219-223; collecting stops at the first error. *)
Fixpoint insert_stale (l : list (N * nkey)) (st : gset (N * nkey)) : res jerr unit * gset (N * nkey) :=
  match l with
  | [] => (Ok tt, st)
  | i :: l' => if bool_decide (i ∈ st) then (Err DuplicateStale, st) else insert_stale l' ({[i]} ∪ st)
  end.
(** mock.rs 217-225, [write_tree_update_batch]: the outcome and the store. *)
Definition write_all (s : store) (nodes : list (nkey * node)) (values : list (N * bytes * option bytes))
    (stale : list (N * nkey)) : res jerr unit * store :=
  let '(r1, n) := insert_nodes (st_overwrite s) nodes (st_nodes s) in
  match r1 with
  | Ok _ =>
      let '(r2, h) := insert_values values (st_hist s) in
      match r2 with
      | Ok _ =>
          let '(r3, st) := insert_stale stale (st_stale s) in
          (r3, Store n st h (st_overwrite s))
      | _ => (r2, Store n (st_stale s) h (st_overwrite s))
      end
  | _ => (r1, Store n (st_stale s) (st_hist s) (st_overwrite s))
  end.

(** writer.rs 62-77, [extend] and [merge]: entries of the second batch win. *)
Definition merge_nodes (a b : gmap nkey node) : gmap nkey node := b ∪ a.
Definition merge_values (a b : gmap (N * bytes) (option bytes)) : gmap (N * bytes) (option bytes) := b ∪ a.
