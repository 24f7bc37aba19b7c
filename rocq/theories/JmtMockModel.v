(** Model of the calls of the mock store that put single things into it:
    /repo/jmt/src/mock.rs 36-37, 125-129, 190-211; reader.rs 44-51. *)
From Verif Require Import Base JmtNibModel JmtModel.
Local Open Scope N_scope.

(** mock.rs 190-201, [put_leaf]: the store is locked throughout and changed in
    place, so it is returned with an error too. *)
Definition put_leaf (s : store) (nk : nkey) (k vh x : bytes) : store * res jerr unit :=
  match st_nodes s !! nk with
  | Some _ => (s, Err (NodeExists nk))
  | None =>
      let nodes := <[nk := NLeaf k vh]> (st_nodes s) in
      match hist_put (st_hist s !! k) (fst nk) (Some x) with
      | Ok l => (Store nodes (st_stale s) (<[k := l]> (st_hist s)) (st_overwrite s), Ok tt)
      | Err e => (Store nodes (st_stale s) (st_hist s) (st_overwrite s), Err e)
      | Panic => (Store nodes (st_stale s) (st_hist s) (st_overwrite s), Panic)
      | OutOfFuel => (Store nodes (st_stale s) (st_hist s) (st_overwrite s), OutOfFuel)
      end
  end.

(** The preimage table, mock.rs 36-37, which JmtModel.v leaves out. *)
Notation preimages := (gmap bytes bytes).
(** mock.rs 203-209, [put_key_preimage], [h] being the hasher asked for. *)
Definition put_key_preimage (h : bytes -> bytes) (t : preimages) (key : bytes) : preimages :=
  <[h key := key]> t.
(** mock.rs 125-129. *)
Definition preimage (t : preimages) (kh : bytes) : res jerr (option bytes) := Ok (t !! kh).
