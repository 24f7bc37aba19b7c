(** Restorations that are interrupted and resumed: each session opens the store
    with [restore_new] and adds chunks; between two sessions everything but the
    store is lost. *)
From Verif Require Import Base JmtModel JmtRestoreModel JmtRestoreRunSpec.
Local Open Scope N_scope.

(** The state after the last session, when every call is accepted. *)
Fixpoint sessions (sha hv : bytes -> bytes) (t : store) (v : N) (root : bytes) (ss : list (list sent)) : option rstate :=
  match ss with
  | [] => None
  | cs :: ss' =>
      match restore_new sha t v root with
      | Ok st0 =>
          match feed_all sha hv st0 cs, ss' with
          | Some st, [] => Some st
          | Some st, _ => sessions sha hv (rs_store st) v root ss'
          | None, _ => None
          end
      | _ => None
      end
  end.

(** What the sessions send of the pairs [l], when [rcv] are the pairs received
    so far.  The last pair received is sent again after an interruption: its
    place in the tree is not known before the next one comes, so it has not been
    stored.  A session may send nothing; the last one sends the rest of [l]. *)
Inductive sends (l : list (bytes * bytes)) : list (bytes * bytes) -> list (list sent) -> Prop :=
| sends_last rcv cs : cs <> [] -> removelast rcv ++ concat (map fst cs) = l -> sends l rcv [cs]
| sends_nothing rcv ss : sends l rcv ss -> sends l rcv ([] :: ss)
| sends_part rcv cs ss rest : cs <> [] -> (removelast rcv ++ concat (map fst cs)) ++ rest = l ->
    sends l (removelast rcv ++ concat (map fst cs)) ss -> sends l rcv (cs :: ss).

(** No leaf is stored. *)
Definition no_leaves (s : store) : Prop := forall nk k vh, st_nodes s !! nk <> Some (NLeaf k vh).
