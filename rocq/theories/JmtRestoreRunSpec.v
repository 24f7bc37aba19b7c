(** Executions of a restoration: calls of [add_chunk] on a state, whatever each
    of them answers (a caller can go on after an error), and the stores a
    restoration starts from. *)
From Verif Require Import Base JmtModel JmtRestoreModel.
Local Open Scope N_scope.

(** A chunk with the right siblings of its range proof. *)
Definition sent : Type := list (bytes * bytes) * list bytes.

(** The state after the calls; [None] after a panic. *)
Fixpoint feed (sha hv : bytes -> bytes) (st : rstate) (cs : list sent) : option rstate :=
  match cs with
  | [] => Some st
  | (c, sibs) :: cs' =>
      match add_chunk sha hv st c sibs with RDone st' _ => feed sha hv st' cs' | RPanic => None end
  end.
(** The state after the calls, when each of them is accepted. *)
Fixpoint feed_all (sha hv : bytes -> bytes) (st : rstate) (cs : list sent) : option rstate :=
  match cs with
  | [] => Some st
  | (c, sibs) :: cs' =>
      match add_chunk sha hv st c sibs with RDone st' None => feed_all sha hv st' cs' | _ => None end
  end.

(** Nothing is stored yet at version [v], and no value at a later one. *)
Definition fresh (s : store) (v : N) : Prop :=
  (forall nk nd, st_nodes s !! nk = Some nd -> fst nk <> v) /\
  (forall k l e, st_hist s !! k = Some l -> e ∈ l -> fst e < v).
