(** What it means for an iterator to yield a list of pairs, and for a list to
    be the pairs of a map in key order. *)
From Verif Require Import Base JmtNibSpec JmtModel JmtIterModel.

(** Calling [next] again and again gives the pairs of [l] and then [None], for
    ever (the last state is a fixed point). *)
Inductive yields (s : store) : iter -> list (bytes * bytes) -> Prop :=
| yields_end it : it_next s it = Ok (None, it) -> yields s it []
| yields_pair it kv it' l : it_next s it = Ok (Some (inl kv), it') -> yields s it' l ->
    yields s it (kv :: l).

(** [l] is strictly ascending in its keys. *)
Definition ascending (l : list (bytes * bytes)) : Prop :=
  StronglySorted (fun a b => bytes_lt (fst a) (fst b)) l.
