(** Vocabulary for exclusion proofs: the neighbours of a key. *)
From Verif Require Import Base JmtSpec JmtNibSpec.

(** [l] is the greatest key of [m] below [k]; [r] is the smallest above. *)
Definition below (m : gmap bytes bytes) (k l : bytes) : Prop :=
  is_Some (m !! l) /\ bytes_lt l k /\
  forall j, is_Some (m !! j) -> bytes_lt j k -> j = l \/ bytes_lt j l.
Definition above (m : gmap bytes bytes) (k r : bytes) : Prop :=
  is_Some (m !! r) /\ bytes_lt k r /\
  forall j, is_Some (m !! j) -> bytes_lt k j -> j = r \/ bytes_lt r j.
Definition none_below (m : gmap bytes bytes) (k : bytes) : Prop :=
  forall j, is_Some (m !! j) -> ~ bytes_lt j k.
Definition none_above (m : gmap bytes bytes) (k : bytes) : Prop :=
  forall j, is_Some (m !! j) -> ~ bytes_lt k j.

(** The key was written by the value set of version [v]. *)
Definition written_at (hist : list (list write)) (v : N) (k : bytes) : Prop :=
  exists ws, hist !! N.to_nat v = Some ws /\ k ∈ map fst ws.
