(** What a caller sees of a restoration whose writes can fail. *)
From Verif Require Import Base JmtNibModel JmtSpec JmtNibSpec JmtModel JmtRestoreModel JmtRestoreSpec JmtRestoreRunSpec JmtRestoreFailModel.

(** The first call with a chunk succeeds when its write does; every further
    call with it is refused, whether the write succeeded or not. *)
Definition answers_for (ws : list bool) : list answer :=
  match ws with
  | [] => []
  | w :: ws' => (if w then Accepted else WriteFailed) :: map (fun _ => Refused KeysNotIncreasing) ws'
  end.
(** The first write of the chunk failed. *)
Definition first_failed (c : sent * list bool) : Prop := head (snd c) = Some false.
Global Instance first_failed_dec c : Decision (first_failed c).
Proof. apply _. Defined.

(** What the restoration has put into the store at version [v] is right: values
    hash as those of [m], nodes as the subtrees of [m] at their paths, which are
    not empty. *)
Definition stored_right (sha hv : bytes -> bytes) (s : store) (v : N) (m : gmap bytes bytes) : Prop :=
  (forall k l y, st_hist s !! k = Some l -> (v, y) ∈ l -> exists x z, y = Some x /\ m !! k = Some z /\ hv z = hv x) /\
  (forall q nd, st_nodes s !! (v, q) = Some nd ->
     node_hash sha nd = Ok (subtree_root sha (map_to_list (hv <$> m)) (flat_map nib_bits q)) /\
     exists k, is_Some (m !! k) /\ flat_map nib_bits q `prefix_of` key_bits k).
