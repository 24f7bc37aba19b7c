(** Vocabulary for restoring a tree from chunks, independent of the model of the
    restoring code: which pairs have been received, and which siblings a check of
    a range proof combines. *)
From Verif Require Import Base JmtSpec JmtTraceSpec JmtNibSpec.
Local Open Scope nat_scope.

(** ** Keys in order *)
Definition follows (prev : option bytes) (k : bytes) : Prop :=
  match prev with Some p => bytes_lt p k | None => True end.
(** The longest first part of a chunk whose keys increase, from above [prev]. *)
Inductive increasing_part : option bytes -> list (bytes * bytes) -> list (bytes * bytes) -> Prop :=
| ip_nil prev : increasing_part prev [] []
| ip_cons prev k x l l' : follows prev k -> increasing_part (Some k) l l' ->
    increasing_part prev ((k, x) :: l) ((k, x) :: l')
| ip_stop prev k x l : ~ follows prev k -> increasing_part prev ((k, x) :: l) [].
Definition last_key (l : list (bytes * bytes)) : option bytes := fst <$> last l.
(** The pairs received in a sequence of chunks, whether accepted or not. *)
Inductive received : list (list (bytes * bytes)) -> list (bytes * bytes) -> Prop :=
| rc_nil : received [] []
| rc_snoc cs l c l' : received cs l -> increasing_part (last_key l) c l' -> received (cs ++ [c]) (l ++ l').

Definition to_map (l : list (bytes * bytes)) : gmap bytes bytes := list_to_map l.
Definition wf_chunk (l : list (bytes * bytes)) : Prop := Forall (fun kx => length (fst kx) = 32) l.

(** ** The check of a range proof *)
Section Range.
Context (sha hv : bytes -> bytes).

Definition under_bits (B : list bool) (kv : bytes * bytes) : Prop := B `prefix_of` key_bits (fst kv).
Global Instance under_bits_dec B kv : Decision (under_bits B kv).
Proof. unfold under_bits. apply _. Defined.
(** The root of the subtree with a bit prefix. *)
Definition subtree_root (l : list (bytes * bytes)) (B : list bool) : bytes :=
  smt (spec_leaf_hash sha) (spec_node_hash sha) spec_empty_hash (256 - length B) (length B) (filter (under_bits B) l).
(** The siblings along a path, highest first: those on the left are the roots of
    subtrees of the pairs [l] (with hashed values), those on the right are given.
    The path ends where no right sibling is left and one pair only is below. *)
Fixpoint range_siblings (l : list (bytes * bytes)) (B bits : list bool) (right : list bytes) : list bytes :=
  match right, filter (under_bits B) l, bits with
  | [], [_], _ => []
  | _, _, [] => []
  | _, _, true :: bits' => subtree_root l (B ++ [false]) :: range_siblings l (B ++ [true]) bits' right
  | [], _, false :: _ => []
  | s :: right', _, false :: bits' => s :: range_siblings l (B ++ [false]) bits' right'
  end.
(** The strings hashed to check the pairs [m], [(k, x)] being the last one, with
    the right siblings of a range proof (lowest first). *)
Definition range_inputs (m : gmap bytes bytes) (k x : bytes) (right : list bytes) : list bytes :=
  proof_inputs sha (Some (k, hv x)) (rev (range_siblings (map_to_list (hv <$> m)) [] (key_bits k) (rev right))) k.
End Range.

(** The pairs of [m] with keys up to [k]. *)
Definition key_le (l k : bytes) : Prop := l = k \/ bytes_lt l k.
