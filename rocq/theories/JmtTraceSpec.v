(** Which strings are hashed: by a sparse Merkle tree, and by a verifier that
    recombines the siblings of a proof.  Soundness of proofs is stated for hash
    functions without collisions among these strings. *)
From Verif Require Import Base JmtSpec.
Local Open Scope nat_scope.

Definition spec_leaf_input (k vh : bytes) : bytes :=
  [x4a; x4d; x54; x3a; x3a; x4c; x65; x61; x66; x4e; x6f; x64; x65] ++ k ++ vh.
Definition spec_node_input (l r : bytes) : bytes :=
  [x4a; x4d; x54; x3a; x3a; x49; x6e; x74; x72; x6e; x61; x6c; x4e; x6f; x64; x65] ++ l ++ r.

Section Trace.
Context (sha hv : bytes -> bytes).

(** The strings hashed by [smt] (JmtSpec). *)
Fixpoint smt_inputs (fuel d : nat) (l : list (bytes * bytes)) : list bytes :=
  match l with
  | [] => []
  | [(k, vh)] => [spec_leaf_input k vh]
  | _ =>
      match fuel with
      | O => []
      | S f =>
          let sub b := smt (spec_leaf_hash sha) (spec_node_hash sha) spec_empty_hash f (S d) (filter (has_bit d b) l) in
          spec_node_input (sub false) (sub true) ::
          smt_inputs f (S d) (filter (has_bit d false) l) ++ smt_inputs f (S d) (filter (has_bit d true) l)
      end
  end.
Definition tree_inputs (m : gmap bytes bytes) : list bytes :=
  smt_inputs 256 0 (map_to_list (hv <$> m)).

(** The strings hashed when siblings, lowest first, are combined with a hash
    along the given bits, lowest first. *)
Fixpoint fold_inputs (cur : bytes) (sibs : list bytes) (bits : list bool) : list bytes :=
  match sibs, bits with
  | s :: sibs', b :: bits' =>
      let x := if b : bool then spec_node_input s cur else spec_node_input cur s in
      x :: fold_inputs (sha x) sibs' bits'
  | _, _ => []
  end.
(** The strings hashed to check a proof with the given leaf and siblings
    (lowest first) for key [k]. *)
Definition proof_inputs (leaf : option (bytes * bytes)) (sibs : list bytes) (k : bytes) : list bytes :=
  let bits := rev (take (length sibs) (key_bits k)) in
  match leaf with
  | Some (lk, lvh) => spec_leaf_input lk lvh :: fold_inputs (spec_leaf_hash sha lk lvh) sibs bits
  | None => fold_inputs spec_empty_hash sibs bits
  end.

(** The hash is good for a tree and a proof: 32-byte results, no collision
    among the strings hashed, none of them hashing to the placeholder. *)
Definition good_hash (l : list bytes) : Prop :=
  (forall x, length (sha x) = 32) /\ inj_on sha l /\ Forall (fun x => sha x <> spec_empty_hash) l.
End Trace.
