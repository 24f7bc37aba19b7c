(** Vocabulary for the Jellyfish Merkle tree properties, independent of the
    model: what a history of value sets means, and what the sparse Merkle root
    of a set of pairs is. *)
From Verif Require Import Base.

(** ** Contents *)

(** One write: a value, or [None] for a deletion. *)
Definition write := (bytes * option bytes)%type.

Definition apply_write (m : gmap bytes bytes) (w : write) : gmap bytes bytes :=
  match snd w with
  | Some x => <[fst w := x]> m
  | None => delete (fst w) m
  end.
(** A value set is applied left to right: the last write to a key wins. *)
Definition apply_set (m : gmap bytes bytes) (ws : list write) : gmap bytes bytes :=
  fold_left apply_write ws m.
(** The contents at version [v] of a history whose [i]-th set was written at
    version [i]. *)
Definition contents_at (sets : list (list write)) (v : N) : gmap bytes bytes :=
  fold_left apply_set (take (S (N.to_nat v)) sets) ∅.

(** The newest write to a key at or before a version. *)
Fixpoint last_write_in (k : bytes) (ws : list write) : option (option bytes) :=
  match ws with
  | [] => None
  | (k', x) :: ws' =>
      match last_write_in k ws' with
      | Some y => Some y
      | None => if decide (k' = k) then Some x else None
      end
  end.
Fixpoint last_write (k : bytes) (sets : list (list write)) : option (option bytes) :=
  match sets with
  | [] => None
  | ws :: sets' =>
      match last_write k sets' with Some y => Some y | None => last_write_in k ws end
  end.
Definition value_at (k : bytes) (sets : list (list write)) (v : N) : option bytes :=
  match last_write k (take (S (N.to_nat v)) sets) with Some (Some x) => Some x | _ => None end.

(** ** Bits of a key, most significant first *)

Definition byte_bits (b : byte) : list bool :=
  let '(b0, (b1, (b2, (b3, (b4, (b5, (b6, b7))))))) := Byte.to_bits b in
  [b7; b6; b5; b4; b3; b2; b1; b0].
Definition key_bits (k : bytes) : list bool := flat_map byte_bits k.

(** ** The sparse Merkle root of a list of pairs

    Split the pairs by bit [d] of the key; a subtree without pairs has the
    placeholder hash, one with a single pair the hash of that pair. *)
Section Smt.
Context (leaf_hash : bytes -> bytes -> bytes) (node_hash : bytes -> bytes -> bytes)
        (empty_hash : bytes).

Definition has_bit (d : nat) (b : bool) (kv : bytes * bytes) : Prop :=
  key_bits (fst kv) !! d = Some b.
Global Instance has_bit_dec d b kv : Decision (has_bit d b kv).
Proof. unfold has_bit. apply _. Defined.

Fixpoint smt (fuel d : nat) (l : list (bytes * bytes)) : bytes :=
  match l with
  | [] => empty_hash
  | [(k, vh)] => leaf_hash k vh
  | _ =>
      match fuel with
      | O => empty_hash
      | S f => node_hash (smt f (S d) (filter (has_bit d false) l))
                         (smt f (S d) (filter (has_bit d true) l))
      end
  end.
End Smt.

(** The root of contents [m], with SHA-256 [sha] for nodes and [hv] for
    values. *)
Definition spec_leaf_hash (sha : bytes -> bytes) (k vh : bytes) : bytes :=
  sha ([x4a; x4d; x54; x3a; x3a; x4c; x65; x61; x66; x4e; x6f; x64; x65] ++ k ++ vh).
Definition spec_node_hash (sha : bytes -> bytes) (l r : bytes) : bytes :=
  sha ([x4a; x4d; x54; x3a; x3a; x49; x6e; x74; x72; x6e; x61; x6c; x4e; x6f; x64; x65] ++ l ++ r).
Definition spec_empty_hash : bytes :=
  [x53; x50; x41; x52; x53; x45; x5f; x4d; x45; x52; x4b; x4c; x45; x5f; x50; x4c;
   x41; x43; x45; x48; x4f; x4c; x44; x45; x52; x5f; x48; x41; x53; x48; x5f; x5f].
Definition smt_root (sha hv : bytes -> bytes) (m : gmap bytes bytes) : bytes :=
  smt (spec_leaf_hash sha) (spec_node_hash sha) spec_empty_hash 256 0
    (map_to_list (hv <$> m)).

(** ** Well-formed input: keys are 32-byte arrays *)
Definition wf_sets (sets : list (list write)) : Prop :=
  Forall (Forall (fun w => length (fst w) = 32)) sets.
