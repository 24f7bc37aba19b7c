(** Model of the ICS-23 proofs: /repo/jmt/src/tree/ics23_impl.rs.  The proof
    format is that of JmtIcsSpec.v.

    Simplifications: the text of error messages is dropped; the preimages are
    a map next to the store of JmtModel.v (mock.rs 126-130 and 203-209). *)
From Verif Require Import Base JmtModel JmtIterModel JmtExclModel JmtIcsSpec.
Local Open Scope nat_scope.

Inductive ierr :=
| TreeErr (e : jerr)
| NoPreimage    (* ics23_impl.rs 100, 132, 149, 175 *)
| NoValue.      (* ics23_impl.rs 104, 128, 145, 171 *)
Definition lift {A} (x : res jerr A) : res ierr A :=
  match x with Ok a => Ok a | Err e => Err (TreeErr e) | Panic => Panic | OutOfFuel => OutOfFuel end.

(** ics23_impl.rs 33-59. *)
Definition ics_op (bit : bool) (sibling : bytes) : inner_op :=
  if bit then InnerOp Sha256Op (internal_domain ++ sibling) []
  else InnerOp Sha256Op internal_domain sibling.
(** ics23_impl.rs 26-33: the bits of a key hash, the bytes from the last, the
    bits of a byte from the least. *)
Definition bits_up (kh : bytes) : list bool :=
  flat_map (fun b => map (fun i => N.testbit (Byte.to_N b) i) [0; 1; 2; 3; 4; 5; 6; 7]%N) (rev kh).
(** ics23_impl.rs 26-61, the two loops; indexing past the siblings panics. *)
Fixpoint ics_steps (skip : nat) (bits : list bool) (sibs : list bytes) : res ierr (list inner_op) :=
  match bits with
  | [] => Ok []
  | b :: bits' =>
      match skip with
      | S n => ics_steps n bits' sibs
      | O =>
          match sibs with
          | [] => Panic
          | s :: sibs' => rbind (ics_steps 0 bits' sibs') (fun l => Ok (ics_op b s :: l))
          end
      end
  end.
(** ics23_impl.rs 68-74 and 234-240, the same in both places. *)
Definition ics_leaf : leaf_op := LeafOp Sha256Op Sha256Op Sha256Op NoPrefix leaf_domain.
(** ics23_impl.rs 232-253, [ics23_spec]. *)
Definition ics_spec : proof_spec :=
  ProofSpec ics_leaf
    (InnerSpec Sha256Op [0; 1] (length internal_domain) (length internal_domain) 32 placeholder)
    0 64 true.

Section Ics.
Context (sha hv : bytes -> bytes).
(** ics23_impl.rs 16-76, [sparse_merkle_proof_to_ics23_existence_proof]; the
    subtraction panics on more than 256 siblings. *)
Definition ics_exist (key value : bytes) (p : proof) : res ierr exist_proof :=
  if 256 <? length (p_siblings p) then Panic
  else rbind (ics_steps (256 - length (p_siblings p)) (bits_up (hv key)) (p_siblings p)) (fun path =>
       Ok (ExistProof key value ics_leaf path)).

Definition some_or {A} (e : ierr) (x : option A) : res ierr A :=
  match x with Some a => Ok a | None => Err e end.
Definition leaf_key (p : proof) : res ierr bytes :=
  match p_leaf p with Some (k, _) => Ok k | None => Panic end.
(** ics23_impl.rs 122-138, 139-155 and 165-181: the value first. *)
Definition ics_neighbour (s : store) (pre : gmap bytes bytes) (v : N) (p : proof) : res ierr exist_proof :=
  rbind (leaf_key p) (fun kh =>
  rbind (some_or NoValue (trie_get s kh v)) (fun x =>
  rbind (some_or NoPreimage (pre !! kh)) (fun k => ics_exist k x p))).
(** ics23_impl.rs 83-188, [exclusion_proof_to_ics23_nonexistence_proof]; the
    first case (90-117) looks for the preimage first. *)
Definition ics_nonexist (s : store) (pre : gmap bytes bytes) (key : bytes) (v : N) (e : exclusion)
  : res ierr nonexist_proof :=
  match e with
  | ExLeftmost p =>
      rbind (leaf_key p) (fun kh =>
      rbind (some_or NoPreimage (pre !! kh)) (fun k =>
      rbind (some_or NoValue (trie_get s kh v)) (fun x =>
      rbind (ics_exist k x p) (fun r => Ok (NonexistProof key None (Some r))))))
  | ExMiddle pr pl =>
      rbind (ics_neighbour s pre v pr) (fun r =>
      rbind (ics_neighbour s pre v pl) (fun l => Ok (NonexistProof key (Some l) (Some r))))
  | ExRightmost p => rbind (ics_neighbour s pre v p) (fun l => Ok (NonexistProof key (Some l) None))
  end.
(** ics23_impl.rs 194-229, [get_with_ics23_proof]. *)
Definition get_with_ics23_proof (s : store) (pre : gmap bytes bytes) (key : bytes) (v : N)
  : res ierr (option bytes * commitment_proof) :=
  rbind (lift (get_with_exclusion_proof sha s (hv key) v)) (fun r =>
  match r with
  | inl (x, p) => rbind (ics_exist key x p) (fun e => Ok (Some x, Exist e))
  | inr e => rbind (ics_nonexist s pre key v e) (fun n => Ok (None, Nonexist n))
  end).
End Ics.
