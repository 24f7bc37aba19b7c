(** The part of the ICS-23 standard (vector commitment proofs) that concerns
    the proofs the tree makes: the proof format and the check of a proof.  The
    repository uses the crate [ics23] for both; the crate is not part of the
    repository, so this file is written from the standard.

    Simplifications: of the hash and length operations only those below; a
    proof operation is never absent; integers are unbounded; the check gives a
    boolean instead of an error message. *)
From Verif Require Import Base.
Local Open Scope nat_scope.

Inductive hash_op := NoHash | Sha256Op.
Inductive len_op := NoPrefix | Require32.
Global Instance hash_op_eq : EqDecision hash_op.
Proof. solve_decision. Defined.
Global Instance len_op_eq : EqDecision len_op.
Proof. solve_decision. Defined.

(** Turns the key and the value into the bottom hash. *)
Record leaf_op := LeafOp { lo_hash : hash_op; lo_prehash_key : hash_op; lo_prehash_value : hash_op;
  lo_length : len_op; lo_prefix : bytes }.
(** Turns the hash of a child into that of its parent. *)
Record inner_op := InnerOp { io_hash : hash_op; io_prefix : bytes; io_suffix : bytes }.
(** The path is from the leaf to the root. *)
Record exist_proof := ExistProof { ep_key : bytes; ep_value : bytes; ep_leaf : leaf_op; ep_path : list inner_op }.
Record nonexist_proof := NonexistProof { np_key : bytes; np_left : option exist_proof; np_right : option exist_proof }.
Inductive commitment_proof := Exist (p : exist_proof) | Nonexist (p : nonexist_proof).
(** What a verifier expects of the operations. *)
Record inner_spec := InnerSpec { is_hash : hash_op; is_order : list nat; is_min_prefix : nat; is_max_prefix : nat;
  is_child_size : nat; is_empty_child : bytes }.
Record proof_spec := ProofSpec { sp_leaf : leaf_op; sp_inner : inner_spec; sp_min_depth : nat; sp_max_depth : nat;
  sp_prehash_compare : bool }.

Section Check.
(** SHA-256 as the verifier computes it. *)
Context (sha : bytes -> bytes).

(** ** The root a proof leads to *)
Definition do_hash (h : hash_op) (x : bytes) : bytes :=
  match h with NoHash => x | Sha256Op => sha x end.
Definition do_length (l : len_op) (x : bytes) : option bytes :=
  match l with NoPrefix => Some x | Require32 => if length x =? 32 then Some x else None end.
(** Key and value must not be empty. *)
Definition leaf_data (h : hash_op) (l : len_op) (x : bytes) : option bytes :=
  match x with [] => None | _ => do_length l (do_hash h x) end.
Definition apply_leaf (o : leaf_op) (k x : bytes) : option bytes :=
  match leaf_data (lo_prehash_key o) (lo_length o) k, leaf_data (lo_prehash_value o) (lo_length o) x with
  | Some a, Some b => Some (do_hash (lo_hash o) (lo_prefix o ++ a ++ b))
  | _, _ => None
  end.
Definition apply_inner (o : inner_op) (child : bytes) : option bytes :=
  match child with [] => None | _ => Some (do_hash (io_hash o) (io_prefix o ++ child ++ io_suffix o)) end.
Fixpoint apply_path (path : list inner_op) (h : bytes) : option bytes :=
  match path with
  | [] => Some h
  | o :: path' => match apply_inner o h with Some h' => apply_path path' h' | None => None end
  end.
Definition proof_root (p : exist_proof) : option bytes :=
  match apply_leaf (ep_leaf p) (ep_key p) (ep_value p) with
  | Some h => apply_path (ep_path p) h
  | None => None
  end.

(** The strings hashed on the way, but for key and value. *)
Fixpoint path_inputs (path : list inner_op) (h : bytes) : list bytes :=
  match path with
  | [] => []
  | o :: path' =>
      let x := io_prefix o ++ h ++ io_suffix o in x :: path_inputs path' (do_hash (io_hash o) x)
  end.
Definition ics_inputs (p : exist_proof) : list bytes :=
  let o := ep_leaf p in
  let x := lo_prefix o ++ do_hash (lo_prehash_key o) (ep_key p) ++ do_hash (lo_prehash_value o) (ep_value p) in
  x :: path_inputs (ep_path p) (do_hash (lo_hash o) x).

(** ** The shape of the operations *)
Definition starts_with (pre x : bytes) : bool := bool_decide (take (length pre) x = pre).
Definition leaf_fits (o s : leaf_op) : bool :=
  bool_decide (lo_hash o = lo_hash s) && bool_decide (lo_prehash_key o = lo_prehash_key s) &&
  bool_decide (lo_prehash_value o = lo_prehash_value s) && bool_decide (lo_length o = lo_length s) &&
  starts_with (lo_prefix s) (lo_prefix o).
Definition inner_fits (sp : proof_spec) (o : inner_op) : bool :=
  let i := sp_inner sp in
  bool_decide (io_hash o = is_hash i) && negb (starts_with (lo_prefix (sp_leaf sp)) (io_prefix o)) &&
  (is_min_prefix i <=? length (io_prefix o)) &&
  (length (io_prefix o) <=? is_max_prefix i + (length (is_order i) - 1) * is_child_size i) &&
  (length (io_suffix o) mod is_child_size i =? 0).
(** A bound of zero is none. *)
Definition depth_fits (sp : proof_spec) (n : nat) : bool :=
  ((sp_min_depth sp =? 0) || (sp_min_depth sp <=? n)) && ((sp_max_depth sp =? 0) || (n <=? sp_max_depth sp)).
Definition proof_fits (sp : proof_spec) (p : exist_proof) : bool :=
  leaf_fits (ep_leaf p) (sp_leaf sp) && depth_fits sp (length (ep_path p)) && forallb (inner_fits sp) (ep_path p).

(** The check of an existence proof. *)
Definition verify_existence (sp : proof_spec) (p : exist_proof) (root k x : bytes) : bool :=
  proof_fits sp p && bool_decide (ep_key p = k) && bool_decide (ep_value p = x) &&
  bool_decide (proof_root p = Some root).

(** ** Neighbours *)
(** The order of keys, and of their hashes: by bytes. *)
Fixpoint bytes_ltb (k l : bytes) : bool :=
  match k, l with
  | a :: k', b :: l' => (Byte.to_N a <? Byte.to_N b)%N || ((Byte.to_N a =? Byte.to_N b)%N && bytes_ltb k' l')
  | [], _ :: _ => true
  | _, [] => false
  end.
(** The place of branch [b] in a node. *)
Fixpoint place (b : nat) (order : list nat) : option nat :=
  match order with
  | [] => None
  | c :: order' => if b =? c then Some 0 else S <$> place b order'
  end.
(** The operation continues branch [b] of its node. *)
Definition from_branch (i : inner_spec) (b : nat) (o : inner_op) : bool :=
  match place b (is_order i) with
  | Some n =>
      (length (io_suffix o) =? (length (is_order i) - 1 - n) * is_child_size i) &&
      (n * is_child_size i + is_min_prefix i <=? length (io_prefix o)) &&
      (length (io_prefix o) <=? n * is_child_size i + is_max_prefix i)
  | None => false
  end.
Definition branch_of (i : inner_spec) (o : inner_op) : option nat :=
  head (filter (fun b => from_branch i b o = true) (seq 0 (length (is_order i)))).
(** The branches to the left, the branches to the right, are empty, and there
    are some. *)
Definition left_empty (i : inner_spec) (o : inner_op) : bool :=
  match branch_of i o with
  | Some (S n) =>
      (S n * is_child_size i <=? length (io_prefix o)) &&
      forallb (fun b => match place b (is_order i) with
        | Some j => bool_decide (take (is_child_size i)
            (drop (length (io_prefix o) - S n * is_child_size i + j * is_child_size i) (io_prefix o)) = is_empty_child i)
        | None => false end) (seq 0 (S n))
  | _ => false
  end.
Definition right_empty (i : inner_spec) (o : inner_op) : bool :=
  match branch_of i o with
  | Some n =>
      let r := length (is_order i) - 1 - n in
      negb (r =? 0) && (length (io_suffix o) =? is_child_size i) &&
      forallb (fun b => match place b (is_order i) with
        | Some j => bool_decide (take (is_child_size i) (drop (j * is_child_size i) (io_suffix o)) = is_empty_child i)
        | None => false end) (seq 0 r)
  | None => false
  end.
(** The path keeps to the left, to the right, as far as there is anything. *)
Definition left_most (i : inner_spec) (path : list inner_op) : bool :=
  forallb (fun o => from_branch i 0 o || left_empty i o) path.
Definition right_most (i : inner_spec) (path : list inner_op) : bool :=
  forallb (fun o => from_branch i (length (is_order i) - 1) o || right_empty i o) path.
(** Paths from the root: they part at neighbouring branches; below, the left
    one keeps to the right and the right one to the left. *)
Fixpoint neighbours (i : inner_spec) (l r : list inner_op) : bool :=
  match l, r with
  | a :: l', b :: r' =>
      if bool_decide (io_prefix a = io_prefix b) && bool_decide (io_suffix a = io_suffix b)
      then neighbours i l' r'
      else match branch_of i a, branch_of i b with
           | Some m, Some n => (S m =? n) && right_most i l' && left_most i r'
           | _, _ => false
           end
  | _, _ => false
  end.
(** The check of a non-existence proof; keys are compared by their hashes if
    the specification says so. *)
Definition compared (sp : proof_spec) (k : bytes) : bytes :=
  if sp_prehash_compare sp then do_hash (lo_prehash_key (sp_leaf sp)) k else k.
Definition verify_nonexistence (sp : proof_spec) (p : nonexist_proof) (root k : bytes) : bool :=
  match np_left p with
  | Some l => verify_existence sp l root (ep_key l) (ep_value l) && bytes_ltb (compared sp (ep_key l)) (compared sp k)
  | None => true
  end &&
  match np_right p with
  | Some r => verify_existence sp r root (ep_key r) (ep_value r) && bytes_ltb (compared sp k) (compared sp (ep_key r))
  | None => true
  end &&
  match np_left p, np_right p with
  | Some l, Some r => neighbours (sp_inner sp) (rev (ep_path l)) (rev (ep_path r))
  | Some l, None => right_most (sp_inner sp) (ep_path l)
  | None, Some r => left_most (sp_inner sp) (ep_path r)
  | None, None => false
  end.
End Check.
