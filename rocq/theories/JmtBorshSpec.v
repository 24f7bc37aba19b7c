(** The values that have a byte form: integers of 64 bits, hashes of 32 bytes,
    sequences of fewer than 2^32 elements, sixteen slots. *)
From Verif Require Import Base JmtNibModel JmtModel JmtChildrenModel JmtBorshModel.
Local Open Scope N_scope.

Definition u64 (x : N) : Prop := x < 2 ^ 64.
Definition hash32 (b : bytes) : Prop := length b = 32%nat.
Definition short {A} (l : list A) : Prop := N.of_nat (length l) < 2 ^ 32.
Definition opt {A} (P : A -> Prop) (o : option A) : Prop := match o with Some a => P a | None => True end.
Definition fits_path (p : npath) : Prop := u64 (N.of_nat (np_num p)) /\ short (np_bytes p).
Definition fits_key (k : bkey) : Prop := u64 (fst k) /\ fits_path (snd k).
Definition fits_ntype (t : ntype) : Prop := match t with TInternal n => u64 n | _ => True end.
Definition fits_child (c : child) : Prop := hash32 (c_hash c) /\ u64 (c_ver c) /\ fits_ntype (c_type c).
Definition fits_children (c : children_arr) : Prop :=
  length (ca_slots c) = 16%nat /\ Forall (opt fits_child) (ca_slots c) /\ u64 (N.of_nat (ca_num c)).
Definition fits_inode (n : binode) : Prop := fits_children (bi_children n) /\ opt u64 (bi_count n).
Definition fits_node (n : bnode) : Prop :=
  match n with BNull => True | BInternal n => fits_inode n | BLeaf k vh => hash32 k /\ hash32 vh end.
Definition fits_proof (p : proof) : Prop :=
  opt (fun l => hash32 (fst l) /\ hash32 (snd l)) (p_leaf p) /\ short (p_siblings p) /\ Forall hash32 (p_siblings p).
Definition fits_range (r : list bytes) : Prop := short r /\ Forall hash32 r.
Definition fits_stale (i : N * bkey) : Prop := u64 (fst i) /\ fits_key (snd i).
Definition fits_stats (s : stats) : Prop :=
  u64 (s_new_nodes s) /\ u64 (s_new_leaves s) /\ u64 (s_stale_nodes s) /\ u64 (s_stale_leaves s).

(** The order of the keys of a map, by field; a map is ascending without
    repeated keys. *)
Fixpoint lex_lt (a b : bytes) : Prop :=
  match a, b with
  | [], _ :: _ => True
  | x :: a, y :: b => Byte.to_N x < Byte.to_N y \/ (x = y /\ lex_lt a b)
  | _, [] => False
  end.
Definition path_lt (p q : npath) : Prop :=
  (np_num p < np_num q)%nat \/ (np_num p = np_num q /\ lex_lt (np_bytes p) (np_bytes q)).
Definition key_lt (a b : bkey) : Prop := fst a < fst b \/ (fst a = fst b /\ path_lt (snd a) (snd b)).
Definition vkey_lt (a b : N * bytes) : Prop := fst a < fst b \/ (fst a = fst b /\ lex_lt (snd a) (snd b)).
Definition stale_lt (a b : N * bkey) : Prop := fst a < fst b \/ (fst a = fst b /\ key_lt (snd a) (snd b)).
Definition is_map {K V} (lt : K -> K -> Prop) (m : list (K * V)) : Prop := StronglySorted lt (map fst m).
Definition fits_batch (b : bbatch) : Prop :=
  (short (bb_nodes b) /\ is_map key_lt (bb_nodes b) /\ Forall (fun kv => fits_key (fst kv) /\ fits_node (snd kv)) (bb_nodes b)) /\
  (short (bb_values b) /\ is_map vkey_lt (bb_values b) /\
   Forall (fun kv => (u64 (fst (fst kv)) /\ hash32 (snd (fst kv))) /\ opt short (snd kv)) (bb_values b)) /\
  (short (bb_stale b) /\ is_map stale_lt (bb_stale b) /\ Forall (fun kv => fits_stale (fst kv)) (bb_stale b)) /\
  (short (bb_stats b) /\ Forall fits_stats (bb_stats b)).

(** The byte form of a node of JmtModel.v: a leaf, or the sixteen slots in the
    order of the nibbles, their number, the number of leaves and the flag that
    leaf counts are kept. *)
Definition shown (n : node) (b : bnode) : Prop :=
  match n, b with
  | NNull, BNull => True
  | NLeaf k vh, BLeaf k' vh' => k = k' /\ vh = vh'
  | NInternal n, BInternal b =>
      length (ca_slots (bi_children b)) = 16%nat /\
      (forall i, ca_slots (bi_children b) !! N.to_nat (nib_val i) = Some (in_children n !! i)) /\
      ca_num (bi_children b) = size (in_children n) /\ bi_count b = in_count n /\ bi_migration b = true
  | _, _ => False
  end.
