(** Nodes a trie can hold in memory, and what the node codec preserves. *)
From Verif Require Import Base PmtNibblesModel RlpModel PmtModel PmtRunSpec.

Definition short_path (h : hex) : Prop := (N.of_nat (length h) < 2 ^ 60)%N.
Definition short_value (b : bytes) : Prop := (N.of_nat (length b) < 2 ^ 60)%N.

(** Leaf paths end in the terminator 16 and extension paths do not and are not
    empty; a branch has 16 children and no empty value; hashes have 32 bytes.
    Nothing is asked about canonicity. *)
Inductive valid_node : node -> Prop :=
| vn_empty : valid_node NEmpty
| vn_leaf b v : Forall (fun x => x < 16) b -> short_path b -> short_value v -> valid_node (NLeaf (b ++ [16]) v)
| vn_ext p n : Forall (fun x => x < 16) p -> p <> [] -> short_path p -> valid_node n -> valid_node (NExt p n)
| vn_branch cs v : length cs = 16 -> Forall valid_node cs -> v <> Some [] ->
    (forall x, v = Some x -> short_value x) -> valid_node (NBranch cs v)
| vn_hash h : length h = 32 -> valid_node (NHash h).

(** A node with every descendant whose encoding reaches 32 bytes replaced by
    the hash of that encoding. *)
Fixpoint shrink (keccak : bytes -> bytes) (n : node) : node :=
  let go c :=
    match c with
    | NHash _ => c
    | _ => if length (raw keccak c) <? 32 then shrink keccak c else NHash (keccak (raw keccak c))
    end in
  match n with
  | NExt p c => NExt p (go c)
  | NBranch cs v => NBranch (map go cs) v
  | _ => n
  end.
