(** Vocabulary for the serde form of the Patricia trie. *)
From Verif Require Import Base PmtNibblesModel RlpModel PmtModel PmtRunSpec.

(** What the Rust types say of a node: nibbles are [u8]s, a branch has 16
    children, a hash has 32 bytes. *)
Inductive typed : node -> Prop :=
| ty_empty : typed NEmpty
| ty_leaf k v : Forall (fun x => x < 256) k -> typed (NLeaf k v)
| ty_ext p n : Forall (fun x => x < 256) p -> typed n -> typed (NExt p n)
| ty_branch cs v : length cs = 16 -> Forall typed cs -> typed (NBranch cs v)
| ty_hash h : length h = 32 -> typed (NHash h).
Definition typed_trie (t : trie) : Prop := typed (t_root t) /\ length (t_root_hash t) = 32.

(** The world of a client holding only the trie [t] over the database [d]. *)
Definition alone (d : db) (t : trie) : world := World d [t] [] [].
