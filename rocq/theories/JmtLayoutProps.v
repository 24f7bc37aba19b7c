(** The byte forms are those of the borsh format (C106). *)
From Verif Require Import Base KeccakModel Sha256Model JmtNibModel JmtNibProof JmtNibMoreProof JmtNibRangeProof JmtSpec JmtTraceSpec JmtModel JmtHashProof
  JmtAbsProof JmtCacheProof JmtInsertProof JmtPutProof JmtHistProof JmtRunSpec JmtValueProof JmtRunProof JmtReadProof
  JmtProofProof JmtMoreProof JmtPropProof PmtExamples JmtExamples JmtNibProps JmtProps JmtChildrenModel JmtBorshModel JmtBorshSpec JmtBorshProof JmtBorshProps.
Local Open Scope N_scope.

(** ** The format, for values of any type *)
(** Fields or elements one after the other ([BFields]: a [struct], a tuple or an
    array), a variable number of elements ([BSeq]: a [Vec], a map or a set), a
    variant of an [enum] by its number. *)
Inductive bval :=
  | BInt (width : nat) (x : N)
  | BFields (l : list bval)
  | BSeq (l : list bval)
  | BVariant (number : N) (l : list bval).
(** Little endian: byte [i] is digit [i] in base 256. *)
Definition le_bytes (w : nat) (x : N) : bytes :=
  map (fun i => byte_of (x / 256 ^ N.of_nat i mod 256)) (seq 0 w).
Fixpoint borsh (v : bval) : bytes :=
  match v with
  | BInt w x => le_bytes w x
  | BFields l => concat (map borsh l)
  | BSeq l => le_bytes 4 (N.of_nat (length l)) ++ concat (map borsh l)
  | BVariant n l => le_bytes 1 n ++ concat (map borsh l)
  end.

(** ** The types, from their declarations *)
Definition v_u8 (b : byte) : bval := BInt 1 (Byte.to_N b).
Definition v_u64 (x : N) : bval := BInt 8 x.
Definition v_usize (x : nat) : bval := BInt 8 (N.of_nat x).
Definition v_bool (b : bool) : bval := BInt 1 (if b then 1 else 0).
(** [None] and [Some] are the variants 0 and 1. *)
Definition v_option {A} (f : A -> bval) (o : option A) : bval :=
  match o with None => BVariant 0 [] | Some a => BVariant 1 [f a] end.
Definition v_array (b : bytes) : bval := BFields (map v_u8 b).
Definition v_vec {A} (f : A -> bval) (l : list A) : bval := BSeq (map f l).
Definition v_map {K V} (f : K -> bval) (g : V -> bval) (m : list (K * V)) : bval :=
  BSeq (map (fun kv => BFields [f (fst kv); g (snd kv)]) m).
(** [NibblePath { num_nibbles, bytes }] and [NodeKey { version, nibble_path }]:
    nibble_path.rs 31-41, node_type.rs 51-57. *)
Definition v_path (p : npath) : bval := BFields [v_usize (np_num p); v_vec v_u8 (np_bytes p)].
Definition v_key (k : bkey) : bval := BFields [v_u64 (fst k); v_path (snd k)].
(** [NodeType] and [Child { hash, version, node_type }]: node_type.rs 115-123
    and 151-163. *)
Definition v_ntype (t : ntype) : bval :=
  match t with
  | TLeaf => BVariant 0 []
  | TLegacy => BVariant 1 []
  | TInternal n => BVariant 2 [BFields [v_u64 n]]
  end.
Definition v_child (c : child) : bval := BFields [v_array (c_hash c); v_u64 (c_ver c); v_ntype (c_type c)].
(** [Children { children, num_children }] and [InternalNode { children,
    leaf_count, leaf_count_migration }]: node_type.rs 199-204, 321-328. *)
Definition v_children (c : children_arr) : bval :=
  BFields [BFields (map (v_option v_child) (ca_slots c)); v_usize (ca_num c)].
Definition v_inode (n : binode) : bval :=
  BFields [v_children (bi_children n); v_option v_u64 (bi_count n); v_bool (bi_migration n)].
(** [Node] and [LeafNode { key_hash, value_hash }]: node_type.rs 710-715,
    757-767. *)
Definition v_node (n : bnode) : bval :=
  match n with
  | BNull => BVariant 0 []
  | BInternal n => BVariant 1 [v_inode n]
  | BLeaf k vh => BVariant 2 [BFields [v_array k; v_array vh]]
  end.
(** [SparseMerkleProof { leaf, siblings }] and [SparseMerkleRangeProof {
    right_siblings }]: definition.rs 21-39 and 246-250. *)
Definition v_leaf (l : bytes * bytes) : bval := BFields [v_array (fst l); v_array (snd l)].
Definition v_proof (p : proof) : bval := BFields [v_option v_leaf (p_leaf p); v_vec v_array (p_siblings p)].
Definition v_range (r : list bytes) : bval := BFields [v_vec v_array r].
(** [StaleNodeIndex { stale_since_version, node_key }], [NodeStats] and
    [TreeUpdateBatch { node_batch, stale_node_index_batch, node_stats }] with
    [NodeBatch { nodes, values }]: writer.rs 24-28, 86-92, 95-115. *)
Definition v_stale (i : N * bkey) : bval := BFields [v_u64 (fst i); v_key (snd i)].
Definition v_stats (s : stats) : bval :=
  BFields [v_u64 (s_new_nodes s); v_u64 (s_new_leaves s); v_u64 (s_stale_nodes s); v_u64 (s_stale_leaves s)].
Definition v_value_key (k : N * bytes) : bval := BFields [v_u64 (fst k); v_array (snd k)].
Definition v_batch (b : bbatch) : bval :=
  BFields [BFields [v_map v_key v_node (bb_nodes b); v_map v_value_key (v_option (v_vec v_u8)) (bb_values b)];
           v_vec (fun i => v_stale (fst i)) (bb_stale b); v_vec v_stats (bb_stats b)].

(** ** The model writes these bytes *)
Lemma le_eq w : forall x, enc_le w x = le_bytes w x.
Proof.
  induction w as [|w IH]; intros x; [done|]. cbn [enc_le]. unfold le_bytes. cbn [seq map]. f_equal.
  - by rewrite N.div_1_r.
  - rewrite IH. unfold le_bytes. rewrite <-seq_shift, map_map. apply map_ext. intros i.
    rewrite N.div_div by (try apply N.pow_nonzero; done). rewrite Nat2N.inj_succ, N.pow_succ_r'. done.
Qed.
Lemma flat_eq {A} (e : A -> bytes) (f : A -> bval) l : (forall a, e a = borsh (f a)) -> flat_map e l = concat (map borsh (map f l)).
Proof. intros H. induction l as [|a l IH]; [done|]. cbn [flat_map map concat]. by rewrite H, IH. Qed.
Lemma u8_eq b : enc_byte b = borsh (v_u8 b).
Proof. by destruct b. Qed.
Lemma array_eq b : enc_32 b = borsh (v_array b).
Proof. unfold enc_32, v_array. cbn [borsh]. rewrite <-(flat_eq enc_byte v_u8 b u8_eq). by rewrite flat_byte. Qed.
Lemma u64_eq x : enc_u64 x = borsh (v_u64 x).
Proof. apply le_eq. Qed.
Lemma usize_eq x : enc_usize x = borsh (v_usize x).
Proof. apply le_eq. Qed.
Lemma tag_eq x : enc_u8 x = le_bytes 1 x.
Proof. apply le_eq. Qed.
Lemma bool_eq b : enc_bool b = borsh (v_bool b).
Proof. by destruct b. Qed.
Lemma option_eq {A} (e : A -> bytes) (f : A -> bval) o : (forall a, e a = borsh (f a)) -> enc_option e o = borsh (v_option f o).
Proof.
  intros H. destruct o as [a|]; cbn [enc_option v_option borsh map concat]; rewrite tag_eq, ?H, ?app_nil_r; done.
Qed.
Lemma vec_eq {A} (e : A -> bytes) (f : A -> bval) l : (forall a, e a = borsh (f a)) -> enc_vec e l = borsh (v_vec f l).
Proof. intros H. unfold enc_vec, v_vec, enc_u32. cbn [borsh]. by rewrite le_eq, map_length, (flat_eq e f l H). Qed.
Lemma map_eq' {K V} (ek : K -> bytes) (ev : V -> bytes) f g (m : list (K * V)) :
  (forall a, ek a = borsh (f a)) -> (forall a, ev a = borsh (g a)) -> enc_map ek ev m = borsh (v_map f g m).
Proof.
  intros H1 H2. unfold enc_map, v_map. apply (vec_eq _ (fun kv => BFields [f (fst kv); g (snd kv)])).
  intros [k v]. cbn [borsh map concat fst snd]. by rewrite H1, H2, app_nil_r.
Qed.
Ltac fields := cbn [borsh map concat]; rewrite ?app_nil_r, <-?app_assoc.
Lemma path_eq p : enc_path p = borsh (v_path p).
Proof. unfold enc_path, v_path. fields. by rewrite usize_eq, (vec_eq enc_byte v_u8 _ u8_eq). Qed.
Lemma key_eq k : enc_key k = borsh (v_key k).
Proof. unfold enc_key, v_key. cbn [borsh map concat]. rewrite app_nil_r. by rewrite u64_eq, path_eq. Qed.
Lemma ntype_eq t : enc_ntype t = borsh (v_ntype t).
Proof. destruct t; unfold enc_ntype, v_ntype; cbn [borsh map concat]; rewrite tag_eq, ?u64_eq, ?app_nil_r; done. Qed.
Lemma child_eq c : enc_child c = borsh (v_child c).
Proof. unfold enc_child, v_child. cbn [borsh map concat]. rewrite app_nil_r. by rewrite array_eq, u64_eq, ntype_eq. Qed.
Lemma children_eq c : enc_children c = borsh (v_children c).
Proof.
  unfold enc_children, v_children. cbn [borsh map concat]. rewrite app_nil_r, usize_eq.
  by rewrite (flat_eq _ (v_option v_child)) by (intros o; apply option_eq, child_eq).
Qed.
Lemma inode_eq n : enc_inode n = borsh (v_inode n).
Proof.
  unfold enc_inode, v_inode. cbn [borsh map concat]. rewrite app_nil_r.
  by rewrite children_eq, bool_eq, (option_eq enc_u64 v_u64 _ u64_eq).
Qed.
Lemma node_eq n : enc_node n = borsh (v_node n).
Proof.
  destruct n as [|n|k vh]; unfold enc_node, v_node; cbn [borsh map concat];
    rewrite tag_eq, ?inode_eq, ?array_eq, ?app_nil_r; done.
Qed.
Lemma leaf_eq l : enc_pair32 l = borsh (v_leaf l).
Proof. unfold enc_pair32, v_leaf. cbn [borsh map concat]. by rewrite app_nil_r, !array_eq. Qed.
Lemma proof_eq p : enc_proof p = borsh (v_proof p).
Proof.
  unfold enc_proof, v_proof. cbn [borsh map concat]. rewrite app_nil_r.
  by rewrite (option_eq _ _ _ leaf_eq), (vec_eq _ _ _ array_eq).
Qed.
Lemma range_eq r : enc_range r = borsh (v_range r).
Proof. unfold enc_range, v_range. cbn [borsh map concat]. by rewrite app_nil_r, (vec_eq _ _ _ array_eq). Qed.
Lemma stale_eq i : enc_stale i = borsh (v_stale i).
Proof. unfold enc_stale, v_stale. cbn [borsh map concat]. by rewrite app_nil_r, u64_eq, key_eq. Qed.
Lemma stats_eq s : enc_stats s = borsh (v_stats s).
Proof. unfold enc_stats, v_stats. cbn [borsh map concat]. by rewrite app_nil_r, !u64_eq. Qed.
Lemma vkey_eq k : enc_vkey k = borsh (v_value_key k).
Proof. unfold enc_vkey, v_value_key. cbn [borsh map concat]. by rewrite app_nil_r, u64_eq, array_eq. Qed.
Lemma batch_eq b : enc_batch b = borsh (v_batch b).
Proof.
  unfold enc_batch, v_batch. cbn [borsh map concat]. rewrite !app_nil_r, <-app_assoc.
  rewrite (map_eq' _ _ _ _ (bb_nodes b) key_eq node_eq).
  rewrite (map_eq' _ _ v_value_key (v_option (v_vec v_u8)) (bb_values b) vkey_eq) by (intros o; apply option_eq; intros l; apply vec_eq, u8_eq).
  rewrite (vec_eq enc_stats v_stats _ stats_eq).
  unfold enc_map. rewrite (vec_eq _ (fun i : N * bkey * unit => v_stale (fst i))) by (intros [i []]; cbn [fst snd enc_nothing]; by rewrite app_nil_r, stale_eq).
  done.
Qed.

(** What is accepted as a key, a node, a proof, a range proof, a stale index or
    statistics is exactly the bytes the format gives to the value that is read;
    a batch is read from the bytes the format gives to it. *)
Theorem C106_borsh_format :
  (forall bs k, whole dec_key bs = Some k <-> fits_key k /\ bs = borsh (v_key k)) /\
  (forall bs n, whole dec_node bs = Some n <-> fits_node n /\ bs = borsh (v_node n)) /\
  (forall bs p, whole dec_proof bs = Some p <-> fits_proof p /\ bs = borsh (v_proof p)) /\
  (forall bs r, whole dec_range bs = Some r <-> fits_range r /\ bs = borsh (v_range r)) /\
  (forall bs i, whole dec_stale bs = Some i <-> fits_stale i /\ bs = borsh (v_stale i)) /\
  (forall bs s, whole dec_stats bs = Some s <-> fits_stats s /\ bs = borsh (v_stats s)) /\
  (forall b, fits_batch b -> whole dec_batch (borsh (v_batch b)) = Some b) /\
  (forall k n p r b, enc_key k = borsh (v_key k) /\ enc_node n = borsh (v_node n) /\ enc_proof p = borsh (v_proof p) /\
     enc_range r = borsh (v_range r) /\ enc_batch b = borsh (v_batch b)).
Proof.
  assert (forall A (P : A -> Prop) e d f, exact_form P e d -> (forall a, e a = borsh (f a)) ->
    forall bs a, whole d bs = Some a <-> P a /\ bs = borsh (f a)) as H.
  { intros A P e d f (H1 & H2 & _) He bs a. rewrite <-He. split; [apply H2|]. intros [Ha ->]. by apply H1. }
  destruct C85_borsh_exact as (Hk & Hn & Hp & Hr & Hi & Hs & Hb & _).
  split; [exact (H _ _ _ _ _ Hk key_eq)|]. split; [exact (H _ _ _ _ _ Hn node_eq)|]. split; [exact (H _ _ _ _ _ Hp proof_eq)|].
  split; [exact (H _ _ _ _ _ Hr range_eq)|]. split; [exact (H _ _ _ _ _ Hi stale_eq)|]. split; [exact (H _ _ _ _ _ Hs stats_eq)|]. split.
  - intros b Hf. rewrite <-batch_eq. by apply Hb.
  - intros k n p r b. split_and!; [apply key_eq|apply node_eq|apply proof_eq|apply range_eq|apply batch_eq].
Qed.
(** The batch and the root of C85: the flag that ends the root is the byte 1, and
    258 leaves under a child are written low byte first. *)
Example C106_example : fits_batch bx_batch /\ fits_node bx_root /\
  whole dec_node (borsh (v_node bx_root)) = Some bx_root /\ length (borsh (v_node bx_root)) = 125%nat /\
  last (borsh (v_node bx_root)) = Some x01 /\ borsh (v_ntype (TInternal 258)) = [x02; x02; x01; x00; x00; x00; x00; x00; x00] /\
  whole dec_batch (borsh (v_batch bx_batch)) = Some bx_batch /\ length (borsh (v_batch bx_batch)) = 425%nat.
Proof.
  destruct C85_example as (H1 & H2 & _). split; [exact H1|]. split; [exact H2|]. split_and!; vm_compute; reflexivity.
Qed.
Print Assumptions C106_borsh_format.
