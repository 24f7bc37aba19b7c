(** Model of the byte form of the types of the tree: the [borsh] derives of
    /repo/jmt/src (node_type.rs 37-56, 105-123, 140-163, 186-204, 304-328,
    698-715 and 756-767; types/nibble/nibble_path.rs 18-41; types/proof.rs
    44-59; types/proof/definition.rs 18-39 and 236-250; lib.rs 168-182 and
    190-208; writer.rs 24-28, 86-92, 95-115).

    The [borsh] crate (0.10, not vendored) is written here from its
    specification: integers are little endian, [usize] as [u64]; a [Vec] is its
    length as [u32] and its elements; an array is its elements; [Option] is a
    byte 0 or 1, [bool] likewise; an [enum] is the number of the variant as a byte; a
    [BTreeMap] or [BTreeSet] is the [Vec] of its entries in order, and is read by
    collecting the entries, in whatever order they come; [Box] and
    [PhantomData] add nothing.

    Simplifications: error messages are dropped, so reading yields an option;
    writing is total (a [Vec] longer than a [u32] is an error in Rust; the
    theorems ask for shorter ones); a 64-bit [usize]. *)
From Verif Require Import Base JmtNibModel JmtModel JmtChildrenModel.
Local Open Scope N_scope.

(** A reader takes a value off the front of the bytes. *)
Definition dec (A : Type) : Type := bytes -> option (A * bytes).
Definition dret {A} (a : A) : dec A := fun bs => Some (a, bs).
Definition dfail {A} : dec A := fun _ => None.
Definition dbind {A B} (d : dec A) (f : A -> dec B) : dec B :=
  fun bs => match d bs with Some (a, rest) => f a rest | None => None end.
(** [BorshDeserialize::try_from_slice]: nothing may be left. *)
Definition whole {A} (d : dec A) (bs : bytes) : option A :=
  match d bs with Some (a, []) => Some a | _ => None end.

(** ** Primitive types *)
Fixpoint enc_le (n : nat) (x : N) : bytes :=
  match n with O => [] | S n => byte_of (x mod 256) :: enc_le n (x / 256) end.
Fixpoint dec_le (n : nat) : dec N :=
  match n with
  | O => dret 0
  | S n => fun bs => match bs with
                     | [] => None
                     | b :: bs => dbind (dec_le n) (fun x => dret (Byte.to_N b + 256 * x)) bs
                     end
  end.
Definition enc_u8 := enc_le 1.   Definition dec_u8 := dec_le 1.
Definition enc_u32 := enc_le 4.  Definition dec_u32 := dec_le 4.
Definition enc_u64 := enc_le 8.  Definition dec_u64 := dec_le 8.
Definition enc_usize (n : nat) : bytes := enc_u64 (N.of_nat n).
Definition dec_usize : dec nat := dbind dec_u64 (fun x => dret (N.to_nat x)).
Definition enc_bool (b : bool) : bytes := enc_u8 (if b then 1 else 0).
Definition dec_bool : dec bool :=
  dbind dec_u8 (fun x => match x with 0 => dret false | 1 => dret true | _ => dfail end).
Definition enc_option {A} (e : A -> bytes) (o : option A) : bytes :=
  match o with None => enc_u8 0 | Some a => enc_u8 1 ++ e a end.
Definition dec_option {A} (d : dec A) : dec (option A) :=
  dbind dec_u8 (fun x => match x with
                         | 0 => dret None
                         | 1 => dbind d (fun a => dret (Some a))
                         | _ => dfail
                         end).
(** [n] elements one after the other. *)
Fixpoint dec_times {A} (d : dec A) (n : nat) : dec (list A) :=
  match n with
  | O => dret []
  | S n => dbind d (fun a => dbind (dec_times d n) (fun l => dret (a :: l)))
  end.
Definition enc_vec {A} (e : A -> bytes) (l : list A) : bytes :=
  enc_u32 (N.of_nat (length l)) ++ flat_map e l.
Definition dec_vec {A} (d : dec A) : dec (list A) :=
  dbind dec_u32 (fun n => dec_times d (N.to_nat n)).
Definition enc_byte (b : byte) : bytes := [b].
Definition dec_byte : dec byte := fun bs => match bs with [] => None | b :: bs => Some (b, bs) end.
(** [u8; 32]. *)
Definition enc_32 (b : bytes) : bytes := b.
Definition dec_32 : dec bytes := dec_times dec_byte 32.

(** ** Keys and nodes *)
(** nibble_path.rs 31-41 and node_type.rs 51-57. *)
Definition bkey : Type := N * npath.
Definition enc_path (p : npath) : bytes := enc_usize (np_num p) ++ enc_vec enc_byte (np_bytes p).
Definition dec_path : dec npath :=
  dbind dec_usize (fun n => dbind (dec_vec dec_byte) (fun b => dret (NPath n b))).
Definition enc_key (k : bkey) : bytes := enc_u64 (fst k) ++ enc_path (snd k).
Definition dec_key : dec bkey := dbind dec_u64 (fun v => dbind dec_path (fun p => dret (v, p))).

(** node_type.rs 115-123. *)
Definition enc_ntype (t : ntype) : bytes :=
  match t with
  | TLeaf => enc_u8 0
  | TLegacy => enc_u8 1
  | TInternal n => enc_u8 2 ++ enc_u64 n
  end.
Definition dec_ntype : dec ntype :=
  dbind dec_u8 (fun x => match x with
                         | 0 => dret TLeaf
                         | 1 => dret TLegacy
                         | 2 => dbind dec_u64 (fun n => dret (TInternal n))
                         | _ => dfail
                         end).
(** node_type.rs 151-163. *)
Definition enc_child (c : child) : bytes := enc_32 (c_hash c) ++ enc_u64 (c_ver c) ++ enc_ntype (c_type c).
Definition dec_child : dec child :=
  dbind dec_32 (fun h => dbind dec_u64 (fun v => dbind dec_ntype (fun t => dret (Child h v t)))).
(** node_type.rs 199-204: sixteen slots and the counter. *)
Definition enc_children (c : children_arr) : bytes :=
  flat_map (enc_option enc_child) (ca_slots c) ++ enc_usize (ca_num c).
Definition dec_children : dec children_arr :=
  dbind (dec_times (dec_option dec_child) 16) (fun l => dbind dec_usize (fun n => dret (Carr l n))).
(** node_type.rs 321-328; the flag is constant in JmtModel.v and left out there. *)
Record binode := BInode { bi_children : children_arr; bi_count : option N; bi_migration : bool }.
Definition enc_inode (n : binode) : bytes :=
  enc_children (bi_children n) ++ enc_option enc_u64 (bi_count n) ++ enc_bool (bi_migration n).
Definition dec_inode : dec binode :=
  dbind dec_children (fun c => dbind (dec_option dec_u64) (fun n => dbind dec_bool (fun b => dret (BInode c n b)))).
(** node_type.rs 710-715 and 757-767. *)
Inductive bnode := BNull | BInternal (n : binode) | BLeaf (k vh : bytes).
Definition enc_node (n : bnode) : bytes :=
  match n with
  | BNull => enc_u8 0
  | BInternal n => enc_u8 1 ++ enc_inode n
  | BLeaf k vh => enc_u8 2 ++ enc_32 k ++ enc_32 vh
  end.
Definition dec_node : dec bnode :=
  dbind dec_u8 (fun x => match x with
                         | 0 => dret BNull
                         | 1 => dbind dec_inode (fun n => dret (BInternal n))
                         | 2 => dbind dec_32 (fun k => dbind dec_32 (fun vh => dret (BLeaf k vh)))
                         | _ => dfail
                         end).

(** ** Proofs *)
(** types/proof.rs 55-59; definition.rs 21-39 and 246-250. *)
Definition enc_pair32 (p : bytes * bytes) : bytes := enc_32 (fst p) ++ enc_32 (snd p).
Definition dec_pair32 : dec (bytes * bytes) := dbind dec_32 (fun a => dbind dec_32 (fun b => dret (a, b))).
Definition enc_proof (p : proof) : bytes := enc_option enc_pair32 (p_leaf p) ++ enc_vec enc_32 (p_siblings p).
Definition dec_proof : dec proof :=
  dbind (dec_option dec_pair32) (fun l => dbind (dec_vec dec_32) (fun s => dret (Proof l s))).
Definition enc_range (r : list bytes) : bytes := enc_vec enc_32 r.
Definition dec_range : dec (list bytes) := dec_vec dec_32.

(** ** Batches *)
(** The derived order of the key types: fields from the first, a [Vec] or
    array lexicographically. *)
Fixpoint bytes_cmp (a b : bytes) : comparison :=
  match a, b with
  | [], [] => Eq
  | [], _ => Lt
  | _, [] => Gt
  | x :: a, y :: b => match Byte.to_N x ?= Byte.to_N y with Eq => bytes_cmp a b | c => c end
  end.
Definition then_cmp (a b : comparison) : comparison := match a with Eq => b | c => c end.
Definition key_cmp (a b : bkey) : comparison :=
  then_cmp (fst a ?= fst b) (then_cmp (Nat.compare (np_num (snd a)) (np_num (snd b))) (bytes_cmp (np_bytes (snd a)) (np_bytes (snd b)))).
Definition vkey_cmp (a b : N * bytes) : comparison := then_cmp (fst a ?= fst b) (bytes_cmp (snd a) (snd b)).
Definition stale_cmp (a b : N * bkey) : comparison := then_cmp (fst a ?= fst b) (key_cmp (snd a) (snd b)).
(** A [BTreeMap] is the list of its entries in order; [insert] and [collect]
    (a later entry of the same key wins). *)
Fixpoint bt_put {K V} (cmp : K -> K -> comparison) (k : K) (v : V) (l : list (K * V)) : list (K * V) :=
  match l with
  | [] => [(k, v)]
  | (k', v') :: l' =>
      match cmp k k' with
      | Lt => (k, v) :: l
      | Eq => (k', v) :: l'
      | Gt => (k', v') :: bt_put cmp k v l'
      end
  end.
Definition bt_from {K V} (cmp : K -> K -> comparison) (l : list (K * V)) : list (K * V) :=
  fold_left (fun m kv => bt_put cmp (fst kv) (snd kv) m) l [].
Definition enc_map {K V} (ek : K -> bytes) (ev : V -> bytes) (m : list (K * V)) : bytes :=
  enc_vec (fun kv => ek (fst kv) ++ ev (snd kv)) m.
Definition dec_map {K V} (cmp : K -> K -> comparison) (dk : dec K) (dv : dec V) : dec (list (K * V)) :=
  dbind (dec_vec (dbind dk (fun k => dbind dv (fun v => dret (k, v))))) (fun l => dret (bt_from cmp l)).
(** A [BTreeSet] is a map to nothing. *)
Definition enc_nothing (_ : unit) : bytes := [].
Definition dec_nothing : dec unit := dret tt.

(** writer.rs 86-92. *)
Definition enc_stats (s : stats) : bytes :=
  enc_u64 (s_new_nodes s) ++ enc_u64 (s_new_leaves s) ++ enc_u64 (s_stale_nodes s) ++ enc_u64 (s_stale_leaves s).
Definition dec_stats : dec stats :=
  dbind dec_u64 (fun a => dbind dec_u64 (fun b => dbind dec_u64 (fun c => dbind dec_u64 (fun d => dret (Stats a b c d))))).
(** writer.rs 24-28 and 95-115. *)
Record bbatch := BBatch {
  bb_nodes : list (bkey * bnode);
  bb_values : list (N * bytes * option bytes);
  bb_stale : list (N * bkey * unit);
  bb_stats : list stats
}.
Definition enc_vkey (k : N * bytes) : bytes := enc_u64 (fst k) ++ enc_32 (snd k).
Definition dec_vkey : dec (N * bytes) := dbind dec_u64 (fun v => dbind dec_32 (fun k => dret (v, k))).
Definition enc_stale (i : N * bkey) : bytes := enc_u64 (fst i) ++ enc_key (snd i).
Definition dec_stale : dec (N * bkey) := dbind dec_u64 (fun v => dbind dec_key (fun k => dret (v, k))).
Definition enc_batch (b : bbatch) : bytes :=
  enc_map enc_key enc_node (bb_nodes b) ++ enc_map enc_vkey (enc_option (enc_vec enc_byte)) (bb_values b) ++
  enc_map enc_stale enc_nothing (bb_stale b) ++ enc_vec enc_stats (bb_stats b).
Definition dec_batch : dec bbatch :=
  dbind (dec_map key_cmp dec_key dec_node) (fun n =>
  dbind (dec_map vkey_cmp dec_vkey (dec_option (dec_vec dec_byte))) (fun v =>
  dbind (dec_map stale_cmp dec_stale dec_nothing) (fun s =>
  dbind (dec_vec dec_stats) (fun t => dret (BBatch n v s t))))).
