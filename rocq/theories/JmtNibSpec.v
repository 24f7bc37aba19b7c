(** Vocabulary for the byte, bit and nibble properties: numbers, lists and
    order, without the model's bit operations. *)
From Verif Require Import Base JmtSpec.
Local Open Scope nat_scope.

(** The two hexadecimal digits of each byte. *)
Definition digits (k : bytes) : list N :=
  flat_map (fun b => [(Byte.to_N b / 16)%N; (Byte.to_N b mod 16)%N]) k.

(** The four binary digits of a number below 16, most significant first. *)
Definition digit_bits (x : N) : list bool :=
  [N.odd (x / 8); N.odd (x / 4); N.odd (x / 2); N.odd x].

(** [n] is the length of the longest common prefix of two lists. *)
Definition is_common_prefix_len {A} (x y : list A) (n : nat) : Prop :=
  n <= length x /\ n <= length y /\ take n x = take n y /\
  forall a b, x !! n = Some a -> y !! n = Some b -> a <> b.

(** Strictly ascending keys, byte strings compared as strings of numbers. *)
Inductive bytes_lt : bytes -> bytes -> Prop :=
| bytes_lt_nil b k : bytes_lt [] (b :: k)
| bytes_lt_head a b k l : (Byte.to_N a < Byte.to_N b)%N -> bytes_lt (a :: k) (b :: l)
| bytes_lt_tail a k l : bytes_lt k l -> bytes_lt (a :: k) (a :: l).
Definition sorted_keys {A} (kvs : list (bytes * A)) : Prop :=
  forall i j ki kj, i < j -> fst <$> kvs !! i = Some ki -> fst <$> kvs !! j = Some kj ->
    bytes_lt ki kj.

(** Consecutive non-empty closed index ranges that cover [from .. upto-1]. *)
Fixpoint tiles (from upto : nat) (rs : list (nat * nat)) : Prop :=
  match rs with
  | [] => from = upto
  | (l, r) :: rs' => l = from /\ l <= r < upto /\ tiles (S r) upto rs'
  end.

(** The big-endian value of a byte string. *)
Fixpoint be_number (b : bytes) : N :=
  match b with
  | [] => 0
  | y :: b' => Byte.to_N y * 256 ^ N.of_nat (length b') + be_number b'
  end%N.

(** ** The binary tree over the sixteen slots of an internal node

    A slot is empty, or holds a hash and whether it is a leaf.  A subtree
    without children has the empty hash; one whose only child is a leaf is that
    leaf. *)
Definition slot := option (bytes * bool).
Definition filled (l : list slot) : list (bytes * bool) := omap id l.
Fixpoint slots_hash (node_hash : bytes -> bytes -> bytes) (empty_hash : bytes)
  (h : nat) (l : list slot) : bytes :=
  match filled l, h with
  | [], _ => empty_hash
  | [(x, true)], _ => x
  | (x, _) :: _, O => x
  | _, S h' =>
      node_hash (slots_hash node_hash empty_hash h' (take (2 ^ h') l))
                (slots_hash node_hash empty_hash h' (drop (2 ^ h') l))
  end.

(** Of [2^h] things in a row, those below a string of bits. *)
Fixpoint below {A} (h : nat) (l : list A) (q : list bool) : list A :=
  match h, q with
  | S h', b :: q' => below h' (if b then drop (2 ^ h') l else take (2 ^ h') l) q'
  | _, _ => l
  end.

(** Recombine a hash with the siblings on the way to it, top-most first. *)
Fixpoint recombine (node_hash : bytes -> bytes -> bytes) (q : list bool) (sibs : list bytes)
  (x : bytes) : bytes :=
  match q, sibs with
  | b :: q', s :: sibs' =>
      let y := recombine node_hash q' sibs' x in
      if b then node_hash s y else node_hash y s
  | _, _ => x
  end.
