(** Model of the byte, bit and nibble layer of the Jellyfish Merkle tree:
    /repo/jmt/src/bytes32ext.rs, types/nibble.rs, types/nibble/nibble_path.rs.

    A 32-byte array is a byte list; that it has 32 bytes is a hypothesis where
    it matters. *)
From Verif Require Import Base.
Local Open Scope N_scope.

(** types/nibble.rs 20-46.  [Nibble(u8)] with a value below 16, as its four
    bits, most significant first. *)
Inductive nib := Nib (b3 b2 b1 b0 : bool).

Global Instance nib_eq_dec : EqDecision nib.
Proof. solve_decision. Defined.
Definition nib_tuple (n : nib) : bool * bool * bool * bool :=
  match n with Nib a b c d => (a, b, c, d) end.
Global Program Instance nib_countable : Countable nib :=
  inj_countable' nib_tuple (fun '(a, b, c, d) => Nib a b c d) _.
Next Obligation. by intros []. Qed.

(** nibble.rs 30-34 ([u8::from]) and 42-45 ([as_usize]). *)
Definition nib_val (n : nib) : N :=
  match n with
  | Nib a b c d => 8 * N.b2n a + 4 * N.b2n b + 2 * N.b2n c + N.b2n d
  end.

(** nibble.rs 23-28, [Nibble::from(u8)]; [None] stands for the failed assert. *)
Definition nib_of (x : N) : option nib :=
  if x <? 16
  then Some (Nib (N.testbit x 3) (N.testbit x 2) (N.testbit x 1) (N.testbit x 0))
  else None.

Definition nib_bits (n : nib) : list bool :=
  match n with Nib a b c d => [a; b; c; d] end.

(** The sixteen nibbles in ascending order. *)
Definition all_nibs : list nib :=
  [Nib false false false false; Nib false false false true;
   Nib false false true false; Nib false false true true;
   Nib false true false false; Nib false true false true;
   Nib false true true false; Nib false true true true;
   Nib true false false false; Nib true false false true;
   Nib true false true false; Nib true false true true;
   Nib true true false false; Nib true true false true;
   Nib true true true false; Nib true true true true].

(** bytes32ext.rs 24-30, [get_nibble]: the nibble at an index, [None] for an
    index out of range (a panic in Rust). *)
Definition get_nibble (k : bytes) (i : nat) : option nib :=
  match k !! (i / 2)%nat with
  | None => None
  | Some b =>
      if (i mod 2 =? 0)%nat then nib_of (N.shiftr (Byte.to_N b) 4)
      else nib_of (N.land (Byte.to_N b) 15)
  end.

(** bytes32ext.rs 43-48, [nibble]. *)
Definition nibble_u8 (k : bytes) (i : nat) : option N :=
  match k !! (i / 2)%nat with
  | None => None
  | Some b =>
      let shift := if (i mod 2 =? 0)%nat then 4 else 0 in
      Some (N.land (N.shiftr (Byte.to_N b) shift) 15)
  end.

(** bytes32ext.rs 86-93, [get_bit]. *)
Definition get_bit (k : bytes) (i : nat) : option bool :=
  match k !! (i / 8)%nat with
  | None => None
  | Some b =>
      Some (negb (N.land (N.shiftr (Byte.to_N b) (N.of_nat (7 - i mod 8))) 1 =? 0))
  end.

(** bytes32ext.rs 39-41 and 96-112, [iter_bits]: bits 0..256 in order. *)
Definition iter_bits (k : bytes) : list bool :=
  omap (get_bit k) (seq 0 256).

(** [zip .. take_while(==) .. count] of bytes32ext.rs 32-37. *)
Fixpoint common_count {A} `{EqDecision A} (x y : list A) : nat :=
  match x, y with
  | a :: x', b :: y' => if decide (a = b) then S (common_count x' y') else 0
  | _, _ => 0
  end.

(** bytes32ext.rs 32-37 and 16-18. *)
Definition common_prefix_bits_len (x y : bytes) : nat :=
  common_count (iter_bits x) (iter_bits y).
Definition common_prefix_nibbles_len (x y : bytes) : nat :=
  (common_prefix_bits_len x y / 4)%nat.

(** bytes32ext.rs 51-63, [from_bit_iter]: [buf[i/8] |= 1 << (7 - i%8)] for
    every set bit. *)
Definition byte_of (x : N) : byte :=
  match Byte.of_N x with Some b => b | None => x00 end.
Definition set_bit (buf : bytes) (i : nat) (b : bool) : bytes :=
  if b then
    alter (fun y => byte_of (N.lor (Byte.to_N y) (N.shiftl 1 (N.of_nat (7 - i mod 8)))))
          (i / 8)%nat buf
  else buf.
Fixpoint set_bits (i : nat) (bs : list bool) (buf : bytes) : bytes :=
  match bs with
  | [] => buf
  | b :: bs' => set_bits (S i) bs' (set_bit buf i b)
  end.
Definition from_bit_iter (bs : list bool) : option bytes :=
  if (length bs =? 256)%nat then Some (set_bits 0 bs (repeat x00 32)) else None.

(** nibble_path.rs 31-41.  The packed representation. *)
Record npath := NPath { np_num : nat; np_bytes : bytes }.
Global Instance npath_eq_dec : EqDecision npath.
Proof. solve_decision. Defined.

(** nibble_path.rs 100-104 ([new]; the [checked_precondition] is the bound of
    64 nibbles, a panic here). *)
Definition np_new (b : bytes) : res unit npath :=
  if (length b <=? 32)%nat then Ok (NPath (length b * 2) b) else Panic.
(** nibble_path.rs 107-116 ([new_odd]). *)
Definition np_new_odd (b : bytes) : res unit npath :=
  if (length b <=? 32)%nat then
    match last b with
    | None => Panic
    | Some y => if N.land (Byte.to_N y) 15 =? 0
                then Ok (NPath (length b * 2 - 1) b) else Panic
    end
  else Panic.

(** nibble_path.rs 119-127 ([push]). *)
Definition np_push (p : npath) (n : nib) : res unit npath :=
  if (np_num p <? 64)%nat then
    if (np_num p mod 2 =? 0)%nat then
      Ok (NPath (S (np_num p)) (np_bytes p ++ [byte_of (N.shiftl (nib_val n) 4)]))
    else
      match np_bytes p !! (np_num p / 2)%nat with
      | None => Panic
      | Some y =>
          Ok (NPath (S (np_num p))
                (<[(np_num p / 2)%nat := byte_of (N.lor (Byte.to_N y) (nib_val n))]> (np_bytes p)))
      end
  else Panic.

(** [Nibble::from] with its assert. *)
Definition nib_of_res (x : N) : res unit nib :=
  match nib_of x with Some n => Ok n | None => Panic end.

(** The last element of a list and the rest, if any. *)
Definition unsnoc {A} (l : list A) : option (list A * A) :=
  match rev l with [] => None | x :: r => Some (rev r, x) end.

(** nibble_path.rs 130-144 ([pop]).  The Rust code subtracts 1 from
    [num_nibbles] when a byte was there; an underflow is a panic. *)
Definition np_pop (p : npath) : res unit (npath * option nib) :=
  match unsnoc (np_bytes p) with
  | None => Ok (p, None)
  | Some (init, y) =>
      if (np_num p =? 0)%nat then Panic else
      if (np_num p mod 2 =? 0)%nat then
        match nib_of (N.land (Byte.to_N y) 15) with
        | None => Panic
        | Some n => Ok (NPath (np_num p - 1) (init ++ [byte_of (N.land (Byte.to_N y) 240)]), Some n)
        end
      else
        match nib_of (N.shiftr (Byte.to_N y) 4) with
        | None => Panic
        | Some n => Ok (NPath (np_num p - 1) init, Some n)
        end
  end.

(** nibble_path.rs 147-155 ([last]). *)
Definition np_last (p : npath) : res unit (option nib) :=
  if (np_num p mod 2 =? 0)%nat then
    match last (np_bytes p) with
    | None => Ok None
    | Some y => match nib_of (N.land (Byte.to_N y) 15) with
                | None => Panic | Some n => Ok (Some n) end
    end
  else
    match last (np_bytes p) with
    | None => Panic
    | Some y => match nib_of (N.shiftr (Byte.to_N y) 4) with
                | None => Panic | Some n => Ok (Some n) end
    end.

(** nibble_path.rs 158-163 ([get_bit]) and 166-169 ([get_nibble]). *)
Definition np_get_bit (p : npath) (i : nat) : res unit bool :=
  if (i <? np_num p * 4)%nat then
    match get_bit (np_bytes p) i with None => Panic | Some b => Ok b end
  else Panic.
Definition np_get_nibble (p : npath) (i : nat) : res unit nib :=
  if (i <? np_num p)%nat then
    match np_bytes p !! (i / 2)%nat with
    | None => Panic
    | Some y =>
        match nib_of (N.land (N.shiftr (Byte.to_N y)
                                (if (i mod 2 =? 1)%nat then 0 else 4)) 15) with
        | None => Panic | Some n => Ok n end
    end
  else Panic.

(** nibble_path.rs 172-186: what the full nibble and bit iterators yield. *)
Fixpoint seq_res {A} (l : list (res unit A)) : res unit (list A) :=
  match l with
  | [] => Ok []
  | x :: l' => rbind x (fun a => rbind (seq_res l') (fun r => Ok (a :: r)))
  end.
Definition np_nibbles (p : npath) : res unit (list nib) :=
  seq_res (map (np_get_nibble p) (seq 0 (np_num p))).
Definition np_bits (p : npath) : res unit (list bool) :=
  seq_res (map (np_get_bit p) (seq 0 (np_num p * 4))).

(** nibble_path.rs 51-60 ([from_iter]): push one nibble after the other. *)
Definition np_collect (l : list nib) : res unit npath :=
  fold_left (fun r n => rbind r (fun p => np_push p n)) l (Ok (NPath 0 [])).

(** The nibble sequence of a byte string, two per byte: what
    [NibblePath::new(bytes).nibbles()] yields. *)
Definition hi (b : byte) : nib :=
  default (Nib false false false false) (nib_of (N.shiftr (Byte.to_N b) 4)).
Definition lo (b : byte) : nib :=
  default (Nib false false false false) (nib_of (N.land (Byte.to_N b) 15)).
Definition nibs (k : bytes) : list nib :=
  flat_map (fun b => [hi b; lo b]) k.

(** The bytes of a nibble sequence: what collecting into a [NibblePath] and
    calling [bytes()] gives (nibble_path.rs 51-60, 119-127, 201-203). *)
Definition byte_of_nibs (h l : nib) : byte :=
  byte_of (N.lor (N.shiftl (nib_val h) 4) (nib_val l)).
Fixpoint pack (l : list nib) : bytes :=
  match l with
  | [] => []
  | [h] => [byte_of (N.shiftl (nib_val h) 4)]
  | h :: l' :: r => byte_of_nibs h l' :: pack r
  end.

(** nibble_path.rs 324-346, [skip_common_prefix] on what two iterators have
    left: number of matches and the two rests. *)
Fixpoint skip_common (x y : list nib) : nat * list nib * list nib :=
  match x, y with
  | a :: x', b :: y' =>
      if decide (a = b)
      then let '(n, rx, ry) := skip_common x' y' in (S n, rx, ry)
      else (0%nat, x, y)
  | _, _ => (0%nat, x, y)
  end.

(** types/nibble.rs 68-96, [NibbleRangeIterator] over key-sorted pairs.  The
    binary search for the last index with the current nibble; the fuel is the
    number of pairs, at most that many halvings are needed. *)
Definition kv_nibble (kvs : list (bytes * bytes)) (ix i : nat) : option N :=
  match kvs !! i with None => None | Some kv => nibble_u8 (fst kv) ix end.
Fixpoint nri_search (fuel : nat) (kvs : list (bytes * bytes)) (ix : nat) (cur : N) (i j : nat)
  : res unit nat :=
  if (i <? j)%nat then
    match fuel with
    | O => OutOfFuel
    | S f =>
        let mid := (j - (j - i) / 2)%nat in
        match kv_nibble kvs ix mid with
        | None => Panic
        | Some x => if cur <? x then nri_search f kvs ix cur i (mid - 1)
                    else nri_search f kvs ix cur mid j
        end
    end
  else Ok i.
Definition nri_next (kvs : list (bytes * bytes)) (ix pos : nat) : res unit (option (nat * nat)) :=
  if (pos <? length kvs)%nat then
    match kv_nibble kvs ix pos with
    | None => Panic
    | Some cur =>
        rbind (nri_search (length kvs) kvs ix cur pos (length kvs - 1))
          (fun i => Ok (Some (pos, i)))
    end
  else Ok None.
(** Collecting the iterator: all ranges in order. *)
Fixpoint nri_collect (fuel : nat) (kvs : list (bytes * bytes)) (ix pos : nat)
  : res unit (list (nat * nat)) :=
  match fuel with
  | O => OutOfFuel
  | S f =>
      rbind (nri_next kvs ix pos) (fun o =>
        match o with
        | None => Ok []
        | Some (l, i) => rbind (nri_collect f kvs ix (S i)) (fun r => Ok ((l, i) :: r))
        end)
  end.
(** types/nibble.rs 56-63 ([new], with its assert) and the whole iteration. *)
Definition nibble_ranges (kvs : list (bytes * bytes)) (ix : nat) : res unit (list (nat * nat)) :=
  if (ix <? 64)%nat then nri_collect (S (length kvs)) kvs ix 0 else Panic.
