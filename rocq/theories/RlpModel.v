(** Model of the part of the [rlp] crate (0.5) used by pmt/src/inner.rs.

    The crate is an external dependency and its source is not in /repo; the
    definitions follow its documented behaviour ([RlpStream] on the encoding
    side, the lazy [Rlp] view on the decoding side). *)
From Verif Require Import Base PmtNibblesModel.
Open Scope res_scope.

(** The byte with value [n mod 256] ([as u8]). *)
Definition byte_of (n : N) : byte :=
  match Byte.of_N (n mod 256) with Some b => b | None => Byte.x00 end.

(** Big-endian bytes of a positive length, without leading zeros; [k] bounds
    the number of bytes (8 for a 64-bit usize). *)
Fixpoint be_bytes (k : nat) (n : N) : bytes :=
  match k with
  | O => []
  | S k' => if (n =? 0)%N then [] else be_bytes k' (n / 256) ++ [byte_of n]
  end.

(** Header of a string ([base] 0x80) or list ([base] 0xc0) payload of length [n]. *)
Definition rlp_header (base : N) (n : nat) : bytes :=
  if n <=? 55 then [byte_of (base + N.of_nat n)]
  else let l := be_bytes 8 (N.of_nat n) in
       byte_of (base + 55 + N.of_nat (length l)) :: l.

(** [RlpStream::append] of a byte string. *)
Definition rlp_str (s : bytes) : bytes :=
  match s with
  | [b] => if bval b <? 128 then [b] else rlp_header 128 1 ++ s
  | _ => rlp_header 128 (length s) ++ s
  end.

(** [RlpStream::new_list] with the given encoded items, then [out]. *)
Definition rlp_list (items : list bytes) : bytes :=
  rlp_header 192 (length (concat items)) ++ concat items.

(** [rlp::NULL_RLP] and [append_empty_data]. *)
Definition null_rlp : bytes := [Byte.x80].

(** Big-endian value of a byte string ([decode_usize]). *)
Definition be_value (l : bytes) : N :=
  fold_left (fun acc b => acc * 256 + Byte.to_N b)%N l 0%N.

(** [PayloadInfo::from] on long headers: the length must have no leading zero,
    be complete, and exceed 55. *)
Definition long_info (l : bytes) (len_of_len : nat) : tres (nat * nat) :=
  match l !! 1 with
  | None => Err Decoder
  | Some b1 =>
      if bval b1 =? 0 then Err Decoder
      else if length l <? 1 + len_of_len then Err Decoder
      else let v := be_value (take len_of_len (drop 1 l)) in
           if (v <=? 55)%N then Err Decoder
           (* compared before conversion: a length beyond the buffer is rejected *)
           else if (N.of_nat (length l) <? v)%N then Err Decoder
           else Ok (1 + len_of_len, N.to_nat v)
  end.

(** [BasicDecoder::payload_info]: header length and value length of the first
    item, which must be complete. *)
Definition payload_info (l : bytes) : tres (nat * nat) :=
  match l with
  | [] => Err Decoder
  | b :: _ =>
      try! (h, v) :=
        (if bval b <? 128 then Ok (0, 1)
         else if bval b <=? 183 then Ok (1, bval b - 128)
         else if bval b <=? 191 then long_info l (bval b - 183)
         else if bval b <=? 247 then Ok (1, bval b - 192)
         else long_info l (bval b - 247)) in
      if h + v <=? length l then Ok (h, v) else Err Decoder
  end.

(** [Rlp::is_list], [Rlp::is_data]. *)
Definition rlp_is_list (l : bytes) : bool :=
  match l with [] => false | b :: _ => 192 <=? bval b end.
Definition rlp_is_data (l : bytes) : bool :=
  match l with [] => false | b :: _ => bval b <? 192 end.

(** [Rlp::is_empty]: first byte 0xc0 or 0x80. *)
Definition rlp_is_empty (l : bytes) : bool :=
  match l with [] => false | b :: _ => (bval b =? 192) || (bval b =? 128) end.

(** [Rlp::size]: value length of a data item, 0 when malformed. *)
Definition rlp_size (l : bytes) : nat :=
  if rlp_is_data l then
    match payload_info l with Ok (_, v) => v | _ => 0 end
  else 0.

(** [Rlp::data]: the payload of the item. *)
Definition rlp_data (l : bytes) : tres bytes :=
  try! (h, v) := payload_info l in
  Ok (take v (drop h l)).

(** Skipping [i] items of a list payload and cutting out the next one
    ([consume_items] followed by [payload_info] in [Rlp::at]). *)
Fixpoint nth_item (payload : bytes) (i : nat) : tres bytes :=
  try! (h, v) := payload_info payload in
  match i with
  | O => Ok (take (h + v) payload)
  | S i' => nth_item (drop (h + v) payload) i'
  end.

(** [Rlp::at].  The crate's offset cache is a pure optimisation on complete
    items and is not modelled (with trailing bytes after the list it would let
    items be read past the list payload). *)
Definition rlp_at (l : bytes) (i : nat) : tres bytes :=
  if rlp_is_list l then
    try! (h, v) := payload_info l in
    nth_item (take v (drop h l)) i
  else Err Decoder.

(** [Rlp::item_count] = number of items readable in sequence from the payload;
    [fuel] bounds the number of items by the payload length. *)
Fixpoint count_items (fuel : nat) (payload : bytes) : nat :=
  match fuel with
  | O => 0
  | S f =>
      match payload_info payload with
      | Ok (h, v) => S (count_items f (drop (h + v) payload))
      | _ => 0
      end
  end.
Definition rlp_item_count (l : bytes) : nat :=
  match payload_info l with
  | Ok (h, v) => count_items (length l) (take v (drop h l))
  | _ => 0
  end.

(** [Rlp::prototype]. *)
Inductive prototype := PNull | PData (n : nat) | PList (n : nat).
Definition rlp_prototype (l : bytes) : prototype :=
  if rlp_is_data l then PData (rlp_size l)
  else if rlp_is_list l then PList (rlp_item_count l)
  else PNull.
