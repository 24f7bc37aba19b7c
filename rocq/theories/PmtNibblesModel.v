(** Model of pmt/src/nibbles.rs. *)
From Verif Require Import Base.
Open Scope res_scope.

(** Errors of the trie, pmt/src/error.rs l.1-34.  Payload strings are dropped;
    the payload of [MissingTrieNode] is kept. *)
Inductive terr : Type :=
| MissingTrieNode (node_hash : bytes) (traversed : option (list nat))
    (root_hash : option bytes) (err_key : option bytes)
| InvalidData
| InvalidProof
| Decoder
| DatabaseErr
| NodeErr.
Global Instance terr_eq_dec : EqDecision terr.
Proof. solve_decision. Defined.

Notation tres := (res terr).

(** nibbles.rs l.8-10: [hex_data : Vec<u8>].  A symbol is a [nat]; the codec only
    ever produces 0..15 and the terminator 16. *)
Definition hex := list nat.

(** [item / 16] and [item % 16] on u8, nibbles.rs l.22-23. *)
Definition hi (b : byte) : nat := bval b / 16.
Definition lo (b : byte) : nat := bval b mod 16.

(** Conversion to u8 of an arithmetic result; overflow panics (debug build). *)
Definition u8 (n : nat) : tres byte :=
  match Byte.of_nat n with Some b => Ok b | None => Panic end.

(** The loop pushing two nibbles per byte, nibbles.rs l.21-24 and l.47-50. *)
Fixpoint unpack (raw : bytes) : hex :=
  match raw with
  | [] => []
  | b :: raw' => hi b :: lo b :: unpack raw'
  end.

(** nibbles.rs l.19-29. *)
Definition from_raw (raw : bytes) (leaf : bool) : hex :=
  unpack raw ++ (if leaf then [16] else []).

(** nibbles.rs l.31-56: [compact[0]] panics on the empty slice, flags above 3 panic. *)
Definition from_compact (compact : bytes) : tres hex :=
  match compact with
  | [] => Panic
  | flag :: rest =>
      match hi flag with
      | 0 => Ok (unpack rest)
      | 1 => Ok (lo flag :: unpack rest)
      | 2 => Ok (unpack rest ++ [16])
      | 3 => Ok (lo flag :: unpack rest ++ [16])
      | _ => Panic
      end
  end.

(** nibbles.rs l.58-60: [len - 1] underflows (panics) on the empty path. *)
Definition is_leaf (h : hex) : tres bool :=
  match last h with
  | None => Panic
  | Some x => Ok (x =? 16)
  end.

(** The loop [for i in 0..(hex.len()/2)], nibbles.rs l.85-87 and l.101-103. *)
Fixpoint pack (h : hex) : tres bytes :=
  match h with
  | a :: b :: h' =>
      try! x := u8 (a * 16 + b) in
      try! r := pack h' in
      Ok (x :: r)
  | _ => Ok []
  end.

(** nibbles.rs l.62-90. *)
Definition encode_compact (h : hex) : tres bytes :=
  try! leaf := is_leaf h in
  let body := if leaf then take (length h - 1) h else h in
  let flag := if leaf then 32 else 0 in
  if Nat.odd (length body) then
    match body with
    | [] => Panic
    | x :: rest =>
        try! v := u8 (16 + x + flag) in
        try! r := pack rest in
        Ok (v :: r)
    end
  else
    try! v := u8 flag in
    try! r := pack body in
    Ok (v :: r).

(** nibbles.rs l.92-106. *)
Definition encode_raw_nibbles (h : hex) : tres (bytes * bool) :=
  try! leaf := is_leaf h in
  let body := if leaf then take (length h - 1) h else h in
  try! r := pack body in
  Ok (r, leaf).

(** nibbles.rs l.116-118: indexing panics out of range. *)
Definition at_ (h : hex) (i : nat) : tres nat :=
  match h !! i with Some x => Ok x | None => Panic end.

(** nibbles.rs l.120-130. *)
Fixpoint common_prefix (a b : hex) : nat :=
  match a, b with
  | x :: a', y :: b' => if x =? y then S (common_prefix a' b') else 0
  | _, _ => 0
  end.

(** nibbles.rs l.136-138: slicing panics unless [start <= end <= len]. *)
Definition slice (h : hex) (s e : nat) : tres hex :=
  if (s <=? e) && (e <=? length h) then Ok (take (e - s) (drop s h)) else Panic.

(** nibbles.rs l.132-134. *)
Definition offset (h : hex) (i : nat) : tres hex := slice h i (length h).

(** nibbles.rs l.144-147. *)
Definition join (a b : hex) : hex := a ++ b.
