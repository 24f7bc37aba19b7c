(** Model of the text forms of keys and hashes and of [KeyHash::sha256]:
    /repo/jmt/src/lib.rs 184-188 and 230-282. *)
From Verif Require Import Base.

(** A text, by the codes of its characters (all are below 128 here). *)
Notation text := (list nat).

(** The [{:02x}] of lib.rs 276: lower-case digits. *)
Definition lower_digit (n : nat) : nat := if n <? 10 then 48 + n else 87 + n.

(** lib.rs 259-278, one round of the loop of [EscapedByteSlice]. *)
Definition escape_byte (b : byte) : text :=
  let n := bval b in
  if n =? 10 then [92; 110]
  else if n =? 13 then [92; 114]
  else if n =? 9 then [92; 116]
  else if (n =? 92) || (n =? 34) then [92; n]
  else if n =? 0 then [92; 48]
  else if (32 <=? n) && (n <? 127) then [n]
  else [92; 120; lower_digit (n / 16); lower_digit (n mod 16)].
(** lib.rs 256-282, what the log shows of a key. *)
Definition escaped (key : bytes) : text :=
  [98; 34] ++ concat (map escape_byte key) ++ [34].

(** The three hash types, lib.rs 155-207. *)
Inductive hash_type := KeyHash | ValueHash | RootHash.
(** The names as in lib.rs 232, 240 and 248. *)
Definition type_name (t : hash_type) : text :=
  match t with
  | KeyHash => [75; 101; 121; 72; 97; 115; 104]
  | ValueHash => [86; 97; 108; 117; 101; 72; 97; 115; 104]
  | RootHash => [82; 111; 111; 116; 72; 97; 115; 104]
  end.
(** [hex::encode]. *)
Definition hex_text (h : bytes) : text :=
  concat (map (fun b => [lower_digit (bval b / 16); lower_digit (bval b mod 16)]) h).
(** lib.rs 230-252: a tuple struct with one string field, not in the pretty
    form. *)
Definition shown_hash (t : hash_type) (h : bytes) : text :=
  type_name t ++ [40; 34] ++ hex_text h ++ [34; 41].

(** ** [KeyHash::sha256] *)
(** Types a key can have.  An integer or a float has its width in bytes; a
    struct or tuple is built from pairs and the unit; an enum has its default
    variant's place and content; a list stands for [Vec], sets and maps. *)
Inductive key_type :=
| TUnit
| TBool
| TInt (width : nat)
| TFloat (width : nat)
| TChar
| TString
| TOption (a : key_type)
| TList (a : key_type)
| TArray (n : nat) (a : key_type)
| TPair (a b : key_type)
| TEnum (place : N) (a : key_type).
(** Values, as serde sees them. *)
Inductive value :=
| VUnit
| VBool (b : bool)
| VInt (width : nat) (n : N)
| VText (s : bytes)
| VChar (s : bytes)
| VNone
| VSome (v : value)
| VList (l : list value)
| VArray (l : list value)
| VPair (a b : value)
| VVariant (place : N) (v : value).
(** [Default::default()] of the standard types, and of derived ones. *)
Fixpoint default_of (t : key_type) : value :=
  match t with
  | TUnit => VUnit
  | TBool => VBool false
  | TInt w | TFloat w => VInt w 0
  | TChar => VChar [Byte.x00]
  | TString => VText []
  | TOption _ => VNone
  | TList _ => VList []
  | TArray n a => VArray (repeat (default_of a) n)
  | TPair a b => VPair (default_of a) (default_of b)
  | TEnum p a => VVariant p (default_of a)
  end.
(** The low [w] bytes, least first. *)
Fixpoint le_bytes (w : nat) (n : N) : bytes :=
  match w with
  | O => []
  | S w' => match Byte.of_N (n mod 256) with Some b => b | None => Byte.x00 end :: le_bytes w' (n / 256)
  end.
(** [bincode::serialize] (the crate is not in /repo; version 1 as documented):
    fixed width little-endian integers, 64-bit lengths, a byte for the tag of
    an option, 32 bits for the place of a variant. *)
Fixpoint bincode (v : value) : bytes :=
  match v with
  | VUnit => []
  | VBool b => [if b then Byte.x01 else Byte.x00]
  | VInt w n => le_bytes w n
  | VText s => le_bytes 8 (N.of_nat (length s)) ++ s
  | VChar s => s
  | VNone => [Byte.x00]
  | VSome v => Byte.x01 :: bincode v
  | VList l => le_bytes 8 (N.of_nat (length l)) ++ concat (map bincode l)
  | VArray l => concat (map bincode l)
  | VPair a b => bincode a ++ bincode b
  | VVariant p v => le_bytes 4 p ++ bincode v
  end.
(** lib.rs 185-187, [KeyHash::sha256::<K>()]: the only argument is a type. *)
Definition key_sha256 (sha : bytes -> bytes) (t : key_type) : bytes :=
  sha (bincode (default_of t)).
