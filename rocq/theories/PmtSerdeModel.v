(** Model of the serde form of the Patricia trie: the derives and the hand
    written codecs of pmt/src/inner.rs l.26-47, pmt/src/node.rs l.11-25 and
    l.36-120, pmt/src/nibbles.rs l.172-190 and serde_hash/src/lib.rs l.8-17.

    serde and serde_json are not in /repo; what their derives and the JSON
    format do is taken from their documentation.  A document is its tree of
    values; its spelling as text is not modelled. *)
From Coq Require Import Strings.String Strings.Ascii.
From Verif Require Import Base PmtNibblesModel RlpModel PmtModel.

(** A JSON document.  Strings are their UTF-8 bytes; [JNum] is an unsigned
    integer and [JOther] a boolean or another number. *)
Inductive json :=
| JNull
| JNum (n : nat)
| JStr (s : string)
| JArr (l : list json)
| JObj (l : list (string * json))
| JOther.

(** [hex::encode] on one byte: two lower-case digits. *)
Definition hex_digit (n : nat) : ascii :=
  ascii_of_nat (if n <? 10 then 48 + n else 87 + n).
Fixpoint hex_encode (l : list nat) : string :=
  match l with
  | [] => EmptyString
  | n :: l' => String (hex_digit (n / 16)) (String (hex_digit (n mod 16)) (hex_encode l'))
  end.
(** [hex::decode]: digits of either case, an even number of them. *)
Definition hex_value (c : ascii) : option nat :=
  let n := nat_of_ascii c in
  if (48 <=? n) && (n <=? 57) then Some (n - 48)
  else if (97 <=? n) && (n <=? 102) then Some (n - 87)
  else if (65 <=? n) && (n <=? 70) then Some (n - 55)
  else None.
Fixpoint hex_decode (s : string) : option (list nat) :=
  match s with
  | EmptyString => Some []
  | String _ EmptyString => None
  | String a (String b s') =>
      match hex_value a, hex_value b, hex_decode s' with
      | Some x, Some y, Some l => Some (x * 16 + y :: l)
      | _, _, _ => None
      end
  end.

(** All elements, or nothing if one is refused. *)
Definition all_of {A B} (f : A -> option B) :=
  fix go (l : list A) : option (list B) :=
    match l with
    | [] => Some []
    | x :: l' => match f x, go l' with Some y, Some ys => Some (y :: ys) | _, _ => None end
    end.

(** ** Writing *)
(** node.rs l.11-16 and nibbles.rs l.172-179. *)
Definition ser_hex (l : hex) : json := JStr (hex_encode l).
Definition ser_hex_bytes (b : bytes) : json := ser_hex (map bval b).
(** [Vec<u8>] and [[u8; 32]] by their own [Serialize]: a sequence of numbers.
    [H256] is a newtype (serde_hash/src/lib.rs l.8-17), which JSON does not show. *)
Definition ser_bytes (b : bytes) : json := JArr (map (fun x => JNum (bval x)) b).

(** A variant with content is an object with one entry; [Empty] is a string
    (node.rs l.36-44).  The structs are l.72-86 and l.111-120. *)
Fixpoint ser_node (n : node) : json :=
  match n with
  | NEmpty => JStr "Empty"
  | NLeaf k v => JObj [("Leaf", JObj [("key", ser_hex k); ("value", ser_hex_bytes v)])]
  | NExt p c => JObj [("Extension", JObj [("prefix", ser_hex p); ("node", ser_node c)])]
  | NBranch cs v =>
      JObj [("Branch", JObj [("children", JArr (map ser_node cs));
                             ("value", match v with Some b => ser_bytes b | None => JNull end)])]
  | NHash h => JObj [("Hash", JObj [("hash", ser_bytes h)])]
  end%string.
(** inner.rs l.26-47: the four skipped fields are not written. *)
Definition ser_trie (t : trie) : json :=
  JObj [("root", ser_node (t_root t)); ("root_hash", ser_bytes (t_root_hash t))]%string.

(** ** Reading *)
(** A field of a struct written as an object: unknown entries are skipped, a
    repeated one is refused.  [Some None] when it is absent. *)
Definition field {A} (name : string) (f : json -> option A) :=
  fix go (l : list (string * json)) : option (option A) :=
    match l with
    | [] => Some None
    | (n, j) :: l' =>
        if String.eqb n name then
          match f j, go l' with Some a, Some None => Some (Some a) | _, _ => None end
        else go l'
    end.
(** A derived struct of two fields, from an object in any order or from an
    array by position.  [missing] is what an absent second field stands for. *)
Definition struct2 {A B} (n1 : string) (f : json -> option A) (n2 : string) (g : json -> option B)
    (missing : option B) (j : json) : option (A * B) :=
  match j with
  | JObj l =>
      match field n1 f l, field n2 g l with
      | Some (Some a), Some (Some b) => Some (a, b)
      | Some (Some a), Some None => match missing with Some b => Some (a, b) | None => None end
      | _, _ => None
      end
  | JArr [x; y] => match f x, g y with Some a, Some b => Some (a, b) | _, _ => None end
  | _ => None
  end.
(** A derived struct of one field. *)
Definition struct1 {A} (n1 : string) (f : json -> option A) (j : json) : option A :=
  match j with
  | JObj l => match field n1 f l with Some r => r | None => None end
  | JArr [x] => f x
  | _ => None
  end.

(** nibbles.rs l.181-190. *)
Definition de_hex (j : json) : option hex :=
  match j with JStr s => hex_decode s | _ => None end.
(** node.rs l.18-25. *)
Definition de_hex_bytes (j : json) : option bytes :=
  match de_hex j with Some l => all_of Byte.of_nat l | None => None end.
(** [u8], [Vec<u8>] and [[u8; 32]]. *)
Definition de_byte (j : json) : option byte :=
  match j with JNum n => Byte.of_nat n | _ => None end.
Definition de_bytes (j : json) : option bytes :=
  match j with JArr l => all_of de_byte l | _ => None end.
Definition de_h256 (j : json) : option bytes :=
  match de_bytes j with
  | Some b => if length b =? 32 then Some b else None
  | None => None
  end.
(** [Option<Vec<u8>>]. *)
Definition de_opt_bytes (j : json) : option (option bytes) :=
  match j with
  | JNull => Some None
  | _ => match de_bytes j with Some b => Some (Some b) | None => None end
  end.
(** [[Link; 16]]: exactly as many elements. *)
Definition de_children (f : json -> option node) (j : json) : option (list node) :=
  match j with
  | JArr l => match all_of f l with
              | Some cs => if length cs =? 16 then Some cs else None
              | None => None
              end
  | _ => None
  end.
(** node.rs l.36-44 with the structs of l.72-86 and l.111-120. *)
Fixpoint de_node (j : json) : option node :=
  match j with
  | JStr s => if String.eqb s "Empty" then Some NEmpty else None
  | JObj [(tag, body)] =>
      if String.eqb tag "Empty" then match body with JNull => Some NEmpty | _ => None end
      else if String.eqb tag "Leaf" then
        match struct2 "key" de_hex "value" de_hex_bytes None body with
        | Some (k, v) => Some (NLeaf k v) | None => None
        end
      else if String.eqb tag "Extension" then
        match struct2 "prefix" de_hex "node" de_node None body with
        | Some (p, c) => Some (NExt p c) | None => None
        end
      else if String.eqb tag "Branch" then
        match struct2 "children" (de_children de_node) "value" de_opt_bytes (Some None) body with
        | Some (cs, v) => Some (NBranch cs v) | None => None
        end
      else if String.eqb tag "Hash" then
        match struct1 "hash" de_h256 body with Some h => Some (NHash h) | None => None end
      else None
  | _ => None
  end%string.
(** inner.rs l.26-47: a skipped field gets its [Default]. *)
Definition de_trie (j : json) : option trie :=
  match struct2 "root" de_node "root_hash" de_h256 None j with
  | Some (n, h) => Some (Trie n h ∅ ∅ ∅)
  | None => None
  end%string.
(** The [Default] of the skipped database handle, inner.rs l.35-36: an empty
    [MemoryDB] (db.rs l.61-66). *)
Definition de_db : db := db_new false.

(** [serde_json] refuses documents nested 128 deep or more.  (Entries it skips
    are not counted; here they are.) *)
Fixpoint depth (j : json) : nat :=
  match j with
  | JArr l => S (list_max (map depth l))
  | JObj l => S (list_max (map (fun e => depth e.2) l))
  | _ => 0
  end.
Definition from_json (j : json) : option trie :=
  if depth j <? 128 then de_trie j else None.
