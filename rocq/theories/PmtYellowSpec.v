(** The Merkle-Patricia root of a set of bindings, following appendix D of the
    Ethereum Yellow Paper.  It is a recursion on the bindings and shares only
    the RLP encoder with the model. *)
From Verif Require Import Base RlpModel.

Definition nibble_path := list nat.
Definition binding := (nibble_path * bytes)%type.

Definition byte_of_nat (n : nat) : byte := match Byte.of_nat n with Some b => b | None => Byte.x00 end.

(** The nibbles of a key, most significant first. *)
Definition nibbles (k : bytes) : nibble_path := concat (map (fun b => [bval b / 16; bval b mod 16]) k).

(** Hex-prefix encoding HP(x, t). *)
Fixpoint pairs (x : nibble_path) : bytes :=
  match x with a :: b :: x' => byte_of_nat (16 * a + b) :: pairs x' | _ => [] end.
Definition hex_prefix (x : nibble_path) (t : bool) : bytes :=
  let f := if t then 2 else 0 in
  match Nat.odd (length x), x with
  | true, a :: x' => byte_of_nat (16 * (f + 1) + a) :: pairs x'
  | _, _ => byte_of_nat (16 * f) :: pairs x
  end.

(** Length of the longest prefix shared by two paths, by all paths of a list. *)
Fixpoint shared2 (p q : nibble_path) : nat :=
  match p, q with
  | x :: p', y :: q' => if x =? y then S (shared2 p' q') else 0
  | _, _ => 0
  end.
Definition shared (J : list binding) : nat :=
  match J with
  | [] => 0
  | B :: J' => fold_right (fun C n => Nat.min (shared2 B.1 C.1) n) (length B.1) J'
  end.

(** The bindings below one nibble, and the value bound to the empty path. *)
Definition below (x : nat) (J : list binding) : list binding :=
  concat (map (fun I : binding => match I.1 with y :: p => if y =? x then [(p, I.2)] else [] | [] => [] end) J).
Definition here (J : list binding) : bytes :=
  concat (map (fun I : binding => match I.1 with [] => I.2 | _ => [] end) J).

Section yellow.
  Context (keccak : bytes -> bytes).

  (** n(J, i): a node inside its parent. *)
  Definition embed (c : bytes) : bytes := if length c <? 32 then c else rlp_str (keccak c).

  (** c(J, i), the RLP of the node for [J]; [fuel] exceeds the path lengths. *)
  Fixpoint yellow (fuel : nat) (J : list binding) : bytes :=
    match fuel with
    | O => []
    | S f =>
        match J with
        | [] => rlp_str []
        | [(p, v)] => rlp_list [rlp_str (hex_prefix p true); rlp_str v]
        | (p, _) :: _ =>
            let j := shared J in
            if j =? 0 then
              rlp_list (map (fun x => embed (yellow f (below x J))) (seq 0 16) ++ [rlp_str (here J)])
            else
              rlp_list [rlp_str (hex_prefix (take j p) false);
                        embed (yellow f (map (fun I : binding => (drop j I.1, I.2)) J))]
        end
    end.

  (** TRIE(J). *)
  Definition yellow_root (fuel : nat) (m : list (bytes * bytes)) : bytes :=
    keccak (yellow fuel (map (fun kv => (nibbles kv.1, kv.2)) m)).
End yellow.
