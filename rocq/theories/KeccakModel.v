(** Keccak-256: /repo/serde_hash/src/lib.rs l.20-24 ([keccak], which wraps the
    external [keccak_hash::write_keccak]), used by pmt/src/inner.rs l.61, l.267,
    l.283, l.729.  The permutation follows the published algorithm and is checked
    on test vectors below.  The theorems treat the hash as a parameter; this
    definition makes examples and counterexamples concrete.
    Rate 1088 bits, capacity 512 bits, padding 0x01 ... 0x80, 32 bytes output. *)
From Verif Require Import Base.
Local Open Scope N_scope.

Definition mask64 : N := 0xFFFFFFFFFFFFFFFF.
Definition rotl (x : N) (n : N) : N :=
  let y := N.shiftl x n in N.lor (N.land y mask64) (N.shiftr y 64).

Definition keccak_rc : list N :=
  [0x0000000000000001; 0x0000000000008082; 0x800000000000808A; 0x8000000080008000;
   0x000000000000808B; 0x0000000080000001; 0x8000000080008081; 0x8000000000008009;
   0x000000000000008A; 0x0000000000000088; 0x0000000080008009; 0x000000008000000A;
   0x000000008000808B; 0x800000000000008B; 0x8000000000008089; 0x8000000000008003;
   0x8000000000008002; 0x8000000000000080; 0x000000000000800A; 0x800000008000000A;
   0x8000000080008081; 0x8000000000008080; 0x0000000080000001; 0x8000000080008008].

(** Rotation offsets, lane (x, y) at position x + 5 y. *)
Definition keccak_rot : list N :=
  [0; 1; 62; 28; 27; 36; 44; 6; 55; 20; 3; 10; 43; 25; 39; 41; 45; 15; 21; 8; 18; 2; 61; 56; 14].

Definition lane (s : list N) (x y : nat) : N := nth (x mod 5 + 5 * (y mod 5))%nat s 0.
Definition lanes (f : nat -> nat -> N) : list N :=
  map (fun i => f (i mod 5)%nat (i / 5)%nat) (seq 0 25).

Definition not64 (x : N) : N := N.lxor x mask64.

Definition keccak_round (s : list N) (rc : N) : list N :=
  let c := map (fun x => N.lxor (lane s x 0) (N.lxor (lane s x 1) (N.lxor (lane s x 2)
             (N.lxor (lane s x 3) (lane s x 4))))) (seq 0 5) in
  let d := map (fun x => N.lxor (nth ((x + 4) mod 5)%nat c 0) (rotl (nth ((x + 1) mod 5)%nat c 0) 1)) (seq 0 5) in
  let a := lanes (fun x y => N.lxor (lane s x y) (nth x d 0)) in
  let b := lanes (fun x y =>
             (* lane (x, y) of b comes from lane (x', y') with y = x' ... inverse of (y, 2x+3y) *)
             let x' := (x + 3 * y)%nat in let y' := x in
             rotl (lane a x' y') (nth (x' mod 5 + 5 * (y' mod 5))%nat keccak_rot 0)) in
  let e := lanes (fun x y => N.lxor (lane b x y) (N.land (not64 (lane b (x + 1) y)) (lane b (x + 2) y))) in
  match e with h :: t => N.lxor h rc :: t | [] => [] end.

Definition keccak_f (s : list N) : list N := fold_left keccak_round keccak_rc s.

(** Little-endian packing of 8 bytes. *)
Fixpoint le_num (l : bytes) : N :=
  match l with [] => 0 | b :: l' => N.lor (Byte.to_N b) (N.shiftl (le_num l') 8) end.
Fixpoint le_bytes (n : nat) (x : N) : bytes :=
  match n with
  | O => []
  | S n' => match Byte.of_N (N.land x 255) with Some b => b | None => Byte.x00 end :: le_bytes n' (N.shiftr x 8)
  end.
Fixpoint chunks (fuel : nat) (n : nat) (l : bytes) : list bytes :=
  match fuel, l with
  | S f, _ :: _ => take n l :: chunks f n (drop n l)
  | _, _ => []
  end.

Definition keccak_pad (m : bytes) : bytes :=
  let r := (136 - length m mod 136)%nat in
  if (r =? 1)%nat then m ++ [Byte.x81] else m ++ [Byte.x01] ++ replicate (r - 2)%nat Byte.x00 ++ [Byte.x80].

Definition keccak_absorb (s : list N) (block : bytes) : list N :=
  let ls := map le_num (chunks 17 8 block) in
  keccak_f (map (fun xy => N.lxor xy.1 xy.2) (combine s (ls ++ replicate 8 0))).

Definition keccak256 (m : bytes) : bytes :=
  let p := keccak_pad m in
  let s := fold_left keccak_absorb (chunks (length p) 136 p) (replicate 25 0) in
  concat (map (le_bytes 8) (take 4 s ++ replicate (4 - length (take 4 s)) 0)).

Lemma le_bytes_length n x : length (le_bytes n x) = n.
Proof. revert x. induction n; intros x; cbn [le_bytes length]; auto. Qed.

Lemma keccak256_length m : length (keccak256 m) = 32%nat.
Proof.
  unfold keccak256. set (s := fold_left _ _ _). clearbody s.
  set (l := take 4 s ++ _).
  assert (Hl : length l = 4%nat) by (unfold l; rewrite app_length, replicate_length, take_length; lia).
  clearbody l. destruct l as [|a [|b [|c [|d [|]]]]]; try done.
Qed.

(** Published test vectors: the empty string, "abc", and the RLP of the empty string. *)
Definition hexs (l : list N) : bytes := map (fun n => match Byte.of_N n with Some b => b | None => Byte.x00 end) l.
Example keccak256_empty : keccak256 [] = hexs
  [0xc5;0xd2;0x46;0x01;0x86;0xf7;0x23;0x3c;0x92;0x7e;0x7d;0xb2;0xdc;0xc7;0x03;0xc0;
   0xe5;0x00;0xb6;0x53;0xca;0x82;0x27;0x3b;0x7b;0xfa;0xd8;0x04;0x5d;0x85;0xa4;0x70].
Proof. vm_compute. reflexivity. Qed.
Example keccak256_abc : keccak256 [Byte.x61; Byte.x62; Byte.x63] = hexs
  [0x4e;0x03;0x65;0x7a;0xea;0x45;0xa9;0x4f;0xc7;0xd4;0x7b;0xa8;0x26;0xc8;0xd6;0x67;
   0xc0;0xd1;0xe6;0xe3;0x3a;0x64;0xa0;0x36;0xec;0x44;0xf5;0x8f;0xa1;0x2d;0x6c;0x45].
Proof. vm_compute. reflexivity. Qed.
Example keccak256_null_rlp : keccak256 [Byte.x80] = hexs
  [0x56;0xe8;0x1f;0x17;0x1b;0xcc;0x55;0xa6;0xff;0x83;0x45;0xe6;0x92;0xc0;0xf8;0x6e;
   0x5b;0x48;0xe0;0x1b;0x99;0x6c;0xad;0xc0;0x01;0x62;0x2f;0xb5;0xe3;0x63;0xb4;0x21].
Proof. vm_compute. reflexivity. Qed.
