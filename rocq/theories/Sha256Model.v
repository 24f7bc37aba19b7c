(** SHA-256: the hash of nodes and the default hash of keys and values
    (/repo/jmt/src/types/proof.rs l.33-40 and l.73-80, /repo/jmt/src/lib.rs
    l.99-102 [Sha256Jmt], which use the external crate [sha2]).  The function follows the
    published algorithm (FIPS 180-4) and is checked on test vectors below.  The
    theorems treat the hash as a parameter; this definition makes examples
    concrete. *)
From Verif Require Import Base KeccakModel.
Local Open Scope N_scope.

Definition m32 : N := 0xffffffff.
Definition add32 (x y : N) : N := N.land (x + y) m32.
Definition rotr32 (n x : N) : N := N.lor (N.shiftr x n) (N.land (N.shiftl x (32 - n)) m32).
Definition not32 (x : N) : N := N.lxor x m32.

Definition sha256_k : list N :=
  [0x428a2f98; 0x71374491; 0xb5c0fbcf; 0xe9b5dba5; 0x3956c25b; 0x59f111f1; 0x923f82a4; 0xab1c5ed5;
   0xd807aa98; 0x12835b01; 0x243185be; 0x550c7dc3; 0x72be5d74; 0x80deb1fe; 0x9bdc06a7; 0xc19bf174;
   0xe49b69c1; 0xefbe4786; 0x0fc19dc6; 0x240ca1cc; 0x2de92c6f; 0x4a7484aa; 0x5cb0a9dc; 0x76f988da;
   0x983e5152; 0xa831c66d; 0xb00327c8; 0xbf597fc7; 0xc6e00bf3; 0xd5a79147; 0x06ca6351; 0x14292967;
   0x27b70a85; 0x2e1b2138; 0x4d2c6dfc; 0x53380d13; 0x650a7354; 0x766a0abb; 0x81c2c92e; 0x92722c85;
   0xa2bfe8a1; 0xa81a664b; 0xc24b8b70; 0xc76c51a3; 0xd192e819; 0xd6990624; 0xf40e3585; 0x106aa070;
   0x19a4c116; 0x1e376c08; 0x2748774c; 0x34b0bcb5; 0x391c0cb3; 0x4ed8aa4a; 0x5b9cca4f; 0x682e6ff3;
   0x748f82ee; 0x78a5636f; 0x84c87814; 0x8cc70208; 0x90befffa; 0xa4506ceb; 0xbef9a3f7; 0xc67178f2].
Definition sha256_h0 : list N :=
  [0x6a09e667; 0xbb67ae85; 0x3c6ef372; 0xa54ff53a; 0x510e527f; 0x9b05688c; 0x1f83d9ab; 0x5be0cd19].

Definition xor3 (a b c : N) : N := N.lxor a (N.lxor b c).
Definition bsig0 (x : N) : N := xor3 (rotr32 2 x) (rotr32 13 x) (rotr32 22 x).
Definition bsig1 (x : N) : N := xor3 (rotr32 6 x) (rotr32 11 x) (rotr32 25 x).
Definition ssig0 (x : N) : N := xor3 (rotr32 7 x) (rotr32 18 x) (N.shiftr x 3).
Definition ssig1 (x : N) : N := xor3 (rotr32 17 x) (rotr32 19 x) (N.shiftr x 10).

(** The message schedule; the newest word comes first. *)
Fixpoint sha256_w (n : nat) (w : list N) : list N :=
  match n with
  | O => w
  | S n' =>
      let x := add32 (add32 (ssig1 (nth 1 w 0)) (nth 6 w 0)) (add32 (ssig0 (nth 14 w 0)) (nth 15 w 0)) in
      sha256_w n' (x :: w)
  end.

Definition sha256_round (s : list N) (kw : N * N) : list N :=
  match s with
  | [a; b; c; d; e; f; g; h] =>
      let t1 := add32 (add32 h (bsig1 e)) (add32 (N.lxor (N.land e f) (N.land (not32 e) g)) (add32 (fst kw) (snd kw))) in
      let t2 := add32 (bsig0 a) (xor3 (N.land a b) (N.land a c) (N.land b c)) in
      [add32 t1 t2; a; b; c; add32 d t1; e; f; g]
  | _ => []
  end.

(** Big-endian packing. *)
Definition be_num (l : bytes) : N := fold_left (fun a b => N.lor (N.shiftl a 8) (Byte.to_N b)) l 0.
Fixpoint be_bytes (n : nat) (x : N) : bytes :=
  match n with
  | O => []
  | S n' => be_bytes n' (N.shiftr x 8) ++ [match Byte.of_N (N.land x 255) with Some b => b | None => Byte.x00 end]
  end.
Fixpoint split_every (fuel n : nat) (l : bytes) : list bytes :=
  match fuel, l with
  | S f, _ :: _ => take n l :: split_every f n (drop n l)
  | _, _ => []
  end.

Definition sha256_block (h : list N) (blk : bytes) : list N :=
  let w := rev (sha256_w 48 (rev (map be_num (split_every 16 4 blk)))) in
  zip_with add32 h (fold_left sha256_round (zip sha256_k w) h).

(** Padding: 0x80, zeros, the length in bits as 8 bytes. *)
Definition sha256_pad (m : bytes) : bytes :=
  let r := (length m mod 64)%nat in
  let z := (if r <? 56 then 55 - r else 119 - r)%nat in
  m ++ x80 :: replicate z x00 ++ be_bytes 8 (8 * N.of_nat (length m)).

Definition sha256 (m : bytes) : bytes :=
  let p := sha256_pad m in
  flat_map (be_bytes 4) (fold_left sha256_block (split_every (length p) 64 p) sha256_h0).

Lemma be_bytes_length n x : length (be_bytes n x) = n.
Proof. revert x. induction n as [|n IH]; intros x; [done|]. cbn [be_bytes]. rewrite app_length, IH. cbn. lia. Qed.
Lemma zip_length8 (f : N -> N -> N) (l k : list N) : length l = 8%nat -> length k = 8%nat -> length (zip_with f l k) = 8%nat.
Proof. intros H1 H2. rewrite zip_with_length_l; lia. Qed.
Lemma sha256_round_length s kw : length s = 8%nat -> length (sha256_round s kw) = 8%nat.
Proof. do 9 (destruct s as [|? s]; [done || (intros; reflexivity) || (intros; discriminate)|]). intros; discriminate. Qed.
Lemma sha256_rounds_length l : forall s, length s = 8%nat -> length (fold_left sha256_round l s) = 8%nat.
Proof. induction l as [|kw l IH]; intros s Hs; [done|]. cbn [fold_left]. by apply IH, sha256_round_length. Qed.
Lemma sha256_blocks_length l : forall s, length s = 8%nat -> length (fold_left sha256_block l s) = 8%nat.
Proof.
  induction l as [|b l IH]; intros s Hs; [done|]. cbn [fold_left]. apply IH. unfold sha256_block.
  apply zip_length8; [done|by apply sha256_rounds_length].
Qed.
Lemma sha256_length m : length (sha256 m) = 32%nat.
Proof.
  unfold sha256. pose proof (sha256_blocks_length (split_every (length (sha256_pad m)) 64 (sha256_pad m)) sha256_h0 eq_refl) as H.
  destruct (fold_left sha256_block _ _) as [|a0 [|a1 [|a2 [|a3 [|a4 [|a5 [|a6 [|a7 [|? ?]]]]]]]]]; done.
Qed.

(** Published vectors: the empty string, "abc", the 448-bit message. *)
Example sha256_vector0 : sha256 (hexs []%N) = hexs
  [0xe3; 0xb0; 0xc4; 0x42; 0x98; 0xfc; 0x1c; 0x14; 0x9a; 0xfb; 0xf4; 0xc8; 0x99; 0x6f; 0xb9; 0x24; 0x27; 0xae; 0x41; 0xe4; 0x64; 0x9b; 0x93; 0x4c; 0xa4; 0x95; 0x99; 0x1b; 0x78; 0x52; 0xb8; 0x55]%N.
Proof. vm_compute. reflexivity. Qed.
Example sha256_vector1 : sha256 (hexs [0x61; 0x62; 0x63]%N) = hexs
  [0xba; 0x78; 0x16; 0xbf; 0x8f; 0x01; 0xcf; 0xea; 0x41; 0x41; 0x40; 0xde; 0x5d; 0xae; 0x22; 0x23; 0xb0; 0x03; 0x61; 0xa3; 0x96; 0x17; 0x7a; 0x9c; 0xb4; 0x10; 0xff; 0x61; 0xf2; 0x00; 0x15; 0xad]%N.
Proof. vm_compute. reflexivity. Qed.
Example sha256_vector2 : sha256 (hexs [0x61; 0x62; 0x63; 0x64; 0x62; 0x63; 0x64; 0x65; 0x63; 0x64; 0x65; 0x66; 0x64; 0x65; 0x66; 0x67; 0x65; 0x66; 0x67; 0x68; 0x66; 0x67; 0x68; 0x69; 0x67; 0x68; 0x69; 0x6a; 0x68; 0x69; 0x6a; 0x6b; 0x69; 0x6a; 0x6b; 0x6c; 0x6a; 0x6b; 0x6c; 0x6d; 0x6b; 0x6c; 0x6d; 0x6e; 0x6c; 0x6d; 0x6e; 0x6f; 0x6d; 0x6e; 0x6f; 0x70; 0x6e; 0x6f; 0x70; 0x71]%N) = hexs
  [0x24; 0x8d; 0x6a; 0x61; 0xd2; 0x06; 0x38; 0xb8; 0xe5; 0xc0; 0x26; 0x93; 0x0c; 0x3e; 0x60; 0x39; 0xa3; 0x3c; 0xe4; 0x59; 0x64; 0xff; 0x21; 0x67; 0xf6; 0xec; 0xed; 0xd4; 0x19; 0xdb; 0x06; 0xc1]%N.
Proof. vm_compute. reflexivity. Qed.
