(** Keys and hashes in the log (C95); [KeyHash::sha256] (C96). *)
From Verif Require Import Base Sha256Model JmtKeyModel JmtKeySpec.

(** ** C95 *)
Lemma bval_inj a b : bval a = bval b -> a = b.
Proof.
  unfold bval. intros H. pose proof (Byte.of_to_nat a) as A. rewrite H, Byte.of_to_nat in A. congruence.
Qed.
Lemma map_bval_inj (a b : bytes) : map bval a = map bval b -> a = b.
Proof.
  revert b. induction a as [|x a IH]; intros [|y b] H; try discriminate; [done|].
  cbn [map] in H. injection H as H1 H2. apply bval_inj in H1 as ->. f_equal. by apply IH.
Qed.
Lemma body_byte b t : literal_body (escape_byte b ++ t) = more (bval b) (literal_body t).
Proof. destruct b; reflexivity. Qed.
Lemma body_key key rest : literal_body (concat (map escape_byte key) ++ 34 :: rest) = Some (map bval key, rest).
Proof.
  induction key as [|b key IH]; [reflexivity|].
  cbn [map concat]. rewrite <- app_assoc, body_byte, IH. reflexivity.
Qed.
Lemma printable_byte b : Forall (fun c => 32 <= c /\ c < 127) (escape_byte b).
Proof.
  assert (forallb (fun c => (32 <=? c) && (c <? 127)) (escape_byte b) = true) as H by (destruct b; reflexivity).
  apply Forall_forall. intros c Hc. rewrite forallb_forall in H. apply elem_of_list_In in Hc. specialize (H c Hc). lia.
Qed.

(** What is printed of a key reads, as a byte string literal, as the key, and
    the literal ends where the printing did. *)
Theorem C95_read_back key rest : literal (escaped key ++ rest) = Some (map bval key, rest).
Proof.
  unfold escaped. rewrite <- !app_assoc. cbn [app literal]. change ((98 =? 98) && (34 =? 34)) with true. cbv iota.
  apply body_key.
Qed.
(** It is printable and on one line. *)
Theorem C95_one_line key : Forall (fun c => 32 <= c /\ c < 127) (escaped key).
Proof.
  unfold escaped. apply Forall_app. split; [repeat constructor; lia|]. apply Forall_app. split; [|repeat constructor; lia].
  induction key as [|b key IH]; [constructor|]. cbn [map concat]. apply Forall_app. split; [apply printable_byte|done].
Qed.
(** Different keys print differently, whatever follows them on the line. *)
Theorem C95_distinct k1 k2 rest1 rest2 : escaped k1 ++ rest1 = escaped k2 ++ rest2 -> k1 = k2 /\ rest1 = rest2.
Proof.
  intros H. pose proof (C95_read_back k1 rest1) as A. rewrite H, C95_read_back in A. injection A as A ->.
  split; [|done]. symmetry. by apply map_bval_inj.
Qed.
Lemma lower_digit_inj n m : n < 16 -> m < 16 -> lower_digit n = lower_digit m -> n = m.
Proof. unfold lower_digit. destruct (Nat.ltb_spec n 10), (Nat.ltb_spec m 10); lia. Qed.
Lemma bval_lt c : bval c < 256.
Proof. destruct c; cbn; lia. Qed.
Lemma hex_byte a b : lower_digit (bval a / 16) = lower_digit (bval b / 16) ->
  lower_digit (bval a mod 16) = lower_digit (bval b mod 16) -> a = b.
Proof.
  intros H1 H2. apply bval_inj. pose proof (bval_lt a). pose proof (bval_lt b).
  apply lower_digit_inj in H1; [|apply Nat.div_lt_upper_bound; lia..].
  apply lower_digit_inj in H2; [|apply Nat.mod_upper_bound; lia..].
  rewrite (Nat.div_mod (bval a) 16), (Nat.div_mod (bval b) 16) by lia. lia.
Qed.
Lemma hex_text_app a b r1 r2 : length a = length b -> hex_text a ++ r1 = hex_text b ++ r2 -> a = b /\ r1 = r2.
Proof.
  revert b. induction a as [|x a IH]; intros [|y b] Hl H; try discriminate; [done|].
  unfold hex_text in H. cbn [map concat app] in H. fold (hex_text a) (hex_text b) in H.
  pose proof (f_equal (fun l => nth 0 l 0) H) as H1. pose proof (f_equal (fun l => nth 1 l 0) H) as H2.
  pose proof (f_equal (drop 2) H) as H3. cbn [nth] in H1, H2. cbn [drop] in H3.
  assert (x = y) as -> by (by apply hex_byte).
  injection Hl as Hl. destruct (IH b Hl H3) as [-> ->]. done.
Qed.
(** Hashes of the same length print differently, and the three types are told
    apart. *)
Theorem C95_hashes t1 t2 h1 h2 : length h1 = 32 -> length h2 = 32 ->
  shown_hash t1 h1 = shown_hash t2 h2 -> t1 = t2 /\ h1 = h2.
Proof.
  intros L1 L2 H. assert (t1 = t2) as ->.
  { unfold shown_hash in H. destruct t1, t2; cbn [type_name app] in H; try reflexivity; discriminate. }
  split; [done|]. unfold shown_hash in H. apply app_inv_head in H. apply app_inv_head in H.
  apply hex_text_app in H as [H _]; [done|lia].
Qed.
(** A key with a quote, a backslash, control characters and a byte above 127. *)
Definition ex_key : bytes := [Byte.x61; Byte.x22; Byte.x5c; Byte.x0a; Byte.x00; Byte.x7f; Byte.xfe].
Example C95_example :
  escaped ex_key = [98; 34; 97; 92; 34; 92; 92; 92; 110; 92; 48; 92; 120; 55; 102; 92; 120; 102; 101; 34] /\
  literal (escaped ex_key) = Some ([97; 34; 92; 10; 0; 127; 254], []) /\
  length (shown_hash KeyHash (sha256 ex_key)) = 75 /\ shown_hash KeyHash (sha256 ex_key) <> shown_hash KeyHash (sha256 []).
Proof.
  split; [vm_compute; reflexivity|]. split; [vm_compute; reflexivity|]. split; [vm_compute; reflexivity|].
  apply (bool_decide_unpack _). vm_compute. exact I.
Qed.

(** ** C96 *)
(** The size of the byte form of the default. *)
Fixpoint size_of (t : key_type) : nat :=
  match t with
  | TUnit => 0
  | TBool | TChar | TOption _ => 1
  | TInt w | TFloat w => w
  | TString | TList _ => 8
  | TArray n a => n * size_of a
  | TPair a b => size_of a + size_of b
  | TEnum _ a => 4 + size_of a
  end.
(** The default variant of every enum is its first. *)
Fixpoint first_variants (t : key_type) : Prop :=
  match t with
  | TOption _ | TList _ => True
  | TArray _ a => first_variants a
  | TPair a b => first_variants a /\ first_variants b
  | TEnum p a => p = 0%N /\ first_variants a
  | _ => True
  end.
Lemma le_zero w : le_bytes w 0 = repeat Byte.x00 w.
Proof. induction w as [|w IH]; [done|]. cbn [le_bytes repeat]. change (0 / 256)%N with 0%N. by rewrite IH. Qed.
Lemma default_zeros t : first_variants t -> bincode (default_of t) = repeat Byte.x00 (size_of t).
Proof.
  induction t as [| |w|w| | |a IH|a IH|n a IH|a IHa b IHb|p a IH]; cbn [default_of bincode size_of first_variants]; intros Hf; try done.
  - apply le_zero.
  - apply le_zero.
  - induction n as [|n IHn]; [done|]. cbn [repeat map concat Nat.mul]. by rewrite IHn, IH, repeat_app.
  - destruct Hf. by rewrite IHa, IHb, repeat_app.
  - destruct Hf as [-> Hf]. by rewrite IH.
Qed.
(** "Keys of different types have different key hashes" is false, for every hash
    function: a 64-bit integer, a string and a list have the same. *)
Theorem C96_types_refuted : exists a b c, a <> b /\ b <> c /\ a <> c /\
  forall sha, key_sha256 sha a = key_sha256 sha b /\ key_sha256 sha b = key_sha256 sha c.
Proof. exists (TInt 8), TString, (TList (TInt 1)). repeat split; discriminate. Qed.
(** What it does depend on: the size of the default, and (the hash not colliding
    on the two inputs) nothing else. *)
Theorem C96_only_the_size sha a b : first_variants a -> first_variants b ->
  inj_on sha [bincode (default_of a); bincode (default_of b)] ->
  key_sha256 sha a = key_sha256 sha b <-> size_of a = size_of b.
Proof.
  intros Ha Hb Hinj. unfold key_sha256. split.
  - intros H. apply Hinj in H; [|set_solver..]. rewrite !default_zeros in H by done.
    apply (f_equal length) in H. by rewrite !repeat_length in H.
  - intros H. by rewrite !default_zeros, H by done.
Qed.
(** It is the hash of a string of zeros. *)
Theorem C96_zeros sha t : first_variants t -> key_sha256 sha t = sha (repeat Byte.x00 (size_of t)).
Proof. intros H. unfold key_sha256. by rewrite default_zeros. Qed.
Lemma two_apart {A B} (f : A -> B) x y : f x <> f y -> inj_on f [x; y].
Proof.
  intros Hne u v Hu Hv E. rewrite !elem_of_cons, elem_of_nil in Hu, Hv.
  destruct Hu as [->|[->|[]]], Hv as [->|[->|[]]]; try reflexivity; exfalso; [exact (Hne E)|exact (Hne (eq_sym E))].
Qed.
Definition ex_type : key_type := TPair (TInt 8) (TPair TString (TEnum 0 (TOption (TInt 4)))).
Example C96_example :
  first_variants ex_type /\ size_of ex_type = 21 /\ key_sha256 sha256 ex_type = sha256 (repeat Byte.x00 21) /\
  key_sha256 sha256 (TInt 8) = key_sha256 sha256 TString /\
  inj_on sha256 [bincode (default_of (TInt 8)); bincode (default_of (TInt 4))] /\
  key_sha256 sha256 (TEnum 1 TUnit) <> key_sha256 sha256 (TInt 4).
Proof.
  split; [vm_compute; repeat split|]. split; [vm_compute; reflexivity|].
  split; [exact (C96_zeros sha256 ex_type ltac:(vm_compute; repeat split))|].
  split; [exact (f_equal sha256 (eq_refl : bincode (default_of (TInt 8)) = bincode (default_of TString)))|].
  split; [apply two_apart; apply (bool_decide_unpack _); vm_compute; exact I|].
  apply (bool_decide_unpack _). vm_compute. exact I.
Qed.
Print Assumptions C95_read_back.
Print Assumptions C95_one_line.
Print Assumptions C95_distinct.
Print Assumptions C95_hashes.
Print Assumptions C96_types_refuted.
Print Assumptions C96_only_the_size.
Print Assumptions C96_zeros.
