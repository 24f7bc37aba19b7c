(** Lemmas on nibbles, bits and packed keys. *)
From Verif Require Import Base JmtNibModel JmtSpec.
Local Open Scope nat_scope.

(** ** Nibbles *)
Lemma nib_val_lt n : (nib_val n < 16)%N.
Proof. destruct n as [[] [] [] []]; vm_compute; reflexivity. Qed.
Lemma nib_of_val n : nib_of (nib_val n) = Some n.
Proof. destruct n as [[] [] [] []]; vm_compute; reflexivity. Qed.
Lemma N_lt16 (x : N) : (x < 16)%N -> x ∈ [0;1;2;3;4;5;6;7;8;9;10;11;12;13;14;15]%N.
Proof.
  intros H. assert (exists n, x = N.of_nat n /\ n < 16) as (n & -> & Hn).
  { exists (N.to_nat x). lia. }
  do 16 (destruct n as [|n]; [apply elem_of_list_In; vm_compute; tauto|]). lia.
Qed.
Lemma nib_of_Some x n : nib_of x = Some n -> nib_val n = x.
Proof.
  unfold nib_of. destruct (N.ltb_spec x 16) as [H|H]; [|done].
  intros [= <-]. apply N_lt16 in H. revert x H. apply Forall_forall.
  repeat constructor.
Qed.
Lemma nib_of_lt x : (x < 16)%N -> exists n, nib_of x = Some n /\ nib_val n = x.
Proof.
  intros H. unfold nib_of. destruct (N.ltb_spec x 16); [|lia]. eexists; split; [done|].
  apply nib_of_Some. unfold nib_of. by destruct (N.ltb_spec x 16); [|lia].
Qed.
Lemma nib_val_inj m n : nib_val m = nib_val n -> m = n.
Proof. intros H. apply (f_equal nib_of) in H. rewrite !nib_of_val in H. by simplify_eq. Qed.
Lemma all_nibs_in n : n ∈ all_nibs.
Proof. apply elem_of_list_In. destruct n as [[] [] [] []]; cbn; tauto. Qed.
Lemma all_nibs_NoDup : NoDup all_nibs.
Proof. apply (bool_decide_unpack _). vm_compute. exact I. Qed.
Lemma nib_bits_length n : length (nib_bits n) = 4.
Proof. by destruct n. Qed.
Lemma nib_bits_inj m n : nib_bits m = nib_bits n -> m = n.
Proof. destruct m, n. cbn. congruence. Qed.

(** ** Bytes *)
Lemma hi_lo b : byte_of_nibs (hi b) (lo b) = b.
Proof. destruct b; vm_compute; reflexivity. Qed.
Lemma hi_of h l : hi (byte_of_nibs h l) = h.
Proof. destruct h as [[] [] [] []], l as [[] [] [] []]; vm_compute; reflexivity. Qed.
Lemma lo_of h l : lo (byte_of_nibs h l) = l.
Proof. destruct h as [[] [] [] []], l as [[] [] [] []]; vm_compute; reflexivity. Qed.
Lemma byte_bits_nibs b : byte_bits b = nib_bits (hi b) ++ nib_bits (lo b).
Proof. destruct b; vm_compute; reflexivity. Qed.
Lemma byte_bits_length b : length (byte_bits b) = 8.
Proof. destruct b; vm_compute; reflexivity. Qed.

Lemma nibs_cons b k : nibs (b :: k) = hi b :: lo b :: nibs k.
Proof. done. Qed.
Lemma nibs_length k : length (nibs k) = 2 * length k.
Proof. induction k as [|b k IH]; [done|]. rewrite nibs_cons. cbn [length]. lia. Qed.
Lemma pack_nibs k : pack (nibs k) = k.
Proof.
  induction k as [|b k IH]; [done|]. rewrite nibs_cons. cbn [pack].
  by rewrite hi_lo, IH.
Qed.
Lemma nibs_inj k1 k2 : nibs k1 = nibs k2 -> k1 = k2.
Proof. intros H. by rewrite <-(pack_nibs k1), H, pack_nibs. Qed.
Lemma nibs_pack n l : length l = 2 * n -> nibs (pack l) = l.
Proof.
  revert l. induction n as [|n IH]; intros l Hl.
  - by destruct l.
  - destruct l as [|a [|b l]]; [cbn in Hl; lia..|]. cbn [pack].
    rewrite nibs_cons, hi_of, lo_of, IH; [done|]. cbn in Hl. lia.
Qed.
Lemma pack_length n l : length l = 2 * n -> length (pack l) = n.
Proof.
  intros H. pose proof (nibs_length (pack l)) as H2. rewrite (nibs_pack n l H) in H2. lia.
Qed.

(** ** Bits of paths *)
Definition path_bits (p : list nib) : list bool := flat_map nib_bits p.
Lemma path_bits_app p q : path_bits (p ++ q) = path_bits p ++ path_bits q.
Proof. apply flat_map_app. Qed.
Lemma path_bits_cons n p : path_bits (n :: p) = nib_bits n ++ path_bits p.
Proof. done. Qed.
Lemma path_bits_length p : length (path_bits p) = 4 * length p.
Proof.
  induction p as [|n p IH]; [done|].
  rewrite path_bits_cons, app_length, nib_bits_length, IH. cbn [length]. lia.
Qed.
Lemma path_bits_inj p q : path_bits p = path_bits q -> p = q.
Proof.
  revert q. induction p as [|n p IH]; intros [|m q]; try done.
  - destruct m; done.
  - destruct n; done.
  - rewrite !path_bits_cons. intros H. apply app_inj_1 in H as [H1 H2];
      [|by rewrite !nib_bits_length].
    apply nib_bits_inj in H1 as ->. f_equal. by apply IH.
Qed.
Lemma key_bits_nibs k : key_bits k = path_bits (nibs k).
Proof.
  induction k as [|b k IH]; [done|]. rewrite nibs_cons, !path_bits_cons, app_assoc.
  rewrite <-byte_bits_nibs, <-IH. done.
Qed.
Lemma key_bits_length k : length (key_bits k) = 8 * length k.
Proof. rewrite key_bits_nibs, path_bits_length, nibs_length. lia. Qed.
Lemma key_bits_inj k1 k2 : key_bits k1 = key_bits k2 -> k1 = k2.
Proof. rewrite !key_bits_nibs. intros H. by apply nibs_inj, path_bits_inj. Qed.
Lemma path_bits_prefix p q : path_bits p `prefix_of` path_bits q <-> p `prefix_of` q.
Proof.
  split.
  - revert q. induction p as [|n p IH]; intros q H; [apply prefix_nil|].
    destruct q as [|m q].
    + destruct H as [l H]. rewrite path_bits_cons in H. destruct n; done.
    + destruct H as [l H]. rewrite !path_bits_cons, <-app_assoc in H.
      apply app_inj_1 in H as [H1 H2]; [|by rewrite !nib_bits_length].
      apply nib_bits_inj in H1 as ->. apply prefix_cons, IH. by exists l.
  - intros [l ->]. rewrite path_bits_app. by apply prefix_app_r.
Qed.

(** ** Iteration over the bits of a key *)
Lemma get_bit_byte (b : byte) k j :
  j < 8 -> get_bit (b :: k) j = byte_bits b !! j.
Proof.
  intros Hj. unfold get_bit. rewrite Nat.div_small, Nat.mod_small by done. cbn [lookup list_lookup].
  do 8 (destruct j as [|j]; [by destruct b|]). lia.
Qed.
Lemma get_bit_shift (b : byte) k j : get_bit (b :: k) (8 + j) = get_bit k j.
Proof.
  unfold get_bit.
  replace (8 + j) with (j + 1 * 8) by lia.
  rewrite Nat.div_add, Nat.mod_add by lia. by replace (j / 8 + 1) with (S (j / 8)) by lia.
Qed.
Lemma get_bit_lookup k j : get_bit k j = key_bits k !! j.
Proof.
  revert j. induction k as [|b k IH]; intros j.
  - by destruct j.
  - change (key_bits (b :: k)) with (byte_bits b ++ key_bits k).
    destruct (decide (j < 8)) as [Hj|Hj].
    + rewrite get_bit_byte by done. by rewrite lookup_app_l by (rewrite byte_bits_length; lia).
    + replace j with (8 + (j - 8)) at 1 by lia. rewrite get_bit_shift, IH.
      rewrite lookup_app_r by (rewrite byte_bits_length; lia). by rewrite byte_bits_length.
Qed.
Lemma omap_lookup_seq {A} (l : list A) n :
  length l = n -> omap (fun i => l !! i) (seq 0 n) = l.
Proof.
  intros <-. induction l as [|a l IH]; [done|].
  cbn [length seq omap list_omap lookup list_lookup]. f_equal.
  rewrite <-seq_shift. rewrite <-IH at 2.
  generalize (seq 0 (length l)) as s. induction s as [|x s IHs]; [done|].
  cbn. destruct (l !! x); by rewrite ?IHs.
Qed.
Lemma iter_bits_key k : length k = 32 -> iter_bits k = key_bits k.
Proof.
  intros Hk. unfold iter_bits.
  rewrite <-(omap_lookup_seq (key_bits k) 256) by (rewrite key_bits_length; lia).
  generalize (seq 0 256) as s. induction s as [|x s IHs]; [done|].
  cbn [omap list_omap]. rewrite get_bit_lookup. destruct (key_bits k !! x); by rewrite IHs.
Qed.

(** ** Common prefixes *)
Lemma skip_common_spec x y n rx ry :
  skip_common x y = (n, rx, ry) ->
  x = take n x ++ rx /\ y = take n x ++ ry /\ n <= length x /\
  match rx, ry with a :: _, b :: _ => a <> b | _, _ => True end.
Proof.
  revert y n rx ry. induction x as [|a x IH]; intros [|b y] n rx ry; cbn [skip_common].
  - intros [= <- <- <-]; cbn; repeat split; auto.
  - intros [= <- <- <-]; cbn; repeat split; auto.
  - intros [= <- <- <-]; cbn; repeat split; auto; lia.
  - case_decide as Hab.
    + destruct (skip_common x y) as [[m rx'] ry'] eqn:E. intros [= <- <- <-].
      destruct (IH _ _ _ _ E) as (H1 & H2 & H3 & H4). subst b. cbn [take app length].
      repeat split; [by f_equal|by f_equal|lia|done].
    + intros [= <- <- <-]. cbn. repeat split; auto; lia.
Qed.
Lemma skip_common_prefix p x : skip_common p (p ++ x) = (length p, [], x).
Proof. induction p as [|a p IH]; [by destruct x|]. cbn [skip_common app]. by rewrite decide_True, IH. Qed.
Lemma skip_common_app p x y :
  skip_common (p ++ x) (p ++ y) =
  (let '(n, rx, ry) := skip_common x y in (length p + n, rx, ry)).
Proof.
  induction p as [|a p IH]; cbn [app skip_common length plus].
  - by destruct (skip_common x y) as [[??]?].
  - rewrite decide_True, IH by done. by destruct (skip_common x y) as [[??]?].
Qed.

Lemma common_count_le {A} `{EqDecision A} (x y : list A) : common_count x y <= length x.
Proof. revert y. induction x as [|a x IH]; intros [|b y]; cbn; try lia. case_decide; [|lia]. specialize (IH y). lia. Qed.
Lemma common_count_prefix {A} `{EqDecision A} (x y : list A) :
  take (common_count x y) x = take (common_count x y) y.
Proof. revert y. induction x as [|a x IH]; intros [|b y]; cbn; try done. case_decide; [|done]. cbn. subst. by rewrite IH. Qed.
Lemma common_count_ge {A} `{EqDecision A} (x y : list A) n :
  n <= length x -> take n x = take n y -> n <= common_count x y.
Proof.
  revert y n. induction x as [|a x IH]; intros y n Hn Ht; cbn in Hn; [lia|].
  destruct n as [|n]; [lia|]. destruct y as [|b y]; [done|]. cbn in Ht. simplify_eq.
  cbn. rewrite decide_True by done. assert (n <= common_count x y); [|lia].
  apply IH; [lia|done].
Qed.

(** ** Unsnoc *)
Lemma unsnoc_snoc {A} (l : list A) a : unsnoc (l ++ [a]) = Some (l, a).
Proof. unfold unsnoc. rewrite rev_app_distr. cbn. by rewrite rev_involutive. Qed.
Lemma unsnoc_nil {A} : unsnoc ([] : list A) = None.
Proof. done. Qed.
Lemma unsnoc_Some {A} (l : list A) l' a : unsnoc l = Some (l', a) -> l = l' ++ [a].
Proof.
  unfold unsnoc. destruct (rev l) as [|x r] eqn:E; [done|]. intros [= <- <-].
  rewrite <-(rev_involutive l), E. done.
Qed.
