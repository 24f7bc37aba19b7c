(** Lemmas for the byte, bit, nibble-path, range, child-array and version
    properties. *)
From Verif Require Import Base JmtNibModel JmtPathModel JmtChildrenModel JmtSpec JmtNibSpec
  JmtNibProof JmtModel JmtHashProof.
Local Open Scope nat_scope.

(** ** Bits to bytes *)
Definition bits_byte (l : list bool) : byte :=
  match l with
  | [a; b; c; d; e; f; g; h] => Byte.of_bits (h, (g, (f, (e, (d, (c, (b, a)))))))
  | _ => x00
  end.
Lemma byte_bits_of l : length l = 8 -> byte_bits (bits_byte l) = l.
Proof.
  intros Hl. do 8 (destruct l as [|? l]; [done|]). destruct l; [|done].
  cbn [bits_byte]. unfold byte_bits. rewrite Byte.to_bits_of_bits. done.
Qed.
Lemma set_bits_shift i l b buf :
  set_bits (8 + i) l (b :: buf) = b :: set_bits i l buf.
Proof.
  revert i buf. induction l as [|a l IH]; intros i buf; [done|]. cbn [set_bits].
  assert (set_bit (b :: buf) (8 + i) a = b :: set_bit buf i a) as ->.
  { unfold set_bit. destruct a; [|done].
    replace (8 + i) with (i + 1 * 8) by lia. rewrite Nat.div_add, Nat.mod_add by lia.
    by replace (i / 8 + 1) with (S (i / 8)) by lia. }
  apply (IH (S i)).
Qed.
Lemma set_bits_app i l1 l2 buf :
  set_bits i (l1 ++ l2) buf = set_bits (i + length l1) l2 (set_bits i l1 buf).
Proof.
  revert i buf. induction l1 as [|a l1 IH]; intros i buf; cbn [app set_bits length].
  - by rewrite Nat.add_0_r.
  - rewrite IH. f_equal. lia.
Qed.
Lemma set_bits_8 l buf : length l = 8 -> set_bits 0 l (x00 :: buf) = bits_byte l :: buf.
Proof.
  intros Hl. do 8 (destruct l as [|? l]; [done|]). destruct l; [|done].
  repeat match goal with b : bool |- _ => destruct b end; vm_compute; reflexivity.
Qed.
Lemma set_bits_key k : set_bits 0 (key_bits k) (repeat x00 (length k)) = k.
Proof.
  induction k as [|b k IH]; [done|].
  change (key_bits (b :: k)) with (byte_bits b ++ key_bits k). cbn [length repeat].
  rewrite set_bits_app, byte_bits_length, set_bits_8 by apply byte_bits_length.
  change (0 + 8) with (8 + 0). rewrite set_bits_shift, IH. f_equal.
  destruct b; vm_compute; reflexivity.
Qed.
Lemma bits_are_key n l : length l = 8 * n -> exists k, length k = n /\ key_bits k = l.
Proof.
  revert l. induction n as [|n IH]; intros l Hl.
  - exists []. by destruct l.
  - destruct (IH (drop 8 l)) as (k & Hk & Hb); [rewrite drop_length; lia|].
    exists (bits_byte (take 8 l) :: k). split; [cbn; lia|].
    change (key_bits (?b :: k)) with (byte_bits b ++ key_bits k).
    rewrite byte_bits_of by (rewrite take_length; lia). rewrite Hb. apply take_drop.
Qed.
Lemma from_bits_inv l : from_bit_iter l =
  if length l =? 256 then from_bit_iter l else None.
Proof. unfold from_bit_iter. by destruct (length l =? 256). Qed.

Lemma common_count_spec {A} `{EqDecision A} (x y : list A) :
  is_common_prefix_len x y (common_count x y).
Proof.
  revert y. induction x as [|a x IH]; intros [|b y]; cbn [common_count].
  - split_and!; done || lia.
  - split_and!; cbn; done || lia.
  - split_and!; cbn; done || lia.
  - case_decide as Hab.
    + destruct (IH y) as (H1 & H2 & H3 & H4). split_and!; cbn [length take lookup list_lookup]; try lia.
      * by f_equal.
      * intros c d Hc Hd. by apply (H4 c d).
    + split_and!; cbn; try lia; [done|]. intros c d [= <-] [= <-]. done.
Qed.

(** ** Nibbles of bytes *)
Lemma nibs_digits k : map nib_val (nibs k) = digits k.
Proof.
  induction k as [|b k IH]; [done|]. rewrite nibs_cons. cbn [map digits flat_map app].
  rewrite IH. destruct b; vm_compute; reflexivity.
Qed.
Lemma nib_bits_digit n : nib_bits n = digit_bits (nib_val n).
Proof. destruct n as [[] [] [] []]; vm_compute; reflexivity. Qed.
Lemma get_nibble_lookup k i : get_nibble k i = nibs k !! i.
Proof.
  revert i. induction k as [|b k IH]; intros i; [done|]. rewrite nibs_cons.
  destruct i as [|[|i]].
  - unfold get_nibble. cbn. destruct b; vm_compute; reflexivity.
  - unfold get_nibble. cbn. destruct b; vm_compute; reflexivity.
  - cbn [lookup list_lookup]. rewrite <-IH. unfold get_nibble.
    replace (S (S i)) with (i + 1 * 2) by lia. rewrite Nat.div_add, Nat.mod_add by lia.
    by replace (i / 2 + 1) with (S (i / 2)) by lia.
Qed.
Lemma nibble_u8_lookup k i : nibble_u8 k i = nib_val <$> nibs k !! i.
Proof.
  revert i. induction k as [|b k IH]; intros i; [done|]. rewrite nibs_cons.
  destruct i as [|[|i]].
  - unfold nibble_u8. cbn. destruct b; vm_compute; reflexivity.
  - unfold nibble_u8. cbn. destruct b; vm_compute; reflexivity.
  - cbn [lookup list_lookup]. rewrite <-IH. unfold nibble_u8.
    replace (S (S i)) with (i + 1 * 2) by lia. rewrite Nat.div_add, Nat.mod_add by lia.
    by replace (i / 2 + 1) with (S (i / 2)) by lia.
Qed.

(** ** Packed paths *)
Definition n0 : nib := Nib false false false false.
Lemma pack_even l r : length l mod 2 = 0 -> pack (l ++ r) = pack l ++ pack r.
Proof.
  remember (length l) as n eqn:Hn. revert l Hn. induction n as [n IH] using lt_wf_ind.
  intros l -> He. destruct l as [|a [|b l]]; [done|done|]. cbn [app pack]. f_equal.
  apply (IH (length l)); [cbn; lia|done|].
  change (length (a :: b :: l)) with (S (S (length l))) in He.
  replace (S (S (length l))) with (length l + 1 * 2) in He by lia. by rewrite Nat.mod_add in He.
Qed.
Lemma pack_len l : length (pack l) = (length l + 1) / 2.
Proof.
  remember (length l) as n eqn:Hn. revert l Hn. induction n as [n IH] using lt_wf_ind.
  intros l ->. destruct l as [|a [|b l]]; [done|done|]. cbn [pack length].
  rewrite (IH (length l)); [|cbn; lia|done].
  replace (S (S (length l)) + 1) with (length l + 1 + 1 * 2) by lia. rewrite Nat.div_add by lia. lia.
Qed.
Lemma nibs_pack_odd l : length l mod 2 = 1 -> nibs (pack l) = l ++ [n0].
Proof.
  intros Ho. destruct l as [|x l' _] using rev_ind; [done|].
  assert (He : length l' mod 2 = 0).
  { rewrite app_length in Ho. cbn [length] in Ho. pose proof (Nat.mod_upper_bound (length l') 2).
    rewrite Nat.add_mod in Ho by lia. destruct (length l' mod 2) as [|[|]]; [done|cbn in Ho; lia|lia]. }
  rewrite pack_even by done. unfold nibs. rewrite flat_map_app. fold (nibs (pack l')).
  rewrite (nibs_pack (length l' / 2)).
  2: { pose proof (Nat.div_mod_eq (length l') 2). lia. }
  rewrite <-app_assoc. f_equal. destruct x as [[] [] [] []]; vm_compute; reflexivity.
Qed.
Lemma nibs_pack_even l : length l mod 2 = 0 -> nibs (pack l) = l.
Proof. intros He. apply (nibs_pack (length l / 2)). pose proof (Nat.div_mod_eq (length l) 2). lia. Qed.
Lemma nibs_pack_any l : exists r, nibs (pack l) = l ++ r.
Proof.
  pose proof (Nat.mod_upper_bound (length l) 2). destruct (length l mod 2) as [|[|]] eqn:E; [| |lia].
  - exists []. rewrite app_nil_r. by apply nibs_pack_even.
  - exists [n0]. by apply nibs_pack_odd.
Qed.

Definition repr (p : npath) (l : list nib) : Prop :=
  length l <= 64 /\ p = NPath (length l) (pack l).

Lemma repr_new b p : np_new b = Ok p -> repr p (nibs b).
Proof.
  unfold np_new. destruct (Nat.leb_spec (length b) 32); [|done]. intros [= <-].
  split; [rewrite nibs_length; lia|]. by rewrite nibs_length, pack_nibs, Nat.mul_comm.
Qed.
Lemma repr_new_odd b p : np_new_odd b = Ok p -> repr p (removelast (nibs b)).
Proof.
  unfold np_new_odd. destruct (Nat.leb_spec (length b) 32); [|done].
  destruct (last b) as [y|] eqn:Hl; [|done]. destruct (N.eqb_spec (N.land (Byte.to_N y) 15) 0) as [Hy|]; [|done].
  intros [= <-]. apply last_Some in Hl as [b' ->].
  assert (nibs (b' ++ [y]) = (nibs b' ++ [hi y]) ++ [lo y]) as ->.
  { unfold nibs. rewrite flat_map_app. cbn [flat_map app]. by rewrite <-app_assoc. }
  rewrite removelast_last. rewrite app_length in H. cbn [length] in H. split.
  - rewrite app_length, nibs_length. cbn [length]. lia.
  - rewrite pack_even, pack_nibs.
    2: { rewrite nibs_length, Nat.mul_comm. by apply Nat.mod_mul. }
    f_equal.
    + rewrite !app_length, nibs_length. cbn [length]. lia.
    + f_equal. clear -Hy. destruct y; try (vm_compute in Hy; discriminate); vm_compute; reflexivity.
Qed.
Lemma repr_push p l n : repr p l ->
  np_push p n = if length l <? 64 then Ok (NPath (length (l ++ [n])) (pack (l ++ [n]))) else Panic.
Proof.
  intros [Hl ->]. unfold np_push. cbn [np_num np_bytes].
  destruct (Nat.ltb_spec (length l) 64); [|done].
  rewrite app_length, Nat.add_1_r. cbn [length].
  pose proof (Nat.mod_upper_bound (length l) 2). destruct (length l mod 2) as [|[|]] eqn:E; [| |lia].
  - cbn [Nat.eqb]. rewrite pack_even by done. done.
  - cbn [Nat.eqb]. destruct l as [|x l' _] using rev_ind; [done|].
    assert (He : length l' mod 2 = 0).
    { rewrite app_length in E. cbn [length] in E. pose proof (Nat.mod_upper_bound (length l') 2).
      rewrite Nat.add_mod in E by lia. destruct (length l' mod 2) as [|[|]]; [done|cbn in E; lia|lia]. }
    rewrite pack_even by done. rewrite app_length. cbn [length].
    assert (Hd : (length l' + 1) / 2 = length (pack l')) by (by rewrite pack_len).
    rewrite Hd, lookup_app_r, Nat.sub_diag by done. cbn [pack lookup list_lookup].
    rewrite insert_app_r_alt, Nat.sub_diag by done. cbn [insert list_insert].
    rewrite <-app_assoc, pack_even by done. rewrite Nat.add_1_r. do 3 f_equal. f_equal.
    destruct x as [[] [] [] []], n as [[] [] [] []]; vm_compute; reflexivity.
Qed.
Lemma odd_pred (l : list nib) x : length (l ++ [x]) mod 2 = 1 -> length l mod 2 = 0.
Proof.
  rewrite app_length. cbn [length]. intros E. pose proof (Nat.mod_upper_bound (length l) 2).
  rewrite Nat.add_mod in E by lia. destruct (length l mod 2) as [|[|]]; [done|cbn in E; lia|lia].
Qed.
Lemma even_pred (l : list nib) x : length (l ++ [x]) mod 2 = 0 -> length l mod 2 = 1.
Proof.
  rewrite app_length. cbn [length]. intros E. pose proof (Nat.mod_upper_bound (length l) 2).
  rewrite Nat.add_mod in E by lia. destruct (length l mod 2) as [|[|]]; [cbn in E; lia|done|lia].
Qed.
Lemma repr_pop p l : repr p l ->
  np_pop p = match last l with
             | None => Ok (p, None)
             | Some n => Ok (NPath (length (removelast l)) (pack (removelast l)), Some n)
             end.
Proof.
  intros [Hl ->]. unfold np_pop. cbn [np_num np_bytes].
  destruct l as [|x l _] using rev_ind; [done|]. rewrite last_snoc, removelast_last.
  pose proof (Nat.mod_upper_bound (length (l ++ [x])) 2).
  assert (length (l ++ [x]) =? 0 = false) as Hnz.
  { rewrite app_length. cbn [length]. apply Nat.eqb_neq. lia. }
  assert (length (l ++ [x]) - 1 = length l) as Hm by (rewrite app_length; cbn [length]; lia).
  destruct (length (l ++ [x]) mod 2) as [|[|]] eqn:E; [| |lia].
  - destruct l as [|y l _] using rev_ind; [done|].
    pose proof (odd_pred l y (even_pred _ _ E)) as He.
    rewrite <-(app_assoc l [y] [x]). rewrite !pack_even by done. cbn [app pack].
    rewrite unsnoc_snoc. rewrite <-(app_assoc l [y] [x]) in Hnz, Hm. cbn [app] in Hnz, Hm.
    rewrite Hnz, Hm. cbn [Nat.eqb]. rewrite pack_even by done. cbn [pack].
    clear. destruct y as [[] [] [] []], x as [[] [] [] []]; reflexivity.
  - pose proof (odd_pred l x E) as He.
    rewrite pack_even by done. cbn [pack]. rewrite unsnoc_snoc, Hnz, Hm. cbn [Nat.eqb].
    clear. destruct x as [[] [] [] []]; reflexivity.
Qed.
Lemma repr_last p l : repr p l -> np_last p = Ok (last l).
Proof.
  intros [Hl ->]. unfold np_last. cbn [np_num np_bytes].
  destruct l as [|x l _] using rev_ind; [done|]. rewrite last_snoc.
  pose proof (Nat.mod_upper_bound (length (l ++ [x])) 2).
  destruct (length (l ++ [x]) mod 2) as [|[|]] eqn:E; [| |lia].
  - destruct l as [|y l _] using rev_ind; [done|].
    pose proof (odd_pred l y (even_pred _ _ E)) as He.
    rewrite <-app_assoc, pack_even by done. cbn [app pack]. rewrite last_snoc. cbn [Nat.eqb].
    destruct y as [[] [] [] []], x as [[] [] [] []]; reflexivity.
  - pose proof (odd_pred l x E) as He.
    rewrite pack_even by done. cbn [pack]. rewrite last_snoc. cbn [Nat.eqb].
    destruct x as [[] [] [] []]; reflexivity.
Qed.
Lemma nibble_of_byte b :
  nib_of (N.land (N.shiftr (Byte.to_N b) 4) 15) = Some (hi b) /\
  nib_of (N.land (N.shiftr (Byte.to_N b) 0) 15) = Some (lo b).
Proof. destruct b; vm_compute; done. Qed.
Lemma np_get_nibble_any p i : i < np_num p ->
  np_get_nibble p i = match nibs (np_bytes p) !! i with Some n => Ok n | None => Panic end.
Proof.
  intros Hi. unfold np_get_nibble. destruct (Nat.ltb_spec i (np_num p)); [|lia]. clear Hi H.
  rewrite <-get_nibble_lookup. unfold get_nibble. destruct (np_bytes p !! (i / 2)) as [b|]; [|done].
  pose proof (Nat.mod_upper_bound i 2). destruct (nibble_of_byte b) as [H1 H2].
  destruct (i mod 2) as [|[|]]; [| |lia]; cbn [Nat.eqb].
  - rewrite H1. clear. destruct b; reflexivity.
  - rewrite H2. clear. destruct b; reflexivity.
Qed.
Lemma repr_get_nibble p l i : repr p l ->
  np_get_nibble p i = match l !! i with Some n => Ok n | None => Panic end.
Proof.
  intros [Hl ->]. destruct (decide (i < length l)) as [Hi|Hi].
  - rewrite np_get_nibble_any by done. cbn [np_bytes]. destruct (nibs_pack_any l) as [r ->].
    by rewrite lookup_app_l.
  - unfold np_get_nibble. cbn [np_num]. destruct (Nat.ltb_spec i (length l)); [lia|].
    by rewrite lookup_ge_None_2 by lia.
Qed.
Lemma repr_get_bit p l i : repr p l ->
  np_get_bit p i = match path_bits l !! i with Some n => Ok n | None => Panic end.
Proof.
  intros [Hl ->]. unfold np_get_bit. cbn [np_num np_bytes].
  destruct (Nat.ltb_spec i (length l * 4)) as [Hi|Hi].
  - rewrite get_bit_lookup, key_bits_nibs. destruct (nibs_pack_any l) as [r ->].
    rewrite path_bits_app, lookup_app_l by (rewrite path_bits_length; lia).
    by destruct (path_bits l !! i).
  - by rewrite lookup_ge_None_2 by (rewrite path_bits_length; lia).
Qed.
Lemma seq_res_lookup {A} (f : nat -> res unit A) (l : list A) s e :
  e <= length l ->
  (forall i, f i = match l !! i with Some n => Ok n | None => Panic end) ->
  seq_res (map f (seq s (e - s))) = Ok (take (e - s) (drop s l)).
Proof.
  intros He Hf. remember (e - s) as n eqn:Hn. revert s Hn. induction n as [|n IH]; intros s Hn; [done|].
  cbn [seq map seq_res]. rewrite Hf. destruct (lookup_lt_is_Some_2 l s) as [a Ha]; [lia|]. rewrite Ha.
  cbn [rbind]. rewrite IH by lia. cbn [rbind]. by rewrite (drop_S _ a s) by done.
Qed.
Lemma repr_nibbles p l : repr p l -> np_nibbles p = Ok l.
Proof.
  intros Hp. unfold np_nibbles. pose proof Hp as [_ Hp2].
  assert (np_num p = length l) as -> by by rewrite Hp2.
  replace (length l) with (length l - 0) by lia.
  rewrite (seq_res_lookup _ l 0 (length l)); [|done|intros; by apply repr_get_nibble].
  by rewrite Nat.sub_0_r, drop_0, firstn_all.
Qed.
Lemma repr_bits p l : repr p l -> np_bits p = Ok (path_bits l).
Proof.
  intros Hp. unfold np_bits. pose proof Hp as [_ Hp2].
  assert (np_num p = length l) as -> by by rewrite Hp2.
  replace (length l * 4) with (length (path_bits l) - 0) by (rewrite path_bits_length; lia).
  rewrite (seq_res_lookup _ (path_bits l) 0 (length (path_bits l)));
    [|done|intros; by apply repr_get_bit].
  by rewrite Nat.sub_0_r, drop_0, firstn_all.
Qed.
Lemma fold_push_app l l0 p0 : repr p0 l0 ->
  fold_left (fun r n => rbind r (fun p => np_push p n)) l (Ok p0) =
  if length l0 + length l <=? 64 then Ok (NPath (length (l0 ++ l)) (pack (l0 ++ l))) else Panic.
Proof.
  revert l0 p0. induction l as [|n l IH]; intros l0 p0 Hp; cbn [fold_left rbind length].
  - destruct Hp as [Hp ->]. rewrite app_nil_r. destruct (Nat.leb_spec (length l0 + 0) 64); [done|lia].
  - rewrite (repr_push _ _ n Hp). destruct (Nat.ltb_spec (length l0) 64) as [H|H].
    + rewrite (IH (l0 ++ [n])).
      2: { split; [rewrite app_length; cbn [length]; lia|done]. }
      rewrite app_length, <-app_assoc. cbn [app length]. by replace (length l0 + 1 + length l) with (length l0 + S (length l)) by lia.
    + destruct (Nat.leb_spec (length l0 + S (length l)) 64); [lia|].
      clear. induction l as [|m l IH]; [done|exact IH].
Qed.
Lemma np_collect_ok l :
  np_collect l = if length l <=? 64 then Ok (NPath (length l) (pack l)) else Panic.
Proof. unfold np_collect. rewrite (fold_push_app l []); [done|]. split; [cbn; lia|done]. Qed.

(** ** Cursors *)
Definition crepr (c : nit) (l pre rest : list nib) : Prop :=
  repr (ni_path c) l /\ ni_start c <= ni_pos c <= ni_end c /\ ni_end c <= length l /\
  pre = take (ni_pos c - ni_start c) (drop (ni_start c) l) /\
  rest = take (ni_end c - ni_pos c) (drop (ni_pos c) l).
Lemma crepr_all p l : repr p l -> crepr (ni_all p) l [] l.
Proof.
  intros Hp. unfold ni_all, ni_new. pose proof Hp as [Hl Hp2].
  assert (np_num p = length l) as -> by by rewrite Hp2.
  split; [done|]. cbn [ni_start ni_pos ni_end]. split_and!; try lia.
  - done.
  - by rewrite Nat.sub_0_r, drop_0, firstn_all.
Qed.
Lemma crepr_rest_cons c l pre n rest : crepr c l pre (n :: rest) ->
  ni_pos c < ni_end c /\ l !! ni_pos c = Some n.
Proof.
  intros (Hp & H1 & H2 & -> & Hr).
  destruct (decide (ni_pos c < ni_end c)) as [H|H].
  - split; [done|]. destruct (lookup_lt_is_Some_2 l (ni_pos c)) as [a Ha]; [lia|].
    rewrite (drop_S _ a) in Hr by done. destruct (ni_end c - ni_pos c) eqn:E; [lia|].
    cbn in Hr. congruence.
  - replace (ni_end c - ni_pos c) with 0 in Hr by lia. done.
Qed.
Lemma crepr_rest_nil c l pre : crepr c l pre [] -> ni_pos c = ni_end c.
Proof.
  intros (Hp & H1 & H2 & -> & Hr). apply (f_equal length) in Hr.
  rewrite take_length, drop_length in Hr. cbn [length] in Hr. lia.
Qed.
Lemma crepr_step c l pre n rest : crepr c l pre (n :: rest) ->
  crepr (Nit (ni_path c) (S (ni_pos c)) (ni_end c) (ni_start c)) l (pre ++ [n]) rest.
Proof.
  intros Hc. destruct (crepr_rest_cons _ _ _ _ _ Hc) as [Hlt Hn].
  destruct Hc as (Hp & H1 & H2 & Hpre & Hr). split; [done|]. cbn [ni_start ni_pos ni_end ni_path].
  split_and!; try lia.
  - replace (S (ni_pos c) - ni_start c) with (S (ni_pos c - ni_start c)) by lia.
    rewrite (take_S_r _ _ n), <-Hpre; [done|]. rewrite lookup_drop.
    by replace (ni_start c + (ni_pos c - ni_start c)) with (ni_pos c) by lia.
  - rewrite (drop_S _ n) in Hr by done. destruct (ni_end c - ni_pos c) as [|m] eqn:E; [lia|].
    cbn [take] in Hr. replace (ni_end c - S (ni_pos c)) with m by lia. congruence.
Qed.
Lemma ni_peek_ok c l pre rest : crepr c l pre rest -> ni_peek c = Ok (head rest).
Proof.
  intros Hc. unfold ni_peek. destruct rest as [|n rest].
  - rewrite (crepr_rest_nil _ _ _ Hc), Nat.ltb_irrefl. done.
  - destruct (crepr_rest_cons _ _ _ _ _ Hc) as [Hlt Hn].
    destruct (Nat.ltb_spec (ni_pos c) (ni_end c)); [|lia].
    rewrite (repr_get_nibble _ l) by apply Hc. rewrite Hn. done.
Qed.
Lemma ni_next_ok c l pre rest : crepr c l pre rest ->
  match rest with
  | [] => ni_next c = Ok (c, None)
  | n :: rest' => exists c', ni_next c = Ok (c', Some n) /\ crepr c' l (pre ++ [n]) rest'
  end.
Proof.
  intros Hc. unfold ni_next. destruct rest as [|n rest].
  - rewrite (crepr_rest_nil _ _ _ Hc), Nat.ltb_irrefl. done.
  - destruct (crepr_rest_cons _ _ _ _ _ Hc) as [Hlt Hn].
    destruct (Nat.ltb_spec (ni_pos c) (ni_end c)); [|lia].
    rewrite (repr_get_nibble _ l) by apply Hc. rewrite Hn. cbn [rbind].
    eexists. split; [reflexivity|]. by apply crepr_step.
Qed.
Lemma ni_collect_ok c l pre rest : crepr c l pre rest -> ni_collect c = Ok rest.
Proof.
  intros (Hp & H1 & H2 & Hpre & ->). unfold ni_collect.
  apply seq_res_lookup; [done|]. intros. by apply repr_get_nibble.
Qed.
Lemma path_bits_take n l : path_bits (take n l) = take (4 * n) (path_bits l).
Proof.
  revert n. induction l as [|a l IH]; intros [|n]; [done|cbn [take path_bits flat_map]; by rewrite take_nil|done|].
  cbn [take]. rewrite !path_bits_cons, IH. replace (4 * S n) with (4 + 4 * n) by lia.
  destruct a. done.
Qed.
Lemma path_bits_drop n l : path_bits (drop n l) = drop (4 * n) (path_bits l).
Proof.
  revert n. induction l as [|a l IH]; intros [|n]; [done|cbn [drop path_bits flat_map]; by rewrite drop_nil|done|].
  cbn [drop]. rewrite !path_bits_cons, IH. replace (4 * S n) with (4 + 4 * n) by lia.
  destruct a. done.
Qed.
Lemma ni_bits_ok c l pre rest : crepr c l pre rest -> ni_bits c = Ok (path_bits rest).
Proof.
  intros (Hp & H1 & H2 & Hpre & ->). unfold ni_bits.
  rewrite (seq_res_lookup _ (path_bits l)).
  - rewrite path_bits_take, path_bits_drop. do 3 f_equal; lia.
  - rewrite path_bits_length. lia.
  - intros. by apply repr_get_bit.
Qed.
Lemma crepr_visited c l pre rest : crepr c l pre rest -> crepr (ni_visited c) l [] pre.
Proof.
  intros (Hp & H1 & H2 & -> & ->). split; [done|]. cbn [ni_visited ni_new ni_start ni_pos ni_end ni_path].
  split_and!; try lia; [by rewrite Nat.sub_diag|done].
Qed.
Lemma crepr_remaining c l pre rest : crepr c l pre rest -> crepr (ni_remaining c) l [] rest.
Proof.
  intros (Hp & H1 & H2 & -> & ->). split; [done|]. cbn [ni_remaining ni_new ni_start ni_pos ni_end ni_path].
  split_and!; try lia; [by rewrite Nat.sub_diag|done].
Qed.
Lemma crepr_len c l pre rest : crepr c l pre rest -> length pre + length rest = ni_end c - ni_start c /\ length pre + length rest <= 64.
Proof.
  intros ([Hp _] & H1 & H2 & -> & ->). rewrite !take_length, !drop_length. lia.
Qed.
Lemma ni_whole_ok c l pre rest : crepr c l pre rest ->
  ni_whole c = Ok (NPath (length (pre ++ rest)) (pack (pre ++ rest))).
Proof.
  intros Hc. unfold ni_whole.
  rewrite (ni_collect_ok _ _ _ _ (crepr_visited _ _ _ _ Hc)). cbn [rbind].
  rewrite (ni_collect_ok _ _ _ _ (crepr_remaining _ _ _ _ Hc)). cbn [rbind].
  rewrite np_collect_ok. destruct (crepr_len _ _ _ _ Hc) as [_ Hlen].
  rewrite app_length. destruct (Nat.leb_spec (length pre + length rest) 64); [done|lia].
Qed.
Lemma ni_skip_ok fuel x y n lx px rx ly py ry :
  crepr x lx px rx -> crepr y ly py ry -> length rx <= fuel ->
  exists m x' y' rx' ry',
    ni_skip fuel x y n = Ok (n + m, x', y') /\ skip_common rx ry = (m, rx', ry') /\
    crepr x' lx (px ++ take m rx) rx' /\ crepr y' ly (py ++ take m ry) ry'.
Proof.
  revert x y n px rx py ry. induction fuel as [|f IH]; intros x y n px rx py ry Hx Hy Hf;
    cbn [ni_skip]; rewrite (ni_peek_ok _ _ _ _ Hx), (ni_peek_ok _ _ _ _ Hy); cbn [rbind].
  - destruct rx as [|a rx]; [|cbn in Hf; lia]. cbn [head].
    exists 0, x, y, [], ry. rewrite Nat.add_0_r, !take_0, !app_nil_r. by destruct ry.
  - destruct rx as [|a rx]; cbn [head].
    { exists 0, x, y, [], ry. rewrite Nat.add_0_r, !take_0, !app_nil_r. by destruct ry. }
    destruct ry as [|b ry]; cbn [head].
    { exists 0, x, y, (a :: rx), []. by rewrite Nat.add_0_r, !take_0, !app_nil_r. }
    cbn [skip_common]. case_decide as Hab.
    + subst b. destruct (ni_next_ok _ _ _ _ Hx) as (x1 & E1 & Hx1).
      destruct (ni_next_ok _ _ _ _ Hy) as (y1 & E2 & Hy1). rewrite E1, E2. cbn [rbind fst].
      destruct (IH x1 y1 (S n) _ _ _ _ Hx1 Hy1) as (m & x' & y' & rx' & ry' & H1 & H2 & H3 & H4); [cbn in Hf; lia|].
      exists (S m), x', y', rx', ry'. rewrite H1, H2. split; [f_equal; f_equal; f_equal; lia|].
      split; [done|]. cbn [take]. rewrite <-!app_assoc in H3, H4. done.
    + exists 0, x, y, (a :: rx), (b :: ry). by rewrite Nat.add_0_r, !take_0, !app_nil_r.
Qed.

(** ** Versions *)
Lemma be_value_spec_acc b a : fold_left (fun a y => N.lor (N.shiftl a 8) (Byte.to_N y)) b a =
  (a * 256 ^ N.of_nat (length b) + be_number b)%N.
Proof.
  revert a. induction b as [|y b IH]; intros a; cbn [fold_left length be_number].
  - rewrite N.pow_0_r. lia.
  - rewrite IH. assert (N.lor (N.shiftl a 8) (Byte.to_N y) = a * 256 + Byte.to_N y)%N as ->.
    { assert (Hy : (Byte.to_N y < 2 ^ 8)%N) by (destruct y; vm_compute; reflexivity).
      rewrite N.shiftl_mul_pow2. change (2 ^ 8)%N with 256%N in *.
      assert (Hz : N.land (a * 256) (Byte.to_N y) = 0%N).
      { apply N.bits_inj_0. intros n. rewrite N.land_spec.
        destruct (N.ltb_spec n 8) as [Hn|Hn].
        - change 256%N with (2 ^ 8)%N. by rewrite N.mul_pow2_bits_low by done.
        - destruct (N.eq_dec (Byte.to_N y) 0) as [->|Hy0]; [by rewrite N.bits_0, andb_false_r|].
          rewrite (N.bits_above_log2 (Byte.to_N y)), andb_false_r; [done|].
          apply N.lt_le_trans with 8%N; [|done]. apply N.log2_lt_pow2; [lia|done]. }
      by rewrite <-N.lxor_lor, <-N.add_nocarry_lxor by done. }
    replace (N.of_nat (S (length b))) with (N.succ (N.of_nat (length b))) by lia.
    rewrite N.pow_succ_r'. lia.
Qed.
Lemma be_value_spec b : be_value b = be_number b.
Proof. unfold be_value. rewrite be_value_spec_acc. lia. Qed.
Lemma byte_of_to x : (x < 256)%N -> Byte.to_N (byte_of x) = x.
Proof.
  intros H. unfold byte_of. destruct (Byte.of_N x) as [b|] eqn:E; [by apply Byte.to_of_N|].
  apply Byte.of_N_None_iff in E. lia.
Qed.
Lemma version_bytes_len v : length (version_to_bytes v) = 8.
Proof. done. Qed.
Lemma be_digits v n :
  be_number (map (fun i => byte_of (N.land (N.shiftr v (8 * N.of_nat i)) 255)) (rev (seq 0 n))) =
  (v mod 256 ^ N.of_nat n)%N.
Proof.
  induction n as [|n IH].
  - cbn [seq rev map be_number]. by rewrite N.pow_0_r, N.mod_1_r.
  - rewrite seq_S, rev_app_distr. cbn [rev app map be_number]. rewrite IH.
    rewrite map_length, rev_length, seq_length. cbn [Nat.add].
    rewrite byte_of_to.
    2: { change 255%N with (N.ones 8). rewrite N.land_ones. by apply N.mod_lt. }
    change 255%N with (N.ones 8). rewrite N.land_ones, N.shiftr_div_pow2, N.pow_mul_r.
    change (2 ^ 8)%N with 256%N.
    rewrite Nat2N.inj_succ, N.pow_succ_r', (N.mul_comm 256).
    rewrite N.mod_mul_r by (try apply N.pow_nonzero; done). lia.
Qed.
Lemma version_bytes_value v : (v < 2 ^ 64)%N -> be_number (version_to_bytes v) = v.
Proof.
  intros Hv. etransitivity; [exact (be_digits v 8)|].
  apply N.mod_small. replace (256 ^ N.of_nat 8)%N with (2 ^ 64)%N; [done|].
  change 256%N with (2 ^ 8)%N. rewrite <-N.pow_mul_r. reflexivity.
Qed.
