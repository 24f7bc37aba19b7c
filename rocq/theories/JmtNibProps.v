(** The properties C44-C47, C49, C59 and C60: bytes, bits, nibble paths, nibble
    ranges, the sixteen-way node and version numbers. *)
From Verif Require Import Base JmtNibModel JmtPathModel JmtChildrenModel JmtSpec JmtNibSpec
  JmtNibProof JmtModel JmtHashProof JmtNibMoreProof JmtNibRangeProof.
Local Open Scope nat_scope.

(** ** C44 *)

(** Taking the bits of a key and reassembling them gives the key, and the bits
    are the key's binary digits. *)
Theorem C44_bits_roundtrip : forall k, length k = 32 ->
  iter_bits k = key_bits k /\ from_bit_iter (iter_bits k) = Some k.
Proof.
  intros k Hk. split; [by apply iter_bits_key|]. rewrite iter_bits_key by done.
  unfold from_bit_iter. rewrite key_bits_length, Hk. cbn [Nat.mul Nat.add Nat.eqb].
  rewrite <-Hk. by rewrite set_bits_key.
Qed.

(** Every list of 256 bits is the bits of the key it reassembles to; a list of
    another length is rejected. *)
Theorem C44_bits_onto : forall bs,
  (length bs = 256 ->
   exists k, from_bit_iter bs = Some k /\ length k = 32 /\ iter_bits k = bs) /\
  (length bs <> 256 -> from_bit_iter bs = None).
Proof.
  intros bs. split; intros Hl.
  - destruct (bits_are_key 32 bs Hl) as (k & Hk & <-). exists k.
    destruct (C44_bits_roundtrip k Hk) as [H1 H2]. rewrite H1 in H2. done.
  - unfold from_bit_iter. by destruct (Nat.eqb_spec (length bs) 256).
Qed.

(** The common prefix length counts the longest common prefix of the bits; in
    nibbles it is that of the hexadecimal digits, and a quarter. *)
Theorem C44_common_prefix : forall x y, length x = 32 -> length y = 32 ->
  is_common_prefix_len (key_bits x) (key_bits y) (common_prefix_bits_len x y) /\
  is_common_prefix_len (digits x) (digits y) (common_prefix_nibbles_len x y).
Proof.
  intros x y Hx Hy. unfold common_prefix_nibbles_len, common_prefix_bits_len.
  rewrite !iter_bits_key by done.
  destruct (common_count_spec (key_bits x) (key_bits y)) as (H1 & H2 & H3 & H4).
  split; [done|]. set (n := common_count (key_bits x) (key_bits y)) in *.
  rewrite key_bits_length in H1, H2. rewrite !key_bits_nibs in H3, H4.
  assert (H4n : 4 * (n / 4) <= n) by apply Nat.mul_div_le, Nat.neq_succ_0.
  assert (Hlt : n < 4 * S (n / 4)) by (apply Nat.mul_succ_div_gt; lia).
  rewrite <-!nibs_digits. unfold is_common_prefix_len. rewrite !map_length, !nibs_length.
  split; [lia|]. split; [lia|]. split.
  - rewrite !firstn_map. f_equal. apply path_bits_inj. rewrite !path_bits_take.
    apply (f_equal (take (4 * (n / 4)))) in H3. rewrite !take_take in H3.
    by replace (min (4 * (n / 4)) n) with (4 * (n / 4)) in H3 by lia.
  - intros a b Ha Hb Hab. change (map nib_val ?l) with (nib_val <$> l) in Ha, Hb.
    rewrite list_lookup_fmap in Ha, Hb.
    destruct (nibs x !! (n / 4)) as [a'|] eqn:Ea; [|done]. destruct (nibs y !! (n / 4)) as [b'|] eqn:Eb; [|done].
    cbn in Ha, Hb. assert (a' = b') as -> by (apply nib_val_inj; congruence).
    assert (Hn : n / 4 < length (nibs x)) by (by apply lookup_lt_Some in Ea).
    assert (Hbit : forall l, nibs l !! (n / 4) = Some b' ->
              path_bits (nibs l) !! n = nib_bits b' !! (n - 4 * (n / 4))).
    { intros l Hlk. rewrite <-(take_drop_middle _ _ _ Hlk), path_bits_app.
      assert (length (path_bits (take (n / 4) (nibs l))) = 4 * (n / 4)) as Hpl.
      { rewrite path_bits_length, take_length. apply lookup_lt_Some in Hlk. lia. }
      rewrite lookup_app_r by lia. rewrite Hpl, path_bits_cons.
      rewrite lookup_app_l by (rewrite nib_bits_length; lia). done. }
    destruct (lookup_lt_is_Some_2 (nib_bits b') (n - 4 * (n / 4))) as [c Hc]; [rewrite nib_bits_length; lia|].
    apply (H4 c c); [by rewrite Hbit|by rewrite Hbit|done].
Qed.

Example C44_example :
  let x := repeat xab 31 ++ [x10] in let y := repeat xab 31 ++ [x12] in
  length x = 32 /\ length y = 32 /\
  common_prefix_bits_len x y = 254 /\ common_prefix_nibbles_len x y = 63 /\
  from_bit_iter (iter_bits y) = Some y /\ from_bit_iter (repeat true 255) = None.
Proof. vm_compute. done. Qed.

(** ** C45 *)

(** The paths that any sequence of operations can build, with the list of
    nibbles they stand for. *)
Inductive built : npath -> list nib -> Prop :=
| built_new b p : np_new b = Ok p -> built p (nibs b)
| built_odd b p : np_new_odd b = Ok p -> built p (removelast (nibs b))
| built_collect l p : np_collect l = Ok p -> built p l
| built_push p l n p' : built p l -> np_push p n = Ok p' -> built p' (l ++ [n])
| built_pop p l o p' : built p l -> np_pop p = Ok (p', o) -> built p' (removelast l).

Lemma built_repr p l : built p l -> repr p l.
Proof.
  induction 1 as [b p H|b p H|l p H|p l n p' _ IH H|p l o p' _ IH H].
  - by apply repr_new.
  - by apply repr_new_odd.
  - rewrite np_collect_ok in H. destruct (Nat.leb_spec (length l) 64); [|done]. injection H as <-. done.
  - rewrite (repr_push _ _ _ IH) in H. destruct (Nat.ltb_spec (length l) 64); [|done].
    injection H as <-. split; [rewrite app_length; cbn [length]; lia|done].
  - rewrite (repr_pop _ _ IH) in H. destruct (last l) as [n|] eqn:El.
    + injection H as <- _. split; [|done]. apply last_Some in El as [l' ->].
      rewrite removelast_last. destruct IH as [IH _]. rewrite app_length in IH. lia.
    + injection H as <- _. apply last_None in El as ->. done.
Qed.

(** Every query on a built path is the query on its list, an index out of
    range or a push beyond 64 nibbles is a panic, and nothing else is. *)
Theorem C45_path_is_list : forall p l, built p l ->
  length l <= 64 /\ np_num p = length l /\
  np_nibbles p = Ok l /\
  np_bits p = Ok (flat_map (fun n => digit_bits (nib_val n)) l) /\
  np_last p = Ok (last l) /\
  (forall i, np_get_nibble p i = match l !! i with Some n => Ok n | None => Panic end) /\
  (forall n, if decide (length l < 64)
             then exists p', np_push p n = Ok p' /\ built p' (l ++ [n]) else np_push p n = Panic) /\
  (exists p', np_pop p = Ok (p', last l) /\ built p' (removelast l)).
Proof.
  intros p l Hb. pose proof (built_repr _ _ Hb) as Hp. split; [apply Hp|].
  split; [by destruct Hp as [_ ->]|]. split; [by apply repr_nibbles|]. split.
  { rewrite (repr_bits _ _ Hp). f_equal. unfold path_bits. clear.
    induction l as [|n l IH]; [done|]. cbn [flat_map]. by rewrite IH, nib_bits_digit. }
  split; [by apply repr_last|]. split; [intros; by apply repr_get_nibble|]. split.
  - intros n. case_decide as Hl.
    + rewrite (repr_push _ _ n Hp). destruct (Nat.ltb_spec (length l) 64); [|lia].
      eexists. split; [reflexivity|]. eapply built_push; [done|].
      rewrite (repr_push _ _ n Hp). by destruct (Nat.ltb_spec (length l) 64); [|lia].
    + rewrite (repr_push _ _ n Hp). by destruct (Nat.ltb_spec (length l) 64); [lia|].
  - pose proof (repr_pop _ _ Hp) as E. destruct (last l) as [n|] eqn:El.
    + eexists. split; [exact E|]. by eapply built_pop.
    + eexists. split; [exact E|]. by eapply built_pop.
Qed.

(** Paths with the same nibbles are equal, however they were built. *)
Theorem C45_path_unique : forall p1 p2 l, built p1 l -> built p2 l -> p1 = p2.
Proof. intros p1 p2 l H1 H2. apply built_repr in H1 as [_ ->], H2 as [_ ->]. done. Qed.

(** The bytes hold two nibbles each, and the unused half of the last byte is
    zero. *)
Theorem C45_padding : forall p l, built p l ->
  length (np_bytes p) = (length l + 1) / 2 /\
  digits (np_bytes p) = map nib_val l ++ (if Nat.odd (length l) then [0%N] else []).
Proof.
  intros p l Hb. apply built_repr in Hb as [_ ->]. cbn [np_bytes]. split; [apply pack_len|].
  rewrite <-nibs_digits. pose proof (Nat.mod_upper_bound (length l) 2).
  rewrite <-Nat.bit0_odd, Nat.bit0_eqb.
  destruct (length l mod 2) as [|[|]] eqn:E; [| |lia]; cbn [Nat.eqb].
  - by rewrite nibs_pack_even, app_nil_r.
  - rewrite nibs_pack_odd by done. by rewrite map_app.
Qed.

(** Reading a byte string as a path gives its hexadecimal digits. *)
Theorem C45_new_digits : forall b, length b <= 32 ->
  exists p l, np_new b = Ok p /\ built p l /\ map nib_val l = digits b.
Proof.
  intros b Hb. exists (NPath (length b * 2) b), (nibs b).
  assert (np_new b = Ok (NPath (length b * 2) b)) as E.
  { unfold np_new. by destruct (Nat.leb_spec (length b) 32); [|lia]. }
  split; [done|]. split; [by apply built_new|]. apply nibs_digits.
Qed.

(** Popping [12 ab] twice and pushing [c] gives the path collected from
    [1 2 c]. *)
Definition nA := Nib true false true false.
Definition nC := Nib true true false false.
Definition n1 := Nib false false false true.
Definition n2 := Nib false false true false.
Example C45_example :
  exists p p1 p2 p3, np_new [x12; xab] = Ok p /\ np_pop p = Ok (p1, Some (Nib true false true true)) /\
    np_pop p1 = Ok (p2, Some nA) /\ np_push p2 nC = Ok p3 /\
    built p3 [n1; n2; nC] /\ np_collect [n1; n2; nC] = Ok p3 /\ np_bytes p3 = [x12; xc0].
Proof.
  eexists _, _, _, _. split; [reflexivity|]. split; [reflexivity|]. split; [reflexivity|].
  split; [reflexivity|]. split; [|split; reflexivity].
  apply built_collect. reflexivity.
Qed.

(** ** C60: cursors over paths *)

(** The cursors that [nibbles], [next], [visited_nibbles] and
    [remaining_nibbles] produce, with the nibbles they passed and those to come. *)
Inductive cursor : nit -> list nib -> list nib -> Prop :=
| cursor_all p l : built p l -> cursor (ni_all p) [] l
| cursor_next c pre n rest c' :
    cursor c pre (n :: rest) -> ni_next c = Ok (c', Some n) -> cursor c' (pre ++ [n]) rest
| cursor_visited c pre rest : cursor c pre rest -> cursor (ni_visited c) [] pre
| cursor_remaining c pre rest : cursor c pre rest -> cursor (ni_remaining c) [] rest.

Lemma cursor_crepr c pre rest : cursor c pre rest -> exists l, crepr c l pre rest.
Proof.
  induction 1 as [p l H|c pre n rest c' _ [l IH] H|c pre rest _ [l IH]|c pre rest _ [l IH]].
  - exists l. by apply crepr_all, built_repr.
  - exists l. destruct (ni_next_ok _ _ _ _ IH) as (c2 & E & H2). rewrite H in E. by injection E as <-.
  - exists l. by eapply crepr_visited.
  - exists l. by eapply crepr_remaining.
Qed.

Theorem C60_cursor_is_split_list : forall c pre rest, cursor c pre rest ->
  ni_peek c = Ok (head rest) /\
  (match rest with
   | [] => ni_next c = Ok (c, None)
   | n :: rest' => exists c', ni_next c = Ok (c', Some n) /\ cursor c' (pre ++ [n]) rest'
   end) /\
  ni_collect c = Ok rest /\
  ni_bits c = Ok (flat_map (fun n => digit_bits (nib_val n)) rest) /\
  ni_num c = Ok (length pre + length rest) /\
  ni_finished c = Ok (bool_decide (rest = [])) /\
  ni_collect (ni_visited c) = Ok pre /\
  ni_collect (ni_remaining c) = Ok rest /\
  (exists p, ni_whole c = Ok p /\ built p (pre ++ rest)).
Proof.
  intros c pre rest Hc. destruct (cursor_crepr _ _ _ Hc) as [l H].
  split; [by eapply ni_peek_ok|]. split.
  { pose proof (ni_next_ok _ _ _ _ H) as Hn. destruct rest as [|n rest]; [done|].
    destruct Hn as (c' & E & _). exists c'. split; [done|]. by eapply cursor_next. }
  split; [by eapply ni_collect_ok|]. split.
  { rewrite (ni_bits_ok _ _ _ _ H). f_equal. unfold path_bits. clear.
    induction rest as [|n r IH]; [done|]. cbn [flat_map]. by rewrite IH, nib_bits_digit. }
  split.
  { destruct (crepr_len _ _ _ _ H) as [E _]. rewrite E. unfold ni_num.
    destruct H as (_ & H1 & _). by destruct (Nat.leb_spec (ni_start c) (ni_end c)); [|lia]. }
  split.
  { unfold ni_finished. rewrite (ni_peek_ok _ _ _ _ H). cbn [rbind]. f_equal.
    apply bool_decide_ext. by destruct rest. }
  split; [eapply ni_collect_ok, crepr_visited; done|].
  split; [eapply ni_collect_ok, crepr_remaining; done|].
  eexists. split; [by eapply ni_whole_ok|]. apply built_collect. rewrite np_collect_ok.
  destruct (crepr_len _ _ _ _ H) as [_ Hlen]. rewrite app_length.
  by destruct (Nat.leb_spec (length pre + length rest) 64); [|lia].
Qed.

Lemma cursor_advance c pre m rest : cursor c pre (m ++ rest) -> exists c', cursor c' (pre ++ m) rest.
Proof.
  revert c pre. induction m as [|n m IH]; intros c pre Hc.
  - exists c. by rewrite app_nil_r.
  - destruct (C60_cursor_is_split_list _ _ _ Hc) as (_ & (c1 & _ & Hc1) & _).
    destruct (IH _ _ Hc1) as [c' Hc']. exists c'. by rewrite <-app_assoc in Hc'.
Qed.

(** Skipping the common prefix of two cursors stops at the longest common
    prefix of what they have to come, moves both by it, and always ends. *)
Theorem C60_skip_common_prefix : forall x px rx y py ry,
  cursor x px rx -> cursor y py ry ->
  exists n x' y', ni_skip_common x y = Ok (n, x', y') /\
    is_common_prefix_len rx ry n /\
    ni_collect x' = Ok (drop n rx) /\ ni_collect (ni_visited x') = Ok (px ++ take n rx) /\
    ni_collect y' = Ok (drop n ry) /\ ni_collect (ni_visited y') = Ok (py ++ take n ry).
Proof.
  intros x px rx y py ry Hx Hy. destruct (cursor_crepr _ _ _ Hx) as [lx Hcx], (cursor_crepr _ _ _ Hy) as [ly Hcy].
  destruct (ni_skip_ok (ni_end x - ni_pos x) x y 0 lx px rx ly py ry Hcx Hcy) as (n & x' & y' & rx' & ry' & E & Hs & H1 & H2).
  { destruct Hcx as (_ & ? & ? & _ & ->). rewrite take_length. lia. }
  exists n, x', y'. split; [done|].
  apply skip_common_spec in Hs as (A1 & A2 & A3 & A4).
  assert (Ht : length (take n rx) = n) by (rewrite take_length; lia).
  assert (drop n rx = rx') as D1.
  { rewrite A1 at 1. rewrite drop_app_alt by done. done. }
  assert (drop n ry = ry') as D2.
  { rewrite A2 at 1. rewrite drop_app_alt by done. done. }
  assert (take n ry = take n rx) as T2.
  { rewrite A2 at 1. rewrite take_app_alt by done. done. }
  split.
  - split; [done|]. split.
    { rewrite A2, app_length, Ht. lia. }
    split; [done|]. intros a b Ha Hb. rewrite <-(Nat.add_0_r n), <-lookup_drop, D1 in Ha.
    rewrite <-(Nat.add_0_r n), <-lookup_drop, D2 in Hb.
    destruct rx' as [|a' rx'], ry' as [|b' ry']; try done. cbn in Ha, Hb. congruence.
  - rewrite D1, D2. split; [by eapply ni_collect_ok|]. split; [eapply ni_collect_ok, crepr_visited; done|].
    split; [by eapply ni_collect_ok|]. eapply ni_collect_ok, crepr_visited; done.
Qed.

Example C60_example :
  exists p q x, np_new [x12; xab] = Ok p /\ np_new [x12; xac] = Ok q /\
    ni_next (ni_all p) = Ok (x, Some n1) /\
    cursor x [n1] [n2; nA; Nib true false true true] /\
    exists x' y', ni_skip_common (ni_all p) (ni_all q) = Ok (3, x', y') /\
      ni_collect x' = Ok [Nib true false true true] /\ ni_collect y' = Ok [nC].
Proof.
  eexists _, _, _. split; [reflexivity|]. split; [reflexivity|]. split; [reflexivity|]. split.
  - apply (cursor_next (ni_all (NPath 4 [x12; xab])) [] n1); [|reflexivity]. apply cursor_all. by apply (built_new [x12; xab]).
  - eexists _, _. split; [vm_compute; reflexivity|]. split; reflexivity.
Qed.

(** ** C46 *)

Theorem C46_ranges_partition : forall (kvs : list (bytes * bytes)) ix,
  ix < 64 -> Forall (fun kv => length (fst kv) = 32) kvs -> sorted_keys kvs ->
  (exists pre, Forall (fun kv => take ix (digits (fst kv)) = pre) kvs) ->
  exists rs, nibble_ranges kvs ix = Ok rs /\ tiles 0 (length kvs) rs /\
    forall l r, (l, r) ∈ rs -> exists x, forall m,
      l <= m <= r <-> (fst <$> kvs !! m) ≫= (fun k => digits k !! ix) = Some x.
Proof.
  intros kvs ix Hix Hlen Hs (pre & Hpre).
  set (f := fun i => default 0%N ((fst <$> kvs !! i) ≫= (fun k => digits k !! ix))).
  assert (Hd : forall i kv, kvs !! i = Some kv -> digits (fst kv) !! ix = Some (f i)).
  { intros i kv Hi. unfold f. rewrite Hi. cbn.
    destruct (digits (fst kv) !! ix) as [x|] eqn:E; [done|].
    apply lookup_ge_None in E. rewrite <-nibs_digits, map_length, nibs_length in E.
    rewrite Forall_forall in Hlen. assert (length (fst kv) = 32) by (eapply Hlen, elem_of_list_lookup_2; done). lia. }
  assert (Hf : forall i, i < length kvs -> kv_nibble kvs ix i = Some (f i)).
  { intros i Hi. destruct (lookup_lt_is_Some_2 kvs i Hi) as [kv Hkv]. unfold kv_nibble. rewrite Hkv.
    rewrite nibble_u8_lookup, <-(Hd i kv Hkv), <-nibs_digits. change (map nib_val ?l) with (nib_val <$> l).
    by rewrite list_lookup_fmap. }
  assert (Hmono : forall i j, i < j -> j < length kvs -> (f i <= f j)%N).
  { intros i j Hij Hj. destruct (lookup_lt_is_Some_2 kvs i ltac:(lia)) as [ki Hki].
    destruct (lookup_lt_is_Some_2 kvs j Hj) as [kj Hkj].
    rewrite Forall_forall in Hpre.
    apply (sorted_digit (fst ki) (fst kj) ix); [|..].
    - apply (Hs i j); [done|by rewrite Hki|by rewrite Hkj].
    - rewrite (Hpre ki), (Hpre kj); [done|by eapply elem_of_list_lookup_2..].
    - by apply Hd.
    - by apply Hd. }
  unfold nibble_ranges. destruct (Nat.ltb_spec ix 64); [|lia].
  destruct (nri_collect_ok kvs ix f Hf Hmono (S (length kvs)) 0) as (rs & E & H1 & H2); [lia..|].
  exists rs. split; [done|]. split; [done|]. intros l r Hin.
  rewrite Forall_forall in H2. specialize (H2 _ Hin). cbn [fst snd] in H2. exists (f l). intros m.
  assert (Hr : r < length kvs).
  { clear -H1 Hin. revert H1. generalize 0 as from. induction rs as [|[a b] rs IH]; intros from H1.
    - by apply elem_of_nil in Hin.
    - cbn [tiles] in H1. destruct H1 as (_ & [? ?] & H1). apply elem_of_cons in Hin as [[= -> ->]|Hin]; [done|].
      by apply (IH Hin (S b)). }
  destruct (kvs !! m) as [kv|] eqn:Em.
  - rewrite H2 by (by eapply lookup_lt_Some). change (f m = f l <-> digits (fst kv) !! ix = Some (f l)). rewrite (Hd m kv Em). split; congruence.
  - apply lookup_ge_None in Em. cbn. split; [lia|done].
Qed.

Definition ex_kvs : list (bytes * bytes) :=
  [(repeat x11 31 ++ [x20], [x01]); (repeat x11 31 ++ [x21], [x02]);
   (repeat x11 31 ++ [x2f], [x03]); (repeat x11 31 ++ [x30], [x04]);
   (repeat x11 31 ++ [xf3], [x05]); (repeat x11 31 ++ [xff], [x06])].
Fixpoint bytes_ltb (k l : bytes) : bool :=
  match k, l with
  | [], _ :: _ => true
  | a :: k', b :: l' =>
      if (Byte.to_N a <? Byte.to_N b)%N then true
      else if bool_decide (a = b) then bytes_ltb k' l' else false
  | _, _ => false
  end.
Lemma bytes_ltb_lt k l : bytes_ltb k l = true -> bytes_lt k l.
Proof.
  revert l. induction k as [|a k IH]; intros [|b l]; cbn [bytes_ltb]; try done; [constructor|].
  destruct (N.ltb_spec (Byte.to_N a) (Byte.to_N b)); [by constructor|].
  case_bool_decide as E; [|done]. intros Hk. subst b. apply bytes_lt_tail. by apply IH.
Qed.
Example C46_example :
  Forall (fun kv => length (fst kv) = 32) ex_kvs /\ sorted_keys ex_kvs /\
  Forall (fun kv => take 62 (digits (fst kv)) = repeat 1%N 62) ex_kvs /\
  nibble_ranges ex_kvs 62 = Ok [(0, 2); (3, 3); (4, 5)].
Proof.
  split; [repeat constructor|]. split.
  - intros i j ki kj Hij Hi Hj.
    assert (Hj6 : j < 6).
    { destruct (ex_kvs !! j) as [kv|] eqn:E; [|done]. by apply lookup_lt_Some in E. }
    apply bytes_ltb_lt.
    do 6 (destruct j as [|j]; [do 6 (destruct i as [|i]; [try lia; cbn in Hi, Hj; injection Hi as <-; injection Hj as <-; reflexivity|]); lia|]).
    lia.
  - split; [repeat constructor|reflexivity].
Qed.

(** ** C47 *)

(** The hash of an internal node is the hash of the four-level binary tree over
    its slots. *)
Theorem C47_inode_hash : forall sha n,
  inode_hash sha n =
  Ok (slots_hash (spec_node_hash sha) spec_empty_hash 4 (node_slots (in_children n))).
Proof.
  intros sha n. rewrite inode_hash_ok. f_equal. symmetry. by apply (slots_mspec sha _ 4 []).
Qed.

(** Both child searches on a node that could be constructed never fail.  They
    agree, and the siblings found lead from a subtree along the nibble to the
    node's hash.  The child found is the only one in that subtree; it is the one
    at the nibble, or a leaf. *)
Theorem C47_child_search : forall sha cs n nk i,
  inode_new cs = Ok n ->
  exists o sibs, get_child_with_siblings sha n nk i = Ok (o, sibs) /\
    get_child_without_siblings n nk i = Ok o /\
    let d := length sibs in
    let q := take d (digit_bits (nib_val i)) in
    0 < d <= 4 /\
    inode_hash sha n =
      Ok (recombine (spec_node_hash sha) q sibs
            (slots_hash (spec_node_hash sha) spec_empty_hash (4 - d) (below 4 (node_slots cs) q))) /\
    match o with
    | None => filled (below 4 (node_slots cs) q) = []
    | Some nk' => exists j c, cs !! j = Some c /\ nk' = (c_ver c, snd nk ++ [j]) /\
        filled (below 4 (node_slots cs) q) = [(c_hash c, child_is_leaf c)] /\
        (j = i \/ child_is_leaf c = true)
    end.
Proof.
  intros sha cs n nk i Hn.
  assert (Hcs : in_children n = cs /\ children_sorted cs <> [] /\ single_leaf (children_sorted cs) = false).
  { unfold inode_new in Hn. destruct (children_sorted cs) as [|[j c] [|[j2 c2] l]]; [done| |].
    - cbn [single_leaf]. destruct (child_is_leaf c); [done|]. by injection Hn as <-.
    - by injection Hn as <-. }
  destruct Hcs as (H1 & H2 & H3).
  assert (Hk : kids cs [] = children_sorted cs).
  { unfold kids. clear. induction (children_sorted cs) as [|a l IH]; [done|].
    rewrite filter_cons, IH. by rewrite decide_True by apply prefix_nil. }
  rewrite get_with_ok, (get_without_ok sha), inode_hash_ok, H1.
  destruct (walk sha 4 cs [] (nib_bits i)) as [o sibs] eqn:E. cbn [fst].
  destruct (walk_recombine sha cs 4 [] (nib_bits i) o sibs) as (A1 & A2 & A3);
    [done|apply nib_bits_length|by rewrite Hk|by rewrite Hk|lia|done|].
  exists (walk_key nk o), sibs. split; [done|]. split; [done|].
  rewrite <-nib_bits_digit. cbn zeta. cbn [app] in A2, A3.
  split; [done|]. split; [by f_equal|]. destruct o as [[j c]|]; cbn [walk_key]; [|done].
  destruct A3 as (B1 & B2 & B3 & B4). exists j, c. split_and!; [done|done|done|].
  destruct B4 as [B4|B4]; [left; by apply nib_bits_inj|by right].
Qed.

Definition ex_cs : gmap nib child :=
  <[n1 := Child [x01] 3 TLeaf]> (<[nA := Child [x02] 4 (TInternal 2)]> (<[nC := Child [x03] 5 TLeaf]> ∅)).
Example C47_example :
  let sha := fun x : bytes => x in
  exists n, inode_new ex_cs = Ok n /\ in_count n = Some 4%N /\
    (* nibble 2 is empty but its half holds the single leaf at nibble 1 *)
    (exists s, get_child_with_siblings sha n (7%N, []) n2 = Ok (Some (3%N, [n1]), [s])) /\
    (* nibble a is passed by the leaves at 1 and c, then by two empty halves *)
    get_child_with_siblings sha n (7%N, []) nA =
      Ok (Some (4%N, [nA]), [[x01]; [x03]; spec_empty_hash; spec_empty_hash]).
Proof.
  eexists. split; [vm_compute; reflexivity|]. split; [reflexivity|]. split.
  - eexists. vm_compute. reflexivity.
  - vm_compute. reflexivity.
Qed.

(** ** C59: the child array is a finite map *)

Inductive arr_built : children_arr -> gmap nib child -> Prop :=
| arr_built_new : arr_built ca_new ∅
| arr_built_insert c m i x c' : arr_built c m -> ca_insert c i x = Ok c' -> arr_built c' (<[i := x]> m)
| arr_built_remove c m i c' : arr_built c m -> ca_remove c i = Ok c' -> arr_built c' (delete i m).

Lemma arr_built_repr c m : arr_built c m -> arr_repr c m.
Proof.
  induction 1 as [|c m i x c' _ IH H|c m i c' _ IH H].
  - apply arr_new.
  - destruct (arr_insert _ _ i x IH) as (c2 & E & H2). rewrite H in E. by injection E as <-.
  - destruct (arr_remove _ _ i IH) as (c2 & E & H2). rewrite H in E. by injection E as <-.
Qed.

(** No operation on a built array panics, the counter is the number of
    children, iteration gives them in ascending order of nibble, and building a
    node from the array is building it from the map. *)
Theorem C59_children_are_map : forall c m, arr_built c m ->
  (forall i, ca_get c i = Ok (m !! i)) /\
  (forall i x, exists c', ca_insert c i x = Ok c' /\ arr_built c' (<[i := x]> m)) /\
  (forall i, exists c', ca_remove c i = Ok c' /\ arr_built c' (delete i m)) /\
  ca_num c = size m /\ ca_is_empty c = bool_decide (m = ∅) /\
  (exists l, ca_iter c = Ok l /\ map snd l = ca_values c /\
     l ≡ₚ map_to_list m /\ StronglySorted (fun a b => (nib_val (fst a) < nib_val (fst b))%N) l) /\
  ca_inode_new c = match inode_new m with
                   | Ok n => Ok (ca_values c, in_count n)
                   | _ => Panic
                   end.
Proof.
  intros c m Hb. pose proof (arr_built_repr _ _ Hb) as Hc. split.
  { intros i. by apply arr_index. }
  split.
  { intros i x. destruct (arr_insert _ _ i x Hc) as (c' & E & _). exists c'. split; [done|].
    by eapply arr_built_insert. }
  split.
  { intros i. destruct (arr_remove _ _ i Hc) as (c' & E & _). exists c'. split; [done|].
    by eapply arr_built_remove. }
  split; [apply Hc|]. split.
  { unfold ca_is_empty. destruct Hc as [_ ->]. case_bool_decide as E.
    - subst m. by rewrite map_size_empty.
    - apply Nat.eqb_neq. by apply map_size_non_empty_iff. }
  split.
  { exists (children_sorted m). split; [by apply arr_iter|]. split; [by rewrite (arr_values _ _ Hc)|].
    split; [apply children_sorted_perm|]. unfold children_sorted.
    assert (Hs : StronglySorted (fun a b => (nib_val a < nib_val b)%N) all_nibs).
    { unfold all_nibs. repeat (constructor; [|repeat (constructor; [vm_compute; reflexivity|]); constructor]). constructor. }
    induction Hs as [|i l Hs IH Hall]; [constructor|]. cbn [omap list_omap].
    destruct (m !! i) as [x|]; [|done]. constructor; [done|].
    apply Forall_forall. intros [j y] Hin. apply elem_of_list_omap in Hin as (j' & Hj & Hm).
    destruct (m !! j') as [z|]; [|done]. injection Hm as -> ->. cbn [fst].
    rewrite Forall_forall in Hall. by apply Hall. }
  rewrite (arr_inode_new _ _ Hc), (arr_values _ _ Hc). done.
Qed.

Definition the_arr (r : res unit children_arr) : children_arr :=
  match r with Ok c => c | _ => ca_new end.
Definition ex_c1 := the_arr (ca_insert ca_new nA (Child [x01] 3 TLeaf)).
Definition ex_c2 := the_arr (ca_insert ex_c1 n1 (Child [x02] 4 TLeaf)).
Definition ex_c3 := the_arr (ca_remove ex_c2 nA).
Example C59_example :
  arr_built ex_c3 (delete nA (<[n1 := Child [x02] 4 TLeaf]> (<[nA := Child [x01] 3 TLeaf]> ∅))) /\
  ca_num ex_c2 = 2 /\ ca_num ex_c3 = 1 /\
  ca_iter ex_c2 = Ok [(n1, Child [x02] 4 TLeaf); (nA, Child [x01] 3 TLeaf)] /\
  ca_inode_new ex_c3 = Panic.
Proof.
  split; [|repeat split; reflexivity].
  apply (arr_built_remove ex_c2); [|reflexivity]. apply (arr_built_insert ex_c1); [|reflexivity].
  apply (arr_built_insert ca_new); [|reflexivity]. constructor.
Qed.

(** ** C49 *)

Theorem C49_version_bytes : forall v, (v < 2 ^ 64)%N ->
  length (version_to_bytes v) = 8 /\ be_number (version_to_bytes v) = v /\
  version_of_bytes (version_to_bytes v) = v.
Proof.
  intros v Hv. split; [done|]. pose proof (version_bytes_value v Hv) as E. split; [done|].
  unfold version_of_bytes. rewrite version_bytes_len. cbn [Nat.eqb]. by rewrite be_value_spec.
Qed.
Theorem C49_bytes_version : forall b,
  (length b = 8 -> version_of_bytes b = be_number b /\ version_to_bytes (version_of_bytes b) = b) /\
  (length b <> 8 -> version_of_bytes b = 0%N).
Proof.
  assert (Hinj : forall a b, length a = length b -> be_number a = be_number b -> a = b).
  { assert (Hlt : forall a, (be_number a < 256 ^ N.of_nat (length a))%N).
    { induction a as [|x a IH]; [vm_compute; reflexivity|]. cbn [be_number length].
      replace (N.of_nat (S (length a))) with (N.succ (N.of_nat (length a))) by lia.
      rewrite N.pow_succ_r'. assert (Byte.to_N x < 256)%N by (destruct x; vm_compute; reflexivity). nia. }
    induction a as [|x a IH]; intros [|y b] Hl He; try done. cbn [length] in Hl. injection Hl as Hl.
    cbn [be_number] in He. rewrite Hl in He. pose proof (Hlt a) as H1. pose proof (Hlt b) as H2. rewrite Hl in H1.
    assert (Byte.to_N x = Byte.to_N y) as Hxy by nia.
    f_equal; [|apply IH; [done|nia]].
    apply (f_equal Byte.of_N) in Hxy. rewrite !Byte.of_to_N in Hxy. congruence. }
  intros b. split; intros Hl; unfold version_of_bytes.
  - rewrite Hl. cbn [Nat.eqb]. rewrite be_value_spec. split; [done|].
    apply Hinj; [by rewrite Hl|]. apply version_bytes_value.
    destruct b as [|b1 [|b2 [|b3 [|b4 [|b5 [|b6 [|b7 [|b8 [|]]]]]]]]]; try done. clear.
    cbn [be_number length].
    assert (Hb : forall x, (Byte.to_N x < 256)%N) by (intros x; destruct x; vm_compute; reflexivity).
    pose proof (Hb b1). pose proof (Hb b2). pose proof (Hb b3). pose proof (Hb b4).
    pose proof (Hb b5). pose proof (Hb b6). pose proof (Hb b7). pose proof (Hb b8).
    repeat match goal with |- context [(256 ^ ?x)%N] =>
      let y := eval vm_compute in (256 ^ x)%N in change (256 ^ x)%N with y end.
    change (2 ^ 64)%N with 18446744073709551616%N. lia.
  - destruct (Nat.eqb_spec (length b) 8); [done|]. vm_compute. done.
Qed.
Example C49_example :
  version_to_bytes 258 = [x00; x00; x00; x00; x00; x00; x01; x02] /\
  version_of_bytes [x01; x02] = 0%N /\
  version_of_bytes (repeat xff 8) = 18446744073709551615%N.
Proof. vm_compute. done. Qed.

Print Assumptions C44_bits_roundtrip.
Print Assumptions C44_bits_onto.
Print Assumptions C44_common_prefix.
Print Assumptions C45_path_is_list.
Print Assumptions C45_path_unique.
Print Assumptions C45_padding.
Print Assumptions C45_new_digits.
Print Assumptions C60_cursor_is_split_list.
Print Assumptions C60_skip_common_prefix.
Print Assumptions C46_ranges_partition.
Print Assumptions C47_inode_hash.
Print Assumptions C47_child_search.
Print Assumptions C59_children_are_map.
Print Assumptions C49_version_bytes.
Print Assumptions C49_bytes_version.
