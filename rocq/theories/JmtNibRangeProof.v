(** Lemmas for nibble ranges, the child array and the hash of the sixteen
    slots. *)
From Verif Require Import Base JmtNibModel JmtPathModel JmtChildrenModel JmtSpec JmtNibSpec
  JmtNibProof JmtModel JmtHashProof JmtNibMoreProof.
Local Open Scope nat_scope.

(** ** Sorted keys have sorted digits *)
Lemma digits_cons b k : digits (b :: k) = (Byte.to_N b / 16)%N :: (Byte.to_N b mod 16)%N :: digits k.
Proof. done. Qed.
Lemma sorted_digit k l i x y :
  bytes_lt k l -> take i (digits k) = take i (digits l) ->
  digits k !! i = Some x -> digits l !! i = Some y -> (x <= y)%N.
Proof.
  intros H. revert i. induction H as [b k|a b k l Hab|a k l _ IH]; intros i Ht Hx Hy.
  - done.
  - rewrite !digits_cons in *. pose proof (N.div_mod' (Byte.to_N a) 16). pose proof (N.div_mod' (Byte.to_N b) 16).
    pose proof (N.mod_lt (Byte.to_N a) 16). pose proof (N.mod_lt (Byte.to_N b) 16).
    destruct i as [|[|i]].
    + cbn in Hx, Hy. assert (x = Byte.to_N a / 16)%N as -> by congruence.
      assert (y = Byte.to_N b / 16)%N as -> by congruence. apply N.div_le_mono; [done|lia].
    + cbn [take lookup list_lookup] in *. assert (x = Byte.to_N a mod 16)%N as -> by congruence.
      assert (y = Byte.to_N b mod 16)%N as -> by congruence.
      assert (Byte.to_N a / 16 = Byte.to_N b / 16)%N by congruence. lia.
    + cbn [take] in Ht. assert (Byte.to_N a / 16 = Byte.to_N b / 16)%N by congruence.
      assert (Byte.to_N a mod 16 = Byte.to_N b mod 16)%N by congruence. lia.
  - rewrite !digits_cons in *. destruct i as [|[|i]]; cbn [take lookup list_lookup] in *.
    + assert (x = y) by congruence. lia.
    + assert (x = y) by congruence. lia.
    + apply (IH i); [congruence|done|done].
Qed.

(** ** The binary search *)
Section Ranges.
Context (kvs : list (bytes * bytes)) (ix : nat) (f : nat -> N).
Hypothesis Hf : forall i, i < length kvs -> kv_nibble kvs ix i = Some (f i).
Hypothesis Hmono : forall i j, i < j -> j < length kvs -> (f i <= f j)%N.

Lemma nri_search_ok fuel cur i j :
  j - i <= fuel -> i <= j -> j < length kvs -> (f i <= cur)%N ->
  (forall m, j < m -> m < length kvs -> (cur < f m)%N) ->
  exists r, nri_search fuel kvs ix cur i j = Ok r /\ i <= r <= j /\ (f r <= cur)%N /\
    forall m, r < m -> m < length kvs -> (cur < f m)%N.
Proof.
  revert i j. induction fuel as [|fuel IH]; intros i j Hfu Hij Hj Hi Hgt; cbn [nri_search].
  - destruct (Nat.ltb_spec i j); [lia|]. exists i. split_and!; try done. intros. apply Hgt; lia.
  - destruct (Nat.ltb_spec i j) as [Hlt|Hge].
    2: { exists i. split_and!; try done. intros. apply Hgt; lia. }
    assert (Hd : (j - i) / 2 <= (j - i) - 1).
    { assert ((j - i) / 2 < j - i); [apply Nat.div_lt; lia|lia]. }
    set (mid := j - (j - i) / 2) in *. assert (i < mid <= j) by lia.
    rewrite Hf by lia. destruct (N.ltb_spec cur (f mid)) as [Hm|Hm].
    + destruct (IH i (mid - 1)) as (r & E & Hr & H1 & H2); [lia..|done| |].
      { intros m Hm1 Hm2. destruct (decide (m = mid)) as [->|]; [done|].
        apply N.lt_le_trans with (f mid); [done|]. apply Hmono; lia. }
      exists r. split_and!; [done|lia|lia|done|done].
    + destruct (IH mid j) as (r & E & Hr & H1 & H2); [lia..|done|done|].
      exists r. split_and!; [done|lia|lia|done|done].
Qed.

Lemma nri_collect_ok fuel pos :
  length kvs - pos < fuel -> pos <= length kvs ->
  (forall m n, m < pos -> pos <= n -> n < length kvs -> (f m < f n)%N) ->
  exists rs, nri_collect fuel kvs ix pos = Ok rs /\ tiles pos (length kvs) rs /\
    Forall (fun lr => forall m, m < length kvs -> (fst lr <= m <= snd lr <-> f m = f (fst lr))) rs.
Proof.
  revert pos. induction fuel as [|fuel IH]; intros pos Hfu Hpos Hlow; [lia|]. cbn [nri_collect].
  unfold nri_next. destruct (Nat.ltb_spec pos (length kvs)) as [Hlt|Hge].
  2: { exists []. cbn [rbind tiles]. split_and!; [done|lia|constructor]. }
  rewrite Hf by done.
  destruct (nri_search_ok (length kvs) (f pos) pos (length kvs - 1)) as (r & E & Hr & H1 & H2); [lia..|].
  rewrite E. cbn [rbind].
  assert (Hin : forall m, pos <= m <= r -> f m = f pos).
  { intros m Hm. apply N.le_antisymm.
    - destruct (decide (m = r)) as [->|]; [done|]. apply N.le_trans with (f r); [apply Hmono; lia|done].
    - destruct (decide (m = pos)) as [->|]; [lia|]. apply Hmono; lia. }
  destruct (IH (S r)) as (rs & E2 & H3 & H4); [lia|lia| |].
  { intros m n Hm Hn1 Hn2. destruct (decide (m < pos)) as [Hmp|Hmp].
    - apply Hlow; lia.
    - rewrite (Hin m) by lia. apply H2; lia. }
  rewrite E2. cbn [rbind]. exists ((pos, r) :: rs). split; [done|]. split.
  - cbn [tiles]. split_and!; [done|lia|lia|done].
  - constructor; [|done]. cbn [fst snd]. intros m Hm. split; [apply Hin|]. intros Hfm.
    destruct (decide (m < pos)) as [Hmp|Hmp].
    + pose proof (Hlow m pos Hmp). lia.
    + destruct (decide (r < m)) as [Hrm|Hrm]; [|lia]. pose proof (H2 m Hrm Hm). lia.
Qed.
End Ranges.

(** ** The child array *)
Definition arr_repr (c : children_arr) (m : gmap nib child) : Prop :=
  ca_slots c = map (fun i => m !! i) all_nibs /\ ca_num c = size m.
Lemma all_nibs_lookup i : all_nibs !! N.to_nat (nib_val i) = Some i.
Proof. destruct i as [[] [] [] []]; vm_compute; reflexivity. Qed.
Lemma all_nibs_index j i : all_nibs !! j = Some i -> j = N.to_nat (nib_val i).
Proof.
  intros H. eapply NoDup_lookup; [apply all_nibs_NoDup|done|apply all_nibs_lookup].
Qed.
Lemma arr_new : arr_repr ca_new ∅.
Proof. split; [|by rewrite map_size_empty]. unfold ca_new, all_nibs. cbn [ca_slots map repeat]. by rewrite !lookup_empty. Qed.
Lemma arr_index c m i : arr_repr c m -> ca_index c i = Ok (m !! i).
Proof.
  intros [H _]. unfold ca_index. rewrite H. change (map ?g all_nibs) with (g <$> all_nibs).
  by rewrite list_lookup_fmap, all_nibs_lookup.
Qed.
Lemma map_update (g g' : nib -> option child) i x :
  g' i = x -> (forall j, j <> i -> g' j = g j) ->
  <[N.to_nat (nib_val i) := x]> (map g all_nibs) = map g' all_nibs.
Proof.
  intros Hi Hj. apply list_eq. intros n. change (map ?g all_nibs) with (g <$> all_nibs).
  destruct (decide (n = N.to_nat (nib_val i))) as [->|Hn].
  - rewrite list_lookup_insert.
    2: { rewrite fmap_length. apply (lookup_lt_Some _ _ i), all_nibs_lookup. }
    by rewrite list_lookup_fmap, all_nibs_lookup, <-Hi.
  - rewrite list_lookup_insert_ne, !list_lookup_fmap by done.
    destruct (all_nibs !! n) as [j|] eqn:E; [|done]. cbn. rewrite Hj; [done|].
    intros ->. apply Hn. by apply all_nibs_index.
Qed.
Lemma arr_insert c m i x : arr_repr c m ->
  exists c', ca_insert c i x = Ok c' /\ arr_repr c' (<[i := x]> m).
Proof.
  intros Hc. unfold ca_insert. rewrite (arr_index _ _ _ Hc). cbn [rbind].
  eexists. split; [reflexivity|]. destruct Hc as [H1 H2]. split; cbn [ca_slots ca_num].
  - rewrite H1. apply map_update; [by rewrite lookup_insert|].
    intros j Hj. by rewrite lookup_insert_ne.
  - rewrite map_size_insert, H2. by destruct (m !! i).
Qed.
Lemma arr_remove c m i : arr_repr c m ->
  exists c', ca_remove c i = Ok c' /\ arr_repr c' (delete i m).
Proof.
  intros Hc. unfold ca_remove. rewrite (arr_index _ _ _ Hc). cbn [rbind]. destruct Hc as [H1 H2].
  assert (Hs : forall n, n = size (delete i m) ->
    arr_repr (Carr (<[N.to_nat (nib_val i) := None]> (ca_slots c)) n) (delete i m)).
  { intros n ->. split; [|done]. cbn [ca_slots]. rewrite H1. apply map_update; [by rewrite lookup_delete|].
    intros j Hj. by rewrite lookup_delete_ne. }
  destruct (m !! i) as [x|] eqn:E.
  - rewrite H2. rewrite (map_size_delete_Some) in Hs by eauto.
    destruct (size m) as [|n] eqn:Hn.
    + apply map_size_empty_inv in Hn as ->. done.
    + eexists. split; [reflexivity|]. apply Hs. done.
  - rewrite H2. eexists. split; [reflexivity|]. apply Hs. by rewrite delete_notin.
Qed.
Lemma ca_entries_app from l : from + length l <= 16 ->
  exists r, ca_entries from l = Ok r /\ map snd r = omap id l /\
    forall i x, (i, x) ∈ r <-> from <= N.to_nat (nib_val i) /\ l !! (N.to_nat (nib_val i) - from) = Some (Some x).
Proof.
  revert from. induction l as [|o l IH]; intros from Hl; cbn [ca_entries length] in *.
  - exists []. split_and!; [done..|]. intros i x. rewrite elem_of_nil, lookup_nil. naive_solver.
  - destruct (IH (S from)) as (r & E & H1 & H2); [lia|]. rewrite E. destruct o as [y|].
    + destruct (nib_of_lt (N.of_nat from)) as (i0 & Hi0 & Hv); [lia|].
      unfold nib_of_res. rewrite Hi0. cbn [rbind]. exists ((i0, y) :: r). split; [done|].
      split; [cbn; by rewrite H1|]. intros i x. rewrite elem_of_cons, H2. split.
      * intros [[= -> ->]|[Hle Hlk]].
        -- rewrite Hv. split; [lia|]. by replace (N.to_nat (N.of_nat from) - from) with 0 by lia.
        -- split; [lia|]. replace (N.to_nat (nib_val i) - from) with (S (N.to_nat (nib_val i) - S from)) by lia. done.
      * intros [Hle Hlk]. destruct (decide (N.to_nat (nib_val i) = from)) as [He|He].
        -- left. rewrite He, Nat.sub_diag in Hlk. cbn in Hlk. simplify_eq. f_equal.
           apply nib_val_inj. lia.
        -- right. split; [lia|]. replace (N.to_nat (nib_val i) - from) with (S (N.to_nat (nib_val i) - S from)) in Hlk by lia. done.
    + exists r. split; [done|]. split; [done|]. intros i x. rewrite H2. split.
      * intros [Hle Hlk]. split; [lia|]. replace (N.to_nat (nib_val i) - from) with (S (N.to_nat (nib_val i) - S from)) by lia. done.
      * intros [Hle Hlk]. destruct (decide (N.to_nat (nib_val i) = from)) as [He|He].
        -- by rewrite He, Nat.sub_diag in Hlk.
        -- split; [lia|]. replace (N.to_nat (nib_val i) - from) with (S (N.to_nat (nib_val i) - S from)) in Hlk by lia. done.
Qed.
Lemma ca_entries_map (g : nib -> option child) from l :
  (forall j i, l !! j = Some i -> N.to_nat (nib_val i) = from + j) ->
  ca_entries from (map g l) =
  Ok (omap (fun i => match g i with Some x => Some (i, x) | None => None end) l).
Proof.
  revert from. induction l as [|i l IH]; intros from Hl; [done|].
  cbn [map ca_entries omap list_omap].
  assert (IH' := IH (S from)). rewrite IH'.
  2: { intros j i' H. rewrite (Hl (S j) i') by done. lia. }
  destruct (g i) as [x|]; [|done].
  assert (N.of_nat from = nib_val i) as ->.
  { pose proof (Hl 0 i eq_refl). lia. }
  unfold nib_of_res. rewrite nib_of_val. done.
Qed.
Lemma arr_iter c m : arr_repr c m -> ca_iter c = Ok (children_sorted m).
Proof.
  intros [H _]. unfold ca_iter. rewrite H. unfold children_sorted. apply ca_entries_map.
  intros j i Hj. by rewrite (all_nibs_index _ _ Hj).
Qed.
Lemma arr_values c m : arr_repr c m -> ca_values c = map snd (children_sorted m).
Proof.
  intros [H _]. unfold ca_values. rewrite H. unfold children_sorted. clear H.
  induction all_nibs as [|i l IH]; [done|]. cbn [map omap list_omap].
  unfold id at 1. destruct (m !! i); cbn [map snd]; by rewrite IH.
Qed.
Lemma children_sorted_perm m : children_sorted m ≡ₚ map_to_list m.
Proof.
  apply NoDup_Permutation.
  - eapply NoDup_fmap_1. apply (children_sorted_NoDup m).
  - apply NoDup_map_to_list.
  - intros [i x]. rewrite elem_children_sorted, elem_of_map_to_list. done.
Qed.
Lemma children_sorted_size m : length (children_sorted m) = size m.
Proof. rewrite children_sorted_perm. done. Qed.
Lemma sum_fold l a :
  fold_left (fun a x => match a, child_leaf_count x with
                        | Some n, Some m => Some (n + m)%N | _, _ => None end) (map snd l) a =
  match a, sum_leaf_count l with Some n, Some m => Some (n + m)%N | _, _ => None end.
Proof.
  revert a. induction l as [|[i x] l IH]; intros a; cbn [map snd fold_left sum_leaf_count].
  - destruct a; [|done]. f_equal. lia.
  - rewrite IH. destruct a, (child_leaf_count x), (sum_leaf_count l); try done. f_equal. lia.
Qed.
Lemma arr_inode_new c m : arr_repr c m ->
  ca_inode_new c = match inode_new m with
                   | Ok n => Ok (map snd (children_sorted m), in_count n)
                   | _ => Panic
                   end.
Proof.
  intros Hc. unfold ca_inode_new, ca_is_empty, inode_new.
  rewrite (arr_values _ _ Hc), sum_fold. destruct Hc as [_ ->]. rewrite <-children_sorted_size.
  assert (match sum_leaf_count (children_sorted m) with Some m0 => Some (0 + m0)%N | None => None end =
          sum_leaf_count (children_sorted m)) as ->.
  { by destruct (sum_leaf_count _). }
  destruct (children_sorted m) as [|[i x] [|[j y] l]]; [done| |done].
  cbn [length map snd Nat.eqb in_count]. by destruct (child_is_leaf x).
Qed.

(** ** Sixteen slots *)
Lemma below_map {A B} (g : A -> B) h l q : below h (map g l) q = map g (below h l q).
Proof.
  revert l q. induction h as [|h IH]; intros l [|b q]; cbn [below]; try done.
  destruct b; [rewrite <-IH, skipn_map|rewrite <-IH, firstn_map]; done.
Qed.
Lemma below_nibs q : length q <= 4 ->
  below 4 all_nibs q = filter (fun i => q `prefix_of` nib_bits i) all_nibs.
Proof.
  intros Hl. do 5 (destruct q as [|[] q]; [vm_compute; reflexivity|..]); cbn in Hl; try lia;
    do 4 (destruct q as [|[] q]; cbn in Hl; try lia; [vm_compute; reflexivity|..]).
Qed.
Lemma below_snoc {A} h h' (l : list A) q b : h = length q + S h' ->
  below h l (q ++ [b]) = if b then drop (2 ^ h') (below h l q) else take (2 ^ h') (below h l q).
Proof.
  intros ->. revert l. induction q as [|a q IH]; intros l; cbn [app below length plus].
  - destruct h'; by destruct b.
  - apply IH.
Qed.
Definition cslot (o : option child) : slot :=
  match o with Some c => Some (c_hash c, child_is_leaf c) | None => None end.
Definition node_slots (m : gmap nib child) : list slot := map (fun i => cslot (m !! i)) all_nibs.
Lemma filled_kids cs q : length q <= 4 ->
  filled (below 4 (node_slots cs) q) = map (fun ic => (c_hash (snd ic), child_is_leaf (snd ic))) (kids cs q).
Proof.
  intros Hl. unfold node_slots. rewrite below_map, below_nibs by done.
  unfold kids, children_sorted, filled. induction all_nibs as [|i l IH]; [done|].
  cbn [omap list_omap]. rewrite filter_cons.
  destruct (decide (q `prefix_of` nib_bits i)) as [Hp|Hp].
  - cbn [map omap list_omap]. unfold id at 1. destruct (cs !! i) as [c|]; cbn [cslot].
    + rewrite filter_cons. cbn [fst]. rewrite decide_True by done. cbn [map snd]. by rewrite IH.
    + done.
  - rewrite IH. destruct (cs !! i) as [c|]; [|done].
    rewrite filter_cons. cbn [fst]. by rewrite decide_False by done.
Qed.
Section Slots.
Context (sha : bytes -> bytes).
Lemma slots_mspec cs h q : length q + h = 4 ->
  slots_hash (sm_internal sha) placeholder h (below 4 (node_slots cs) q) = mspec sha h cs q.
Proof.
  revert q. induction h as [|h IH]; intros q Hl.
  - cbn [slots_hash mspec]. rewrite filled_kids by lia.
    destruct (kids cs q) as [|[i c] [|[j d] l]]; cbn [map snd]; [done| |].
    + by destruct (child_is_leaf c).
    + by destruct (child_is_leaf c).
  - cbn [slots_hash mspec]. rewrite filled_kids by lia.
    rewrite <-(IH (q ++ [false])), <-(IH (q ++ [true])) by (rewrite app_length; cbn [length]; lia).
    rewrite !(below_snoc 4 h) by lia.
    destruct (kids cs q) as [|[i c] [|[j d] l]]; cbn [map snd single_leaf]; [done| |].
    + by destruct (child_is_leaf c).
    + by destruct (child_is_leaf c).
Qed.
Lemma walk_recombine cs h q bits o sibs :
  length q + h = 4 -> length bits = h -> kids cs q <> [] -> single_leaf (kids cs q) = false -> 0 < h ->
  walk sha h cs q bits = (o, sibs) ->
  let d := length sibs in
  0 < d <= h /\
  recombine (sm_internal sha) (take d bits) sibs
    (slots_hash (sm_internal sha) placeholder (h - d) (below 4 (node_slots cs) (q ++ take d bits)))
    = mspec sha h cs q /\
  match o with
  | None => filled (below 4 (node_slots cs) (q ++ take d bits)) = []
  | Some (j, c) =>
      cs !! j = Some c /\ (q ++ take d bits) `prefix_of` nib_bits j /\
      filled (below 4 (node_slots cs) (q ++ take d bits)) = [(c_hash c, child_is_leaf c)] /\
      (nib_bits j = q ++ bits \/ child_is_leaf c = true)
  end.
Proof.
  revert q bits o sibs. induction h as [|h IH]; intros q bits o sibs Hl Hb Hne Hs Hh; [lia|].
  destruct bits as [|b bits]; [done|]. cbn [length] in Hb. injection Hb as Hb. cbn [walk].
  assert (Hm : mspec sha (S h) cs q = sm_internal sha (mspec sha h cs (q ++ [false])) (mspec sha h cs (q ++ [true]))).
  { cbn [mspec]. rewrite Hs. by destruct (kids cs q) as [|[i c] l]. }
  assert (Hm2 : mspec sha (S h) cs q = if b then sm_internal sha (mspec sha h cs (q ++ [negb b])) (mspec sha h cs (q ++ [b]))
                 else sm_internal sha (mspec sha h cs (q ++ [b])) (mspec sha h cs (q ++ [negb b]))).
  { by destruct b. }
  assert (Hq1 : length (q ++ [b]) + h = 4) by (rewrite app_length; cbn [length]; lia).
  destruct (kids cs (q ++ [b])) as [|[i c] l] eqn:K.
  - intros Hw. injection Hw as <- <-. cbn [length]. split; [lia|].
    replace (S h - 1) with h by lia. cbn [take]. rewrite take_0. cbn [recombine].
    rewrite slots_mspec by done. split; [by rewrite Hm2|].
    rewrite filled_kids by lia. by rewrite K.
  - destruct ((h =? 0) || single_leaf ((i, c) :: l)) eqn:E.
    + intros Hw. injection Hw as <- <-. cbn [length]. split; [lia|].
      replace (S h - 1) with h by lia. cbn [take]. rewrite take_0. cbn [recombine].
      rewrite slots_mspec by done. split; [by rewrite Hm2|].
      assert (Hin : (i, c) ∈ kids cs (q ++ [b])) by (rewrite K; left).
      apply elem_kids in Hin as [Hc Hp]. split; [done|]. split; [done|].
      rewrite filled_kids, K by lia. apply orb_true_iff in E as [E|E].
      * apply Nat.eqb_eq in E as ->. pose proof (kids_full (q ++ [b]) cs ltac:(lia)) as Hk.
        rewrite K in Hk. destruct l; [|cbn in Hk; lia]. split; [done|]. left.
        destruct bits; [|done]. destruct Hp as [r Hp].
        assert (r = []) as ->. { apply (f_equal length) in Hp. rewrite nib_bits_length, app_length in Hp. destruct r; [done|cbn in Hp; lia]. }
        by rewrite app_nil_r in Hp.
      * destruct l; [|done]. split; [done|]. by right.
    + apply orb_false_iff in E as [E1 E2]. apply Nat.eqb_neq in E1.
      destruct (walk sha h cs (q ++ [b]) bits) as [o' sibs'] eqn:Hw'. intros Hw. injection Hw as <- <-.
      destruct (IH (q ++ [b]) bits o' sibs') as (H1 & H2 & H3); [done|done|by rewrite K|by rewrite K|lia|done|].
      cbn [length]. split; [lia|]. cbn [take recombine Nat.sub].
      replace (q ++ b :: take (length sibs') bits) with ((q ++ [b]) ++ take (length sibs') bits) by by rewrite <-app_assoc.
      rewrite H2. split; [by rewrite Hm2|]. destruct o' as [[j d]|]; [|done].
      destruct H3 as (A1 & A2 & A3 & A4). split_and!; [done|done|done|].
      destruct A4 as [->|]; [left; by rewrite <-app_assoc|by right].
Qed.
End Slots.
