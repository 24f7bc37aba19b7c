(** The tree a set of pairs determines: hashes below bit prefixes, the nodes
    at nibble paths, and what an update does to them. *)
From Verif Require Import Base JmtNibModel JmtSpec JmtNibProof JmtModel JmtHashProof.
Local Open Scope nat_scope.

Notation pairs := (gmap bytes bytes).

(** Pairs whose key starts with some bits. *)
Definition under (B : list bool) (kv : bytes * bytes) : Prop := B `prefix_of` key_bits (fst kv).
Global Instance under_dec B kv : Decision (under B kv).
Proof. unfold under. apply _. Defined.
Definition subm (B : list bool) (M : pairs) : pairs := filter (under B) M.
Definition cnt (B : list bool) (M : pairs) : nat := size (subm B M).
Definition wfm (M : pairs) : Prop := forall k x, M !! k = Some x -> length k = 32.

Lemma subm_Some B M k x : subm B M !! k = Some x <-> M !! k = Some x /\ B `prefix_of` key_bits k.
Proof. unfold subm. rewrite map_filter_lookup_Some. done. Qed.
Lemma subm_nil M : subm [] M = M.
Proof.
  apply map_eq. intros k. apply option_eq. intros x. rewrite subm_Some.
  split; [tauto|]. intros; split; [done|]. apply prefix_nil.
Qed.
Lemma cnt_0 B M : cnt B M = 0 <-> subm B M = ∅.
Proof. apply map_size_empty_iff. Qed.
Lemma cnt_pos B M k x : M !! k = Some x -> B `prefix_of` key_bits k -> 0 < cnt B M.
Proof.
  intros H Hp. destruct (decide (cnt B M = 0)) as [E|E]; [|lia].
  apply cnt_0 in E. assert (subm B M !! k = Some x) as H2 by by apply subm_Some.
  by rewrite E, lookup_empty in H2.
Qed.
Lemma cnt_pos_inv B M : 0 < cnt B M -> exists k x, M !! k = Some x /\ B `prefix_of` key_bits k.
Proof.
  intros H. destruct (map_choose (subm B M)) as (k & x & Hk).
  { intros E. apply cnt_0 in E. lia. }
  apply subm_Some in Hk. eauto.
Qed.
Lemma cnt_single B M k x : subm B M = {[k := x]} -> cnt B M = 1.
Proof. unfold cnt. intros ->. apply map_size_singleton. Qed.
Lemma cnt_1 B M : cnt B M = 1 -> exists k x, subm B M = {[k := x]}.
Proof.
  intros H. destruct (cnt_pos_inv B M) as (k & x & Hk & Hp); [lia|].
  assert (subm B M !! k = Some x) as Hs by by apply subm_Some.
  exists k, x. unfold cnt in H.
  rewrite <-(insert_delete (subm B M) k x Hs) in H.
  rewrite map_size_insert_None in H by apply lookup_delete.
  assert (delete k (subm B M) = ∅) as E by (apply map_size_empty_iff; lia).
  rewrite <-(insert_delete (subm B M) k x Hs), E. done.
Qed.
Lemma cnt_ge2 B M k1 k2 x1 x2 :
  k1 <> k2 -> M !! k1 = Some x1 -> M !! k2 = Some x2 ->
  B `prefix_of` key_bits k1 -> B `prefix_of` key_bits k2 -> 2 <= cnt B M.
Proof.
  intros Hne H1 H2 P1 P2. pose proof (cnt_pos B M k1 x1 H1 P1).
  destruct (decide (cnt B M = 1)) as [E|E]; [exfalso|lia].
  apply cnt_1 in E as (k & x & E).
  assert (subm B M !! k1 = Some x1) as S1 by by apply subm_Some.
  assert (subm B M !! k2 = Some x2) as S2 by by apply subm_Some.
  rewrite E in S1, S2. apply lookup_singleton_Some in S1 as [-> _].
  apply lookup_singleton_Some in S2 as [-> _]. done.
Qed.
Lemma cnt_ge2_inv B M k : 2 <= cnt B M ->
  exists k2 x2, k2 <> k /\ M !! k2 = Some x2 /\ B `prefix_of` key_bits k2.
Proof.
  intros H.
  destruct (map_choose (delete k (subm B M))) as (k2 & x2 & Hk).
  { intros E. apply map_size_empty_iff in E.
    destruct (subm B M !! k) as [x|] eqn:Hk.
    - unfold cnt in H. rewrite <-(insert_delete (subm B M) k x Hk) in H.
      rewrite map_size_insert_None, E in H by apply lookup_delete. lia.
    - rewrite delete_notin in E by done. unfold cnt in H. lia. }
  apply lookup_delete_Some in Hk as [Hne Hk]. apply subm_Some in Hk as [??]. eauto.
Qed.
Lemma cnt_mono B C M : B `prefix_of` C -> cnt C M <= cnt B M.
Proof.
  intros HBC. unfold cnt. rewrite <-!(size_dom (D := gset bytes)). apply subseteq_size, subseteq_dom, map_subseteq_spec.
  intros k x. rewrite !subm_Some. intros [? Hp]. split; [done|]. by etrans.
Qed.
Lemma subm_ext B M M' :
  (forall k, B `prefix_of` key_bits k -> M !! k = M' !! k) -> subm B M = subm B M'.
Proof.
  intros H. apply map_eq. intros k. apply option_eq. intros x. rewrite !subm_Some.
  split; intros [? Hp]; (split; [|done]); by rewrite <-?H, ?H in * by done.
Qed.
Lemma prefix_lookup {A} (l1 l2 : list A) b : length l1 < length l2 ->
  l1 `prefix_of` l2 -> l2 !! length l1 = Some b -> l1 ++ [b] `prefix_of` l2.
Proof.
  intros _ [l3 ->] H. rewrite lookup_app_r, Nat.sub_diag in H by lia.
  destruct l3 as [|c l3]; [done|]. cbn in H. simplify_eq. exists l3. by rewrite <-app_assoc.
Qed.
Lemma prefix_snoc_lookup {A} (l1 l2 : list A) b : l1 ++ [b] `prefix_of` l2 ->
  l1 `prefix_of` l2 /\ l2 !! length l1 = Some b.
Proof.
  intros [l3 ->]. rewrite <-app_assoc. split; [by eexists|].
  rewrite lookup_app_r, Nat.sub_diag by lia. done.
Qed.
Lemma subm_bit B M k x b : wfm M -> length B < 256 ->
  subm (B ++ [b]) M !! k = Some x <-> subm B M !! k = Some x /\ key_bits k !! length B = Some b.
Proof.
  intros Hw Hl. rewrite !subm_Some. split.
  - intros [Hk Hp]. apply prefix_snoc_lookup in Hp. tauto.
  - intros [[Hk Hp] Hb]. split; [done|]. apply prefix_lookup; [|done..].
    rewrite key_bits_length, (Hw _ _ Hk). lia.
Qed.
Lemma key_bit_ex M k x d : wfm M -> M !! k = Some x -> d < 256 -> exists b, key_bits k !! d = Some b.
Proof.
  intros Hw Hk Hd. apply lookup_lt_is_Some_2. rewrite key_bits_length, (Hw _ _ Hk). lia.
Qed.
Lemma cnt_deep B M : wfm M -> 256 <= length B -> cnt B M <= 1.
Proof.
  intros Hw Hl. destruct (decide (cnt B M <= 1)) as [|Hn]; [done|exfalso].
  destruct (cnt_pos_inv B M) as (k1 & x1 & H1 & P1); [lia|].
  destruct (cnt_ge2_inv B M k1) as (k2 & x2 & Hne & H2 & P2); [lia|].
  assert (forall k x, M !! k = Some x -> B `prefix_of` key_bits k -> B = key_bits k) as Hf.
  { intros k x Hk [l E]. pose proof (f_equal length E) as L.
    rewrite key_bits_length, (Hw _ _ Hk), app_length in L.
    assert (l = []) as -> by (destruct l; [done|cbn in L; lia]). by rewrite app_nil_r in E. }
  apply Hne. apply key_bits_inj. rewrite <-(Hf _ _ H1 P1), <-(Hf _ _ H2 P2). done.
Qed.

(** Counting by the next bit. *)
Lemma subm_split B M : wfm M -> length B < 256 ->
  subm B M = subm (B ++ [false]) M ∪ subm (B ++ [true]) M
  /\ subm (B ++ [false]) M ##ₘ subm (B ++ [true]) M.
Proof.
  intros Hw Hl.
  assert (subm (B ++ [false]) M ##ₘ subm (B ++ [true]) M) as Hd.
  { apply map_disjoint_spec. intros k x y H1 H2. apply subm_bit in H1 as [_ H1]; [|done..].
    apply subm_bit in H2 as [_ H2]; [|done..]. congruence. }
  split; [|done]. apply map_eq. intros k. apply option_eq. intros x.
  rewrite lookup_union_Some by done. rewrite !subm_bit by done. split; [|tauto].
  intros H. destruct (key_bit_ex M k x (length B)) as [[] Hb]; [done|by apply subm_Some in H as [??]|done|tauto..].
Qed.
Lemma cnt_split B M : wfm M -> length B < 256 ->
  cnt B M = cnt (B ++ [false]) M + cnt (B ++ [true]) M.
Proof.
  intros Hw Hl. destruct (subm_split B M Hw Hl) as [E Hd]. unfold cnt at 1. rewrite E.
  by rewrite map_size_disj_union.
Qed.
Lemma map_list_subm B M : filter (under B) (map_to_list M) ≡ₚ map_to_list (subm B M).
Proof. apply NoDup_Permutation; [apply NoDup_filter, NoDup_map_to_list|apply NoDup_map_to_list|].
  intros [k x]. rewrite elem_of_list_filter, !elem_of_map_to_list, subm_Some. unfold under. cbn. tauto.
Qed.

(** ** The hash below a bit prefix *)
Section Smt.
Context (lh : bytes -> bytes -> bytes) (nh : bytes -> bytes -> bytes) (eh : bytes).

Lemma smt_perm f d l l' : l ≡ₚ l' -> smt lh nh eh f d l = smt lh nh eh f d l'.
Proof.
  revert d l l'. induction f as [|f IH]; intros d l l' Hp.
  - destruct l as [|[k x] [|y l]].
    + apply Permutation_nil_l in Hp as <-. done.
    + apply Permutation_singleton_l in Hp as <-. done.
    + pose proof (Permutation_length Hp) as HL. destruct l' as [|[] [|? l']]; cbn in HL; try lia. done.
  - destruct l as [|[k x] [|y l]].
    + apply Permutation_nil_l in Hp as <-. done.
    + apply Permutation_singleton_l in Hp as <-. done.
    + pose proof (Permutation_length Hp) as HL. destruct l' as [|[k' x'] [|y' l']]; cbn in HL; try lia.
      cbn [smt]. f_equal; apply IH; by rewrite Hp.
Qed.
Lemma smt_unfold f d l : 2 <= length l ->
  smt lh nh eh (S f) d l =
  nh (smt lh nh eh f (S d) (filter (has_bit d false) l)) (smt lh nh eh f (S d) (filter (has_bit d true) l)).
Proof. destruct l as [|[] [|? l]]; cbn; [lia..|done]. Qed.

Definition hashB (B : list bool) (M : pairs) : bytes :=
  smt lh nh eh (256 - length B) (length B) (map_to_list (subm B M)).
Lemma hashB_empty B M : cnt B M = 0 -> hashB B M = eh.
Proof. intros H. apply cnt_0 in H. unfold hashB. rewrite H, map_to_list_empty. by destruct (_ - _). Qed.
Lemma hashB_single B M k x : subm B M = {[k := x]} -> hashB B M = lh k x.
Proof. intros H. unfold hashB. rewrite H, map_to_list_singleton. by destruct (_ - _). Qed.
Lemma hashB_split B M : wfm M -> 2 <= cnt B M ->
  hashB B M = nh (hashB (B ++ [false]) M) (hashB (B ++ [true]) M).
Proof.
  intros Hw Hc.
  assert (length B < 256) as Hl.
  { destruct (decide (length B < 256)); [done|]. pose proof (cnt_deep B M Hw). lia. }
  unfold hashB. rewrite !app_length. cbn [length].
  replace (256 - length B) with (S (256 - (length B + 1))) by lia.
  replace (length B + 1) with (S (length B)) by lia.
  rewrite smt_unfold by (exact Hc).
  f_equal; apply smt_perm; apply NoDup_Permutation;
    try apply NoDup_filter; try apply NoDup_map_to_list; intros [k x];
    rewrite elem_of_list_filter, !elem_of_map_to_list, subm_bit by done; unfold has_bit; cbn; tauto.
Qed.
Lemma hashB_ext B M M' : subm B M = subm B M' -> hashB B M = hashB B M'.
Proof. unfold hashB. by intros ->. Qed.
Lemma hashB_single_ext B C M : B `prefix_of` C -> 0 < cnt C M -> cnt B M = 1 -> hashB B M = hashB C M.
Proof.
  intros HBC Hp H1. destruct (cnt_1 B M H1) as (k & x & E).
  rewrite (hashB_single B M k x E). symmetry. apply hashB_single.
  pose proof (cnt_mono B C M HBC) as Hm. destruct (cnt_1 C M) as (k' & x' & E'); [lia|].
  rewrite E'. assert (subm B M !! k' = Some x') as H.
  { apply subm_Some. assert (subm C M !! k' = Some x') as H by by rewrite E', lookup_singleton.
    apply subm_Some in H as [? ?]. split; [done|]. by etrans. }
  rewrite E in H. apply lookup_singleton_Some in H as [-> ->]. done.
Qed.
End Smt.

(** ** Nodes *)
Section Nodes.
Context (sha : bytes -> bytes).
Notation sm_leaf := (sm_leaf sha).
Notation sm_internal := (sm_internal sha).
Notation hashP := (hashB sm_leaf sm_internal placeholder).

(** Count and hash below a nibble path. *)
Notation pcnt p M := (cnt (path_bits p) M).
Notation phash p M := (hashP (path_bits p) M).

Definition child_of (M : pairs) (ver : path -> N) (p : path) : child :=
  Child (phash p M) (ver p)
    (if decide (pcnt p M = 1) then TLeaf else TInternal (N.of_nat (pcnt p M))).
Definition children_list (M : pairs) (ver : path -> N) (p : path) : list (nib * child) :=
  omap (fun i => if decide (pcnt (p ++ [i]) M = 0) then None
                 else Some (i, child_of M ver (p ++ [i]))) all_nibs.
Definition children_of (M : pairs) (ver : path -> N) (p : path) : children :=
  list_to_map (children_list M ver p).
Definition node_of (M : pairs) (ver : path -> N) (p : path) : node :=
  match map_to_list (subm (path_bits p) M) with
  | [] => NNull
  | [(k, vh)] => NLeaf k vh
  | _ => NInternal (INode (children_of M ver p) (Some (N.of_nat (pcnt p M))))
  end.

Lemma children_list_elem M ver p i c :
  (i, c) ∈ children_list M ver p <-> pcnt (p ++ [i]) M <> 0 /\ c = child_of M ver (p ++ [i]).
Proof.
  unfold children_list. rewrite elem_of_list_omap. split.
  - intros (j & _ & H). case_decide; [done|]. simplify_eq. done.
  - intros [H ->]. exists i. split; [apply all_nibs_in|]. by rewrite decide_False.
Qed.
Lemma omap_fst_NoDup {A} (l : list nib) (f : nib -> option A) :
  NoDup l -> NoDup (map fst (omap (fun i => match f i with Some c => Some (i, c) | None => None end) l)).
Proof.
  induction 1 as [|i l Hi Hl IH]; [constructor|]. cbn [omap list_omap].
  destruct (f i) as [c|]; [|done]. cbn [map fst]. constructor; [|done].
  intros ([j d] & E & H)%elem_of_list_fmap. cbn in E. subst j. apply Hi.
  apply elem_of_list_omap in H as (j & Hj & H). destruct (f j); simplify_eq. done.
Qed.
Lemma children_list_NoDup M ver p : NoDup (map fst (children_list M ver p)).
Proof.
  pose proof (omap_fst_NoDup all_nibs (fun i => if decide (pcnt (p ++ [i]) M = 0) then None
                 else Some (child_of M ver (p ++ [i]))) all_nibs_NoDup) as H.
  unfold children_list. erewrite list_omap_ext; [exact H|].
  apply Forall_Forall2_diag, Forall_forall. intros i _. by case_decide.
Qed.
Lemma children_of_lookup M ver p i :
  children_of M ver p !! i =
  if decide (pcnt (p ++ [i]) M = 0) then None else Some (child_of M ver (p ++ [i])).
Proof.
  unfold children_of. case_decide as Hc.
  - apply not_elem_of_list_to_map_1. intros ([j c] & E & H)%elem_of_list_fmap. cbn in E. subst j.
    apply children_list_elem in H as [??]. done.
  - apply elem_of_list_to_map_1; [apply children_list_NoDup|]. by apply children_list_elem.
Qed.
Lemma children_sorted_of M ver p : children_sorted (children_of M ver p) = children_list M ver p.
Proof.
  unfold children_sorted, children_list. apply list_omap_ext, Forall_Forall2_diag, Forall_forall.
  intros i _. rewrite children_of_lookup. by case_decide.
Qed.

(** *** Counts *)
Lemma snoc_bits p i : path_bits (p ++ [i]) = path_bits p ++ nib_bits i.
Proof. rewrite path_bits_app. cbn. by rewrite app_nil_r. Qed.
Lemma pcnt_sum M p : wfm M -> length p < 64 ->
  pcnt p M = sum_list_with (fun i => pcnt (p ++ [i]) M) all_nibs.
Proof.
  intros Hw Hl. pose proof (path_bits_length p) as L.
  set (B := path_bits p) in *.
  assert (forall i, pcnt (p ++ [i]) M = cnt (B ++ nib_bits i) M) as E.
  { intros i. unfold B. by rewrite snoc_bits. }
  unfold all_nibs. cbn [sum_list_with]. rewrite !E. cbn [nib_bits].
  rewrite (cnt_split B) by (done || lia).
  rewrite !(cnt_split (B ++ [_])) by (done || (rewrite app_length; cbn [length]; lia)).
  rewrite !(cnt_split ((B ++ [_]) ++ [_])) by (done || (rewrite !app_length; cbn [length]; lia)).
  rewrite !(cnt_split (((B ++ [_]) ++ [_]) ++ [_])) by (done || (rewrite !app_length; cbn [length]; lia)).
  rewrite <-!app_assoc. cbn [app]. lia.
Qed.
Lemma child_count M ver p : pcnt p M <> 0 -> child_leaf_count (child_of M ver p) = Some (N.of_nat (pcnt p M)).
Proof. intros H. unfold child_of, child_leaf_count. cbn [c_type]. case_decide as E; [by rewrite E|done]. Qed.
Lemma sum_children M ver p : wfm M -> length p < 64 ->
  sum_leaf_count (children_list M ver p) = Some (N.of_nat (pcnt p M)).
Proof.
  intros Hw Hl. rewrite (pcnt_sum M p) by done. unfold children_list.
  induction all_nibs as [|i l IH]; [done|]. cbn [omap list_omap sum_list_with].
  case_decide as E; [by rewrite E|]. cbn [sum_leaf_count]. rewrite child_count by done.
  rewrite IH. f_equal. lia.
Qed.

(** *** Children below a bit prefix *)
Lemma key_next M k x p q : wfm M -> M !! k = Some x -> length p < 64 -> length q <= 4 ->
  path_bits p ++ q `prefix_of` key_bits k ->
  exists i, q `prefix_of` nib_bits i /\ path_bits (p ++ [i]) `prefix_of` key_bits k.
Proof.
  intros Hw Hk Hp Hq Hpre. rewrite key_bits_nibs in *.
  assert (p `prefix_of` nibs k) as [r Hr].
  { apply path_bits_prefix. etrans; [|done]. by eexists. }
  pose proof (nibs_length k) as L. rewrite (Hw _ _ Hk), Hr, app_length in L.
  destruct r as [|i r]; cbn [length] in L; [lia|]. exists i. split.
  - rewrite Hr, path_bits_app, path_bits_cons in Hpre. apply prefix_app_inv in Hpre.
    destruct Hpre as [z Hz]. pose proof (nib_bits_length i) as Li.
    exists (take (4 - length q) z). apply (f_equal (take 4)) in Hz.
    rewrite take_app_alt in Hz by done. rewrite Hz, take_app_ge by lia. done.
  - apply path_bits_prefix. exists r. by rewrite Hr, <-app_assoc.
Qed.
Lemma prefix_next p q i k : q `prefix_of` nib_bits i -> path_bits (p ++ [i]) `prefix_of` key_bits k ->
  path_bits p ++ q `prefix_of` key_bits k.
Proof. intros Hq Hp. etrans; [|exact Hp]. rewrite snoc_bits. by apply prefix_app. Qed.
Lemma two_next p i j k : path_bits (p ++ [i]) `prefix_of` key_bits k ->
  path_bits (p ++ [j]) `prefix_of` key_bits k -> i = j.
Proof.
  rewrite key_bits_nibs, !path_bits_prefix. intros [r E] [r' E']. rewrite E in E'.
  rewrite <-!app_assoc in E'. apply app_inv_head in E'. by simplify_eq.
Qed.

Lemma kids_of_elem M ver p q i c :
  (i, c) ∈ kids (children_of M ver p) q <->
  pcnt (p ++ [i]) M <> 0 /\ c = child_of M ver (p ++ [i]) /\ q `prefix_of` nib_bits i.
Proof.
  rewrite elem_kids, children_of_lookup. case_decide; split; intros; destruct_and?; simplify_eq; done.
Qed.
Lemma kids_nil M ver p q : wfm M -> length p < 64 -> length q <= 4 ->
  kids (children_of M ver p) q = [] <-> cnt (path_bits p ++ q) M = 0.
Proof.
  intros Hw Hp Hq. split.
  - intros K. destruct (decide (cnt (path_bits p ++ q) M = 0)) as [|Hn]; [done|exfalso].
    destruct (cnt_pos_inv (path_bits p ++ q) M) as (k & x & Hk & Hpre); [lia|].
    destruct (key_next M k x p q) as (i & Hi & Hpi); [done..|].
    assert ((i, child_of M ver (p ++ [i])) ∈ kids (children_of M ver p) q) as Hin.
    { apply kids_of_elem. split_and!; [|done..]. pose proof (cnt_pos _ _ _ _ Hk Hpi). lia. }
    rewrite K in Hin. by apply elem_of_nil in Hin.
  - intros Hc. destruct (kids _ _) as [|[i c] l] eqn:K; [done|exfalso].
    assert ((i, c) ∈ kids (children_of M ver p) q) as Hin by (rewrite K; left).
    apply kids_of_elem in Hin as (Hn & _ & Hi).
    destruct (cnt_pos_inv (path_bits (p ++ [i])) M) as (k & x & Hk & Hpre); [lia|].
    pose proof (cnt_pos (path_bits p ++ q) M k x Hk (prefix_next _ _ _ _ Hi Hpre)). lia.
Qed.
Lemma kids_one M ver p q i c : wfm M -> length p < 64 -> length q <= 4 ->
  kids (children_of M ver p) q = [(i, c)] ->
  subm (path_bits p ++ q) M = subm (path_bits (p ++ [i])) M.
Proof.
  intros Hw Hp Hq K. apply map_eq. intros k. apply option_eq. intros x. rewrite !subm_Some.
  split; intros [Hk Hpre]; (split; [done|]).
  - destruct (key_next M k x p q) as (j & Hj & Hpj); [done..|].
    assert ((j, child_of M ver (p ++ [j])) ∈ kids (children_of M ver p) q) as Hin.
    { apply kids_of_elem. split_and!; [|done..]. pose proof (cnt_pos _ _ _ _ Hk Hpj). lia. }
    rewrite K in Hin. apply elem_of_list_singleton in Hin. by simplify_eq.
  - assert ((i, c) ∈ kids (children_of M ver p) q) as Hin by (rewrite K; left).
    apply kids_of_elem in Hin as (_ & _ & Hi). by eapply prefix_next.
Qed.
Lemma kids_many M ver p q a b l : wfm M -> length p < 64 -> length q <= 4 ->
  kids (children_of M ver p) q = a :: b :: l -> 2 <= cnt (path_bits p ++ q) M.
Proof.
  intros Hw Hp Hq K. destruct a as [i c], b as [j d].
  assert (NoDup (map fst (kids (children_of M ver p) q))) as Hnd.
  { rewrite kids_fst. apply NoDup_filter, all_nibs_NoDup. }
  rewrite K in Hnd. cbn [map fst] in Hnd. apply NoDup_cons in Hnd as [Hne _].
  assert ((i, c) ∈ kids (children_of M ver p) q) as Hi by (rewrite K; left).
  assert ((j, d) ∈ kids (children_of M ver p) q) as Hj by (rewrite K; right; left).
  apply kids_of_elem in Hi as (Hin & _ & Hi). apply kids_of_elem in Hj as (Hjn & _ & Hj).
  destruct (cnt_pos_inv (path_bits (p ++ [i])) M) as (k1 & x1 & Hk1 & P1); [lia|].
  destruct (cnt_pos_inv (path_bits (p ++ [j])) M) as (k2 & x2 & Hk2 & P2); [lia|].
  apply (cnt_ge2 _ _ k1 k2 x1 x2); [|done|done|exact (prefix_next _ _ _ _ Hi P1)|exact (prefix_next _ _ _ _ Hj P2)].
  intros <-. apply Hne. rewrite (two_next p i j k1) by done. left.
Qed.
Lemma kids_single M ver p q : wfm M -> length p < 64 -> length q <= 4 ->
  single_leaf (kids (children_of M ver p) q) = true <-> cnt (path_bits p ++ q) M = 1.
Proof.
  intros Hw Hp Hq. unfold single_leaf.
  destruct (kids (children_of M ver p) q) as [|[i c] [|b l]] eqn:K.
  - apply kids_nil in K; [|done..]. lia.
  - unfold cnt. rewrite (kids_one M ver p q i c) by done.
    assert ((i, c) ∈ kids (children_of M ver p) q) as Hin by (rewrite K; left).
    apply kids_of_elem in Hin as (_ & -> & _). unfold child_of, child_is_leaf. cbn [c_type].
    fold (pcnt (p ++ [i]) M). by case_decide.
  - apply kids_many in K; [|done..]. split; [done|lia].
Qed.
Lemma kids_prefix_eq q i : length q = 4 -> q `prefix_of` nib_bits i -> q = nib_bits i.
Proof.
  intros Hl [z E]. pose proof (nib_bits_length i) as L. rewrite E, app_length in L.
  assert (z = []) as -> by (destruct z; [done|cbn in L; lia]). by rewrite app_nil_r in E.
Qed.
Lemma mspec_hash M ver p h q : wfm M -> length p < 64 -> length q + h = 4 ->
  mspec sha h (children_of M ver p) q = hashP (path_bits p ++ q) M.
Proof.
  intros Hw Hp. revert q. induction h as [|h IH]; intros q Hq; cbn [mspec].
  - destruct (kids (children_of M ver p) q) as [|[i c] l] eqn:K.
    + symmetry. apply hashB_empty, (kids_nil M ver); [done..|lia|done].
    + assert ((i, c) ∈ kids (children_of M ver p) q) as Hin by (rewrite K; left).
      apply kids_of_elem in Hin as (_ & -> & Hi). cbn [child_of c_hash].
      rewrite snoc_bits. apply kids_prefix_eq in Hi as ->; [done|lia].
  - destruct (kids (children_of M ver p) q) as [|[i c] l] eqn:K.
    + symmetry. apply hashB_empty, (kids_nil M ver); [done..|lia|done].
    + assert ((i, c) ∈ kids (children_of M ver p) q) as Hin by (rewrite K; left).
      apply kids_of_elem in Hin as (Hn & Ec & Hi). rewrite <-K.
      destruct (single_leaf (kids (children_of M ver p) q)) eqn:Hs.
      * apply kids_single in Hs; [|done..|lia]. rewrite Ec. cbn [child_of c_hash].
        symmetry. apply hashB_single_ext; [|lia|done]. rewrite snoc_bits. by apply prefix_app.
      * rewrite !IH by (rewrite app_length; cbn [length]; lia).
        rewrite !app_assoc. symmetry. apply hashB_split; [done|].
        assert (cnt (path_bits p ++ q) M <> 0) as H0.
        { intros H. apply (kids_nil M ver) in H; [congruence|done..|lia]. }
        assert (cnt (path_bits p ++ q) M <> 1); [|lia].
        intros H1. apply (kids_single M ver) in H1; [congruence|done..|lia].
Qed.

(** *** What a node is *)
Lemma node_of_null M ver p : pcnt p M = 0 -> node_of M ver p = NNull.
Proof. intros H. apply cnt_0 in H. unfold node_of. by rewrite H, map_to_list_empty. Qed.
Lemma node_of_leaf M ver p k x : subm (path_bits p) M = {[k := x]} -> node_of M ver p = NLeaf k x.
Proof. intros H. unfold node_of. by rewrite H, map_to_list_singleton. Qed.
Lemma node_of_internal M ver p : 2 <= pcnt p M ->
  node_of M ver p = NInternal (INode (children_of M ver p) (Some (N.of_nat (pcnt p M)))).
Proof.
  intros H. unfold node_of. change (2 <= length (map_to_list (subm (path_bits p) M))) in H.
  destruct (map_to_list _) as [|[] [|]]; cbn in H; [lia..|done].
Qed.
Lemma pcnt_short M p : wfm M -> 2 <= pcnt p M -> length p < 64.
Proof.
  intros Hw H. destruct (decide (length p < 64)) as [|Hn]; [done|].
  pose proof (cnt_deep (path_bits p) M Hw). rewrite path_bits_length in *. lia.
Qed.
Lemma node_of_hash M ver p : wfm M -> node_hash sha (node_of M ver p) = Ok (phash p M).
Proof.
  intros Hw. destruct (decide (pcnt p M = 0)) as [H0|H0].
  { rewrite node_of_null by done. cbn. by rewrite hashB_empty. }
  destruct (decide (pcnt p M = 1)) as [H1|H1].
  { apply cnt_1 in H1 as (k & x & E). rewrite (node_of_leaf M ver p k x E). cbn.
    by rewrite (hashB_single _ _ _ _ _ k x E). }
  rewrite node_of_internal by lia. cbn [node_hash]. rewrite inode_hash_ok. cbn [in_children].
  rewrite mspec_hash; [by rewrite app_nil_r|done|apply (pcnt_short M); [done|lia]|done].
Qed.
Lemma node_of_type M ver p : pcnt p M <> 0 ->
  node_type (node_of M ver p) =
  Ok (if decide (pcnt p M = 1) then TLeaf else TInternal (N.of_nat (pcnt p M))).
Proof.
  intros H0. case_decide as H1.
  - apply cnt_1 in H1 as (k & x & E). by rewrite (node_of_leaf M ver p k x E).
  - rewrite node_of_internal by lia. done.
Qed.
Lemma node_of_leaf_count M ver p : node_leaf_count (node_of M ver p) = Some (N.of_nat (pcnt p M)).
Proof.
  destruct (decide (pcnt p M = 0)) as [H0|H0].
  { by rewrite node_of_null, H0. }
  destruct (decide (pcnt p M = 1)) as [H1|H1].
  { rewrite H1. apply cnt_1 in H1 as (k & x & E). by rewrite (node_of_leaf M ver p k x E). }
  by rewrite node_of_internal by lia.
Qed.
Lemma node_of_is_leaf M ver p : is_leaf (node_of M ver p) = bool_decide (pcnt p M = 1).
Proof.
  destruct (decide (pcnt p M = 0)) as [H0|H0].
  { by rewrite node_of_null, bool_decide_false by lia. }
  case_bool_decide as H1.
  { apply cnt_1 in H1 as (k & x & E). by rewrite (node_of_leaf M ver p k x E). }
  by rewrite node_of_internal by lia.
Qed.
Lemma children_list_kids M ver p : children_list M ver p = kids (children_of M ver p) [].
Proof.
  unfold kids. rewrite children_sorted_of. induction (children_list M ver p) as [|a l IH]; [done|].
  rewrite filter_cons, decide_True by apply prefix_nil. by f_equal.
Qed.
Lemma inode_new_of M ver p : wfm M -> 2 <= pcnt p M ->
  inode_new (children_of M ver p) = Ok (INode (children_of M ver p) (Some (N.of_nat (pcnt p M)))).
Proof.
  intros Hw H2. pose proof (pcnt_short M p Hw H2) as Hl.
  unfold inode_new. rewrite children_sorted_of, sum_children by done.
  rewrite children_list_kids. destruct (kids (children_of M ver p) []) as [|[i c] [|b l]] eqn:K.
  - apply kids_nil in K; [|done..|cbn; lia]. rewrite app_nil_r in K. lia.
  - destruct (child_is_leaf c) eqn:Hc; [|done]. exfalso.
    assert (single_leaf (kids (children_of M ver p) []) = true) as Hs by by rewrite K.
    apply kids_single in Hs; [|done..|cbn; lia]. rewrite app_nil_r in Hs. lia.
  - done.
Qed.
End Nodes.
