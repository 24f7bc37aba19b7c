(** Restoring a tree: the siblings on the left of the last key, and how many of
    them the check uses. *)
From Verif Require Import Base JmtNibModel JmtSpec JmtNibSpec JmtNibProof JmtNibMoreProof JmtModel JmtHashProof JmtAbsProof
  JmtCacheProof JmtPutProof JmtReadProof JmtOrderProof JmtRestoreModel JmtRestoreProof JmtRestoreAddProof.
Local Open Scope nat_scope.

(** ** Slices of the children *)
Ltac bits_cases q Hl :=
  repeat (let b := fresh "b" in destruct q as [|b q]; cbn [length plus] in Hl; try lia);
  repeat match goal with b : bool |- _ => destruct b end.
Definition below (Q : list bool) : list nib := filter (fun i => Q `prefix_of` nib_bits i) all_nibs.
Lemma below_take Q h : length Q + S h = 4 -> take (2 ^ h) (below Q) = below (Q ++ [false]).
Proof. intros Hl. destruct h as [|[|[|[|]]]]; try lia; bits_cases Q Hl; vm_compute; reflexivity. Qed.
Lemma below_drop Q h : length Q + S h = 4 -> drop (2 ^ h) (below Q) = below (Q ++ [true]).
Proof. intros Hl. destruct h as [|[|[|[|]]]]; try lia; bits_cases Q Hl; vm_compute; reflexivity. Qed.
Lemma below_one i : below (nib_bits i) = [i].
Proof. destruct i as [[] [] [] []]; vm_compute; reflexivity. Qed.
Lemma below_slice n d : d < 4 -> nib_bits n !! d = Some true ->
  take (2 ^ (3 - d)) (drop (N.to_nat (sibling_half_start n (3 - d))) all_nibs) = below (take d (nib_bits n) ++ [false]).
Proof.
  intros Hd. destruct d as [|[|[|[|]]]]; try lia; destruct n as [[] [] [] []]; vm_compute; intros [=]; reflexivity.
Qed.
Lemma four_bits Q : length Q = 4 -> exists i, Q = nib_bits i.
Proof.
  intros Hl. destruct Q as [|a [|b [|c [|d [|]]]]]; try (cbn in Hl; lia). by exists (Nib a b c d).
Qed.

Section Verify.
Context (sha : bytes -> bytes) (v : N).
Notation sm_leaf := (sm_leaf sha).
Notation sm_internal := (sm_internal sha).
Notation hashP := (hashB sm_leaf sm_internal placeholder).
Notation Up := (Up sha v).
Notation complete := (complete sha).
Notation finfo := (finfo sha).
Notation Pend := (Pend sha v).
Implicit Types (M : pairs) (p q : path) (B C Q : list bool).

Lemma left_sibling_total (slot : nib -> option cinfo) : (forall i c, slot i <> Some (CInternal None c)) ->
  forall h Q, length Q + h = 4 -> exists x, left_sibling sha h (map slot (below Q)) = Ok x.
Proof.
  intros Hs h. induction h as [|h IH]; intros Q Hl; cbn [left_sibling].
  - destruct (four_bits Q) as [i ->]; [lia|]. rewrite below_one. cbn [map].
    specialize (Hs i). destruct (slot i) as [[[]|]|]; try by eexists. by destruct (Hs leaf_count).
  - rewrite firstn_map, skipn_map, below_take, below_drop by lia.
    destruct (IH (Q ++ [false])) as [[lh ll] ->]; [rewrite app_length; cbn [length]; lia|].
    destruct (IH (Q ++ [true])) as [[rh rl] ->]; [rewrite app_length; cbn [length]; lia|]. cbn [rbind].
    by repeat case_match; eexists.
Qed.

(** ** Hashes of subtrees with at most one pair *)
Lemma hash_other B M b : cnt (B ++ [negb b]) M = 0 -> cnt (B ++ [b]) M <= 1 -> wfm M -> length B < 256 ->
  hashP B M = hashP (B ++ [b]) M.
Proof.
  intros H0 H1 Hw HB. assert (cnt B M = cnt (B ++ [b]) M) as E by (rewrite cnt_split by done; destruct b; cbn [negb] in H0; lia).
  destruct (decide (cnt B M = 0)) as [Hz|Hz].
  - rewrite !hashB_empty by lia. done.
  - apply hashB_single_ext; [by eexists|lia..].
Qed.

(** Subtrees with pairs do not have the hash of an empty one. *)
Definition noph B M : Prop := forall C, B `prefix_of` C -> 0 < cnt C M -> hashP C M <> placeholder.
Lemma noph_iff B M C : noph B M -> B `prefix_of` C -> hashP C M = placeholder <-> cnt C M = 0.
Proof.
  intros H HC. split; [|apply hashB_empty]. intros E. destruct (decide (cnt C M = 0)); [done|]. exfalso. eapply H; [done| |done]. lia.
Qed.

Lemma left_sibling_ok M p (slot : nib -> option cinfo) : wfm M -> length p < 64 ->
  forall h Q, length Q + h = 4 -> (forall i, Q `prefix_of` nib_bits i -> slot i = finfo M (p ++ [i])) ->
  noph (path_bits p ++ Q) M ->
  left_sibling sha h (map slot (below Q)) =
    Ok (hashP (path_bits p ++ Q) M, bool_decide (cnt (path_bits p ++ Q) M <= 1)).
Proof.
  intros Hw Hp h. induction h as [|h IH]; intros Q Hl Hs Hn; cbn [left_sibling].
  - destruct (four_bits Q) as [i ->]; [lia|]. rewrite below_one. cbn [map]. rewrite Hs by done. rewrite <-snoc_bits.
    destruct (decide (pcnt (p ++ [i]) M = 0)) as [H0|H0].
    { rewrite finfo_0, hashB_empty, bool_decide_true by (done || lia). done. }
    destruct (decide (pcnt (p ++ [i]) M = 1)) as [H1|H1].
    { destruct (cnt_1 _ _ H1) as (k & x & E). rewrite (finfo_1 _ _ _ _ _ E), (hashB_single _ _ _ _ _ _ _ E).
      rewrite bool_decide_true by lia. done. }
    rewrite finfo_2 by lia. rewrite bool_decide_false by lia. done.
  - rewrite firstn_map, skipn_map, below_take, below_drop by lia.
    assert (forall b, left_sibling sha h (map slot (below (Q ++ [b]))) =
      Ok (hashP (path_bits p ++ Q ++ [b]) M, bool_decide (cnt (path_bits p ++ Q ++ [b]) M <= 1))) as IHb.
    { intros b. apply IH.
      - rewrite app_length. cbn [length]. lia.
      - intros i Hi. apply Hs. etrans; [|exact Hi]. by eexists.
      - intros C HC. apply Hn. etrans; [|exact HC]. rewrite app_assoc. by eexists. }
    rewrite !IHb. cbn [rbind]. clear IHb IH Hs slot. rewrite !app_assoc. set (B := path_bits p ++ Q) in *.
    assert (length B < 256) as HB.
    { unfold B. rewrite app_length, path_bits_length. lia. }
    assert (forall b, bool_decide (hashP (B ++ [b]) M = placeholder) = bool_decide (cnt (B ++ [b]) M = 0)) as Hd.
    { intros b. apply bool_decide_ext. apply (noph_iff B); [done|by eexists]. }
    rewrite !Hd. pose proof (cnt_split B M Hw HB) as Hc.
    destruct (bool_decide_reflect (cnt (B ++ [false]) M = 0)) as [L0|L0];
      destruct (bool_decide_reflect (cnt (B ++ [true]) M <= 1)) as [R1|R1]; cbn [andb].
    + rewrite (hash_other B M true), bool_decide_true by (done || lia). done.
    + rewrite (bool_decide_false (cnt (B ++ [true]) M = 0)), andb_false_r by lia.
      rewrite (hashB_split _ _ _ B), bool_decide_false by (done || lia). done.
    + destruct (bool_decide_reflect (cnt (B ++ [false]) M <= 1)) as [L1|L1];
        destruct (bool_decide_reflect (cnt (B ++ [true]) M = 0)) as [R0|R0]; cbn [andb].
      1: rewrite (hash_other B M false), bool_decide_true by (done || lia); done.
      all: rewrite (hashB_split _ _ _ B), bool_decide_false by (done || lia); done.
    + rewrite (bool_decide_false (cnt (B ++ [true]) M = 0)), andb_false_r by lia.
      rewrite (hashB_split _ _ _ B), bool_decide_false by (done || lia). done.
Qed.

(** ** The left siblings of a path, top-down *)
Fixpoint lefts M (B bits : list bool) : list bytes :=
  match bits with
  | [] => []
  | true :: bits' => hashP (B ++ [false]) M :: lefts M (B ++ [true]) bits'
  | false :: bits' => lefts M (B ++ [false]) bits'
  end.
Lemma lefts_snoc M B bits b : lefts M B (bits ++ [b]) =
  lefts M B bits ++ (if b then [hashP (B ++ bits ++ [false]) M] else []).
Proof.
  revert B. induction bits as [|c bits IH]; intros B; cbn [app lefts].
  - by destruct b.
  - destruct c; rewrite IH, <-!app_assoc; done.
Qed.

(** No pair under the left siblings has the hash of an empty tree. *)
Definition noph_left M (K : list bool) : Prop :=
  forall i, K !! i = Some true -> noph (take i K ++ [false]) M.

Lemma compute_ok M P q cs n d : wfm M -> length q < 64 -> P = PInfo (v, q) cs -> d < 4 -> nib_bits n !! d = Some true ->
  (forall i, i <> n -> cs !! i = finfo M (q ++ [i])) ->
  (exists x, compute_left_sibling sha P n (3 - d) = Ok x) /\
  (noph (path_bits q ++ take d (nib_bits n) ++ [false]) M ->
   compute_left_sibling sha P n (3 - d) = Ok (hashP (path_bits q ++ take d (nib_bits n) ++ [false]) M)).
Proof.
  intros Hw Hq -> Hd Hb Hc. unfold compute_left_sibling. cbn [pi_children].
  rewrite skipn_map, firstn_map, below_slice by done.
  set (Q := take d (nib_bits n) ++ [false]).
  assert (length Q + (3 - d) = 4) as HQ.
  { unfold Q. rewrite app_length, take_length, nib_bits_length. cbn [length]. lia. }
  assert (~ Q `prefix_of` nib_bits n) as Hno.
  { intros [z Hz]. rewrite Hz in Hb. unfold Q in Hb. rewrite lookup_app_l in Hb.
    - rewrite lookup_app_r in Hb by (rewrite take_length; lia). rewrite take_length, nib_bits_length, Nat.min_l, Nat.sub_diag in Hb by lia. done.
    - rewrite app_length, take_length, nib_bits_length. cbn [length]. lia. }
  assert (map (fun i => cs !! i) (below Q) = map (fun i => finfo M (q ++ [i])) (below Q)) as E.
  { apply map_ext_in. intros i Hi. apply Hc. intros ->. apply Hno. apply elem_of_list_In in Hi. unfold below in Hi.
    by apply elem_of_list_filter in Hi as [? _]. }
  rewrite E. split.
  - destruct (left_sibling_total (fun i => finfo M (q ++ [i]))) with (h := 3 - d) (Q := Q) as [[x b] ->]; [|done|by eexists].
    intros i c Hi. pose proof (finfo_child sha v M (q ++ [i])) as Hf. rewrite Hi in Hf. cbn [into_child] in Hf. by destruct Hf.
  - intros Hn. rewrite (left_sibling_ok M q) by done. done.
Qed.

Definition ones (bits : list bool) : nat := length (filter (fun b => b = true) bits).
Definition zeros (bits : list bool) : nat := length (filter (fun b => b = false) bits).
Lemma ones_cons b bits : ones (b :: bits) = (if b then 1 else 0) + ones bits.
Proof. clear sha v. unfold ones. rewrite filter_cons. destruct b; case_decide; done. Qed.
Lemma zeros_cons b bits : zeros (b :: bits) = (if b then 0 else 1) + zeros bits.
Proof. clear sha v. unfold zeros. rewrite filter_cons. destruct b; case_decide; done. Qed.
Lemma ones_snoc b bits : ones (bits ++ [b]) = ones bits + (if b then 1 else 0).
Proof. clear sha v. unfold ones. rewrite filter_app, app_length. f_equal. by destruct b. Qed.
Lemma zeros_snoc b bits : zeros (bits ++ [b]) = zeros bits + (if b then 0 else 1).
Proof. clear sha v. unfold zeros. rewrite filter_app, app_length. f_equal. by destruct b. Qed.
Lemma ones_zeros bits : ones bits + zeros bits = length bits.
Proof. clear sha v. induction bits as [|b bits IH]; [done|]. rewrite ones_cons, zeros_cons. cbn [length]. destruct b; lia. Qed.
Lemma ones_rev bits : ones (rev bits) = ones bits.
Proof. clear sha v. induction bits as [|b bits IH]; [done|]. cbn [rev]. rewrite ones_snoc, ones_cons, IH. lia. Qed.
Lemma zeros_rev bits : zeros (rev bits) = zeros bits.
Proof. clear sha v. induction bits as [|b bits IH]; [done|]. cbn [rev]. rewrite zeros_snoc, zeros_cons, IH. lia. Qed.
Lemma lefts_length M B bits : length (lefts M B bits) = ones bits.
Proof.
  revert B. induction bits as [|b bits IH]; intros B; [done|]. rewrite ones_cons. destruct b; cbn [lefts length]; by rewrite IH.
Qed.

Lemma left_siblings_ok M k ps fz sn p : Pend ps fz sn M k p -> forall bits i, bits = drop i (key_bits k) ->
  (exists l, left_siblings sha ps k bits i = Ok l /\ length l = ones bits) /\
  (noph_left M (key_bits k) -> left_siblings sha ps k bits i = Ok (lefts M (take i (key_bits k)) bits)).
Proof.
  intros [Hw (vh & Hk) Hg (j & r & Hn & H1) Hp (cs & ps' & Eps & HU & Hc) _ _].
  assert (length k = 32) as Hlen by by eapply Hw.
  assert (p ++ [j] `prefix_of` nibs k) as Hpjk by (rewrite Hn; exists r; by rewrite <-app_assoc).
  pose proof (Up_length _ _ _ _ _ HU) as HLp.
  assert (length ps = S (length p)) as HLps by (rewrite Eps; cbn [length]; lia).
  assert (length (nibs k) = 64) as HL64 by by rewrite nibs_length, Hlen.
  set (K := key_bits k). assert (K = path_bits (nibs k)) as EK by apply key_bits_nibs.
  intros bits. induction bits as [|b bits IH]; intros i Eb.
  { split; [by exists []|done]. }
  assert (K !! i = Some b) as Hi.
  { rewrite <-(Nat.add_0_r i), <-lookup_drop, <-Eb. done. }
  assert (bits = drop (S i) K) as Eb'.
  { rewrite (drop_S K b i Hi) in Eb. by injection Eb. }
  assert (take (S i) K = take i K ++ [b]) as Et by by apply take_S_r.
  destruct (IH (S i) Eb') as [(l & El & Hll) IH2]. clear IH. rewrite Et in IH2.
  rewrite ones_cons. destruct b; cbn [left_siblings lefts]; [|rewrite El in *; split; [exists l; done|exact IH2]].
  assert (exists x, (if (length ps * 4 <=? i) then Ok placeholder
             else match partial_at ps (i / 4), get_nibble k (i / 4) with
                  | Some p, Some n => compute_left_sibling sha p n (3 - i mod 4)
                  | _, _ => Panic
                  end) = Ok x /\ (noph_left M K -> x = hashP (take i K ++ [false]) M)) as (x & -> & Hx).
  { destruct (Nat.leb_spec (length ps * 4) i) as [Hi4|Hi4].
    - exists placeholder. split; [done|]. intros _. symmetry. apply hashB_empty.
      destruct (decide (cnt (take i K ++ [false]) M = 0)) as [|Hne]; [done|exfalso].
      destruct (cnt_pos_inv (take i K ++ [false]) M) as (l0 & y & Hl0 & Hpl); [lia|].
      apply prefix_snoc_lookup in Hpl as [Hpl Hbit].
      assert (l0 = k) as ->.
      { eapply (one_key M (p ++ [j])); [done|done|done|done|].
        rewrite <-path_bits_prefix, <-key_bits_nibs. etrans; [|exact Hpl].
        rewrite EK. pose proof (proj2 (path_bits_prefix (p ++ [j]) (nibs k)) Hpjk) as [z Hz]. rewrite Hz.
        exists (take (i - length (path_bits (p ++ [j]))) z).
        rewrite take_app_ge; [done|]. rewrite path_bits_length, app_length. cbn [length]. lia. }
      fold K in Hbit. rewrite take_length, Nat.min_l in Hbit; [congruence|].
      apply lookup_lt_Some in Hi. lia.
    - pose proof (Nat.div_mod i 4 ltac:(lia)) as Hdm. pose proof (Nat.mod_upper_bound i 4 ltac:(lia)) as Hmod.
      set (a := i / 4) in *. set (d := i mod 4) in *.
      destruct (lookup_lt_is_Some_2 (nibs k) a) as [n Hna]; [rewrite HL64; apply prefix_length in Hpjk; rewrite app_length, HL64 in Hpjk; cbn [length] in Hpjk; lia|].
      set (q := take a (nibs k)).
      assert (length q = a) as Hq.
      { unfold q. rewrite take_length. apply lookup_lt_Some in Hna. lia. }
      assert (nibs k = q ++ n :: drop (S a) (nibs k)) as Ek by (symmetry; by apply take_drop_middle).
      assert (K = path_bits q ++ nib_bits n ++ path_bits (drop (S a) (nibs k))) as EK'.
      { rewrite EK, Ek at 1. by rewrite path_bits_app, path_bits_cons. }
      assert (nib_bits n !! d = Some true) as Hbd.
      { rewrite EK' in Hi. rewrite lookup_app_r, path_bits_length, Hq in Hi by (rewrite path_bits_length; lia).
        rewrite lookup_app_l in Hi by (rewrite nib_bits_length; lia). rewrite <-Hi. f_equal. lia. }
      assert (take i K ++ [false] = path_bits q ++ take d (nib_bits n) ++ [false]) as Eti.
      { rewrite EK'. rewrite take_app_ge by (rewrite path_bits_length; lia). rewrite take_app_le by (rewrite path_bits_length, nib_bits_length; lia).
        rewrite <-app_assoc, path_bits_length, Hq. do 3 f_equal. lia. }
      assert (q ++ [n] `prefix_of` nibs k) as Hqn.
      { rewrite Ek. exists (drop (S a) (nibs k)). by rewrite <-app_assoc. }
      assert (exists cs0, partial_at ps a = Some (PInfo (v, q) cs0) /\ (forall i, i <> n -> cs0 !! i = finfo M (q ++ [i]))) as (cs0 & Hat & Hcs0).
      { rewrite Eps. assert (q ++ [n] `prefix_of` p \/ q = p /\ n = j) as [Hx|[-> ->]].
        { destruct (prefix_app_cases (q ++ [n]) (p ++ [j]) (nibs k)) as [Hx|Hx]; [done..| |].
          - apply prefix_snoc_or in Hx as [?|E]; [by left|right]. by apply app_inj_tail in E.
          - right. apply prefix_len_eq in Hx; [by apply app_inj_tail in Hx as [-> ->]|]. rewrite !app_length. cbn [length]. lia. }
        - destruct (Up_at sha v M ps' p (PInfo (v, p) cs) a q n) as (cs0 & ? & ? & _); [done..|]. by exists cs0.
        - rewrite top_at by lia. exists cs. split; [done|]. intros i0 _. apply Hc. }
      rewrite Hat, get_nibble_lookup, Hna.
      destruct (compute_ok M (PInfo (v, q) cs0) q cs0 n d) as [[x Ex] Hok]; [done|apply lookup_lt_Some in Hna; lia|done..|].
      exists x. split; [done|]. intros Hnp. rewrite Eti. 
      rewrite Hok in Ex; [by injection Ex|]. rewrite <-Eti. by apply Hnp. }
  cbn [rbind]. rewrite El in *. cbn [rbind]. split; [exists (x :: l); cbn [length]; split; [done|lia]|].
  intros Hnp. specialize (IH2 Hnp). injection IH2 as ->. by rewrite (Hx Hnp).
Qed.

(** ** Trimming *)
Lemma trim_total bits left nv nr : length left = ones bits ->
  exists l, trim bits left nv nr = Ok l /\ length l <= length left.
Proof. clear sha v.
  revert left nv. induction bits as [|b bits IH]; intros left nv Hl; cbn [trim]; [by exists left|].
  rewrite ones_cons in Hl. destruct b.
  - destruct left as [|x left]; [cbn in Hl; lia|]. cbn [length] in Hl. case_decide; [|by exists (x :: left)].
    destruct (IH left nv ltac:(lia)) as (l & -> & Hle). exists l. cbn [length]. split; [done|lia].
  - destruct (nr <? nv); [|by exists left]. apply IH. lia.
Qed.
Lemma trim_ok M K nr : forall n, n <= length K -> nr <= zeros (take n K) ->
  exists D, trim (rev (take n K)) (rev (lefts M [] (take n K))) (zeros (take n K)) nr = Ok (rev (lefts M [] (take D K))) /\
    D <= n /\ nr <= zeros (take D K) /\
    (forall i, D <= i < n -> K !! i = Some true -> hashP (take i K ++ [false]) M = placeholder) /\
    (forall i, D <= i < n -> K !! i = Some false -> nr < zeros (take (S i) K)) /\
    (D = 0 \/ (K !! (D - 1) = Some true /\ hashP (take (D - 1) K ++ [false]) M <> placeholder) \/
      (K !! (D - 1) = Some false /\ zeros (take D K) = nr)).
Proof.
  induction n as [|n IH]; intros Hn Hz.
  - exists 0. split; [done|]. split_and!; [lia|done|intros; lia|intros; lia|by left].
  - destruct (lookup_lt_is_Some_2 K n) as [b Hb]; [lia|].
    rewrite (take_S_r _ _ _ Hb) in Hz |- *. rewrite lefts_snoc, zeros_snoc, rev_app_distr in *. cbn [rev app].
    assert (forall i, i < S n -> i < n \/ i = n) as Hlt by lia.
    destruct b; cbn [trim].
    + rewrite rev_app_distr. cbn [rev app]. case_decide as Hd.
      * rewrite Nat.add_0_r in *. destruct (IH ltac:(lia) Hz) as (D & E & H1 & H2 & H3 & H4 & H5).
        exists D. split; [exact E|]. split_and!; [lia|done| | |done].
        -- intros i Hi Hi'. destruct (decide (i = n)) as [->|]; [done|]. apply H3; [lia|done].
        -- intros i Hi Hi'. destruct (decide (i = n)) as [->|]; [congruence|]. apply H4; [lia|done].
      * exists (S n). rewrite (take_S_r _ _ _ Hb), lefts_snoc, zeros_snoc, rev_app_distr. cbn [rev app].
        split; [done|]. split_and!; [lia|lia|intros; lia|intros; lia|]. right. left.
        rewrite Nat.sub_succ, Nat.sub_0_r. done.
    + rewrite app_nil_r. destruct (Nat.ltb_spec nr (zeros (take n K) + 1)) as [Hd|Hd].
      * replace (zeros (take n K) + 1 - 1) with (zeros (take n K)) by lia.
        destruct (IH ltac:(lia) ltac:(lia)) as (D & E & H1 & H2 & H3 & H4 & H5).
        exists D. split; [exact E|]. split_and!; [lia|done| | |done].
        -- intros i Hi Hi'. destruct (decide (i = n)) as [->|]; [congruence|]. apply H3; [lia|done].
        -- intros i Hi Hi'. destruct (decide (i = n)) as [->|]; [|apply H4; [lia|done]].
           rewrite (take_S_r _ _ _ Hb), zeros_snoc. lia.
      * exists (S n). rewrite (take_S_r _ _ _ Hb), lefts_snoc, zeros_snoc, app_nil_r.
        split; [done|]. split_and!; [lia|lia|intros; lia|intros; lia|]. right. right.
        rewrite Nat.sub_succ, Nat.sub_0_r. split; [done|lia].
Qed.

(** ** The fold *)
Fixpoint merge (bits : list bool) (left right : list bytes) : list bytes :=
  match bits with
  | [] => []
  | true :: bits' => match left with [] => [] | s :: left' => s :: merge bits' left' right end
  | false :: bits' => match right with [] => [] | s :: right' => s :: merge bits' left right' end
  end.
Lemma merge_length bits : forall left right, length left = ones bits -> length right = zeros bits ->
  length (merge bits left right) = length bits.
Proof. clear sha v.
  induction bits as [|[] bits IH]; intros left right Hl Hr; [done|..]; rewrite ones_cons in Hl; rewrite zeros_cons in Hr; cbn [merge].
  - destruct left; cbn [length] in *; [lia|]. rewrite IH; lia.
  - destruct right; cbn [length] in *; [lia|]. rewrite IH; lia.
Qed.
Lemma range_fold_ok bits : forall cur left right, length left = ones bits -> length right = zeros bits ->
  range_fold sha cur bits left right = Ok (fold_siblings sha cur (merge bits left right) bits).
Proof.
  induction bits as [|[] bits IH]; intros cur left right Hl Hr; [done|..]; rewrite ones_cons in Hl; rewrite zeros_cons in Hr; cbn [merge range_fold].
  - destruct left; cbn [length] in *; [lia|]. rewrite IH by lia. done.
  - destruct right; cbn [length] in *; [lia|]. rewrite IH by lia. done.
Qed.
(** A fold that reaches the end has used as many siblings as there are bits of
    each kind. *)
Lemma range_fold_inv bits : forall cur left right x, range_fold sha cur bits left right = Ok x ->
  ones bits <= length left /\ zeros bits <= length right.
Proof.
  induction bits as [|[] bits IH]; intros cur left right x E; cbn [range_fold] in E; rewrite ?ones_cons, ?zeros_cons.
  - cbn. lia.
  - destruct left; [done|]. apply IH in E. cbn [length]. lia.
  - destruct right; [done|]. apply IH in E. cbn [length]. lia.
Qed.
Lemma range_fold_total bits : forall cur left right, 
  (exists x, range_fold sha cur bits left right = Ok x) \/ exists e, range_fold sha cur bits left right = Err e.
Proof.
  induction bits as [|[] bits IH]; intros cur ls rs; cbn [range_fold]; [left; by eexists|..].
  - destruct ls; [right; by eexists|apply IH].
  - destruct rs; [right; by eexists|apply IH].
Qed.
Lemma merge_snoc bits b : forall left right s, length left = ones bits -> length right = zeros bits ->
  merge (bits ++ [b]) (left ++ if b then [s] else []) (right ++ if b then [] else [s]) = merge bits left right ++ [s].
Proof. clear sha v.
  induction bits as [|[] bits IH]; intros left right s Hl Hr; rewrite ?ones_cons, ?zeros_cons in *.
  - destruct left, right; try (cbn in *; lia). by destruct b.
  - destruct left as [|x left]; cbn [length] in Hl; [lia|]. cbn [app merge]. by rewrite IH by lia.
  - destruct right as [|x right]; cbn [length] in Hr; [lia|]. cbn [app merge]. by rewrite IH by lia.
Qed.
(** The siblings of one kind, and putting both kinds together again. *)
Fixpoint pick (c : bool) (sibs : list bytes) (bits : list bool) : list bytes :=
  match sibs, bits with
  | s :: sibs', b :: bits' => if bool_decide (b = c) then s :: pick c sibs' bits' else pick c sibs' bits'
  | _, _ => []
  end.
Lemma pick_length c sibs : forall bits, length sibs <= length bits ->
  length (pick c sibs bits) = if c then ones (take (length sibs) bits) else zeros (take (length sibs) bits).
Proof. clear sha v.
  induction sibs as [|s sibs IH]; intros [|b bits] Hl; cbn [length pick take] in *; try by destruct c; try lia.
  rewrite ones_cons, zeros_cons. destruct b, c; cbn [bool_decide decide]; rewrite ?bool_decide_true, ?bool_decide_false by done; cbn [length]; rewrite IH by lia; done.
Qed.
Lemma merge_pick sibs : forall bits, length sibs <= length bits ->
  merge (rev (take (length sibs) bits)) (rev (pick true sibs bits)) (rev (pick false sibs bits)) = rev sibs.
Proof. clear sha v.
  induction sibs as [|s sibs IH]; intros [|b bits] Hl; cbn [length] in Hl; try lia; [done..|].
  cbn [length take rev pick]. rewrite <-(IH bits) by lia.
  rewrite <-(merge_snoc _ b).
  - f_equal; destruct b; cbn; by rewrite ?app_nil_r.
  - by rewrite rev_length, pick_length, ones_rev by lia.
  - by rewrite rev_length, pick_length, zeros_rev by lia.
Qed.
Lemma right_siblings_pick sibs bits : right_siblings sibs bits = pick false sibs bits.
Proof. clear sha v. revert bits. induction sibs as [|s sibs IH]; intros [|[] bits]; cbn; by rewrite ?IH. Qed.
End Verify.
