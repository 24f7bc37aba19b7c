(** Observations of a store that satisfies the execution invariant; proofs are
    complete and, without hash collisions, sound. *)
From Verif Require Import Base JmtNibModel JmtSpec JmtTraceSpec JmtNibProof JmtModel JmtHashProof JmtAbsProof
  JmtCacheProof JmtPutProof JmtHistProof JmtRunSpec JmtValueProof JmtRunProof JmtReadProof.
Local Open Scope nat_scope.

Section ProofOk.
Context (sha hv : bytes -> bytes).
Notation sm_leaf := (sm_leaf sha).
Notation sm_internal := (sm_internal sha).
Notation hashP := (hashB sm_leaf sm_internal placeholder).
Notation cs_of := (cs_of hv).
Notation SInv := (SInv sha hv).
Notation hvm := (hvm hv).
Notation bpath := (bpath sha).

Lemma smt_root_hash m : smt_root sha hv m = hashP [] (hvm m).
Proof. unfold smt_root, hashB. rewrite subm_nil. reflexivity. Qed.

Definition proof_of (k : bytes) (M : pairs) : proof :=
  let '(l, sb) := bpath M [] (key_bits k) in Proof l (rev sb).
Definition made_proof (k : bytes) (m : gmap bytes bytes) : proof := proof_of k (hvm m).

Lemma holds_at s hist lo v : SInv s hist lo -> (lo <= v < N.of_nat (length hist))%N ->
  exists ver, Holds sha (st_nodes s) v (cs_of hist v) ver.
Proof. intros HS Hv. destruct (si_hist _ _ _ _ _ HS) as [vs HH]. exists (vs v). by apply (hi_holds _ _ _ _ _ _ _ _ HH). Qed.

Lemma root_ok s hist lo v : SInv s hist lo -> (lo <= v < N.of_nat (length hist))%N ->
  get_root_hash sha s v = Ok (smt_root sha hv (contents_at hist v)).
Proof.
  intros HS Hv. destruct (holds_at _ _ _ _ HS Hv) as [ver H]. unfold get_root_hash.
  rewrite (h_root _ _ _ _ _ H), node_of_hash by apply (h_wf _ _ _ _ _ H). rewrite smt_root_hash. reflexivity.
Qed.
Lemma root_option_ok s hist lo v : SInv s hist lo -> (lo <= v < N.of_nat (length hist))%N ->
  get_root_hash_option sha s v = Ok (Some (smt_root sha hv (contents_at hist v))).
Proof.
  intros HS Hv. destruct (holds_at _ _ _ _ HS Hv) as [ver H]. unfold get_root_hash_option.
  rewrite (h_root _ _ _ _ _ H), node_of_hash by apply (h_wf _ _ _ _ _ H). cbn [rbind]. rewrite smt_root_hash. reflexivity.
Qed.
Lemma leaf_count_ok s hist lo v : SInv s hist lo -> (lo <= v < N.of_nat (length hist))%N ->
  get_leaf_count s v = Ok (Some (N.of_nat (size (contents_at hist v)))).
Proof.
  intros HS Hv. destruct (holds_at _ _ _ _ HS Hv) as [ver H]. unfold get_leaf_count.
  rewrite (h_root _ _ _ _ _ H), node_of_leaf_count. do 3 f_equal. unfold cnt. cbn [path_bits flat_map].
  rewrite subm_nil. unfold JmtRunProof.cs_of, JmtPutProof.hvm. apply map_size_fmap.
Qed.

Lemma bpath_key M k : wfm M -> length k = 32 ->
  match fst (bpath M [] (key_bits k)) with
  | None => M !! k = None
  | Some (k0, x0) =>
      M !! k0 = Some x0 /\ take (length (snd (bpath M [] (key_bits k)))) (key_bits k) `prefix_of` key_bits k0 /\
      (k0 = k \/ M !! k = None)
  end.
Proof.
  intros Hw Hk. pose proof (bpath_spec sha M [] (key_bits k) k Hw) as H. cbn [length app] in H.
  rewrite key_bits_length in H. apply H; [lia|done].
Qed.

Lemma read_ok s hist lo k v : SInv s hist lo -> (lo <= v < N.of_nat (length hist))%N -> length k = 32 ->
  get_with_proof sha s k v = Ok (contents_at hist v !! k, made_proof k (contents_at hist v)).
Proof.
  intros HS Hv Hk. destruct (holds_at _ _ _ _ HS Hv) as [ver H]. unfold get_with_proof.
  pose proof (h_wf _ _ _ _ _ H) as Hw.
  rewrite (gwp_ok sha s v (cs_of hist v) ver k H Hk (nibs k) [] (v, []) true []);
    [|apply (h_root _ _ _ _ _ H)|done|by left|done|done].
  rewrite <-key_bits_nibs. change (path_bits []) with (@nil bool).
  pose proof (bpath_key (cs_of hist v) k Hw Hk) as Hb. unfold made_proof, proof_of, JmtRunProof.cs_of in *.
  assert (st_get_value_option s v k = contents_at hist v !! k) as Hval.
  { rewrite contents_value. apply hist_ok_read. apply (si_vals _ _ _ _ _ HS). }
  destruct (bpath (hvm (contents_at hist v)) [] (key_bits k)) as [[[k0 x0]|] sb]; cbn [fst snd] in Hb; cbn [app].
  - destruct Hb as (Hk0 & _ & Hor). unfold JmtPutProof.hvm in *. rewrite lookup_fmap in Hk0. unfold found_value.
    destruct (decide (k0 = k)) as [->|Hne].
    + destruct (contents_at hist v !! k) as [x|] eqn:E; [|done]. unfold st_get_value. rewrite Hval. reflexivity.
    + destruct Hor as [|Hn]; [done|]. rewrite lookup_fmap in Hn.
      destruct (contents_at hist v !! k) as [x|]; [done|]. reflexivity.
  - unfold JmtPutProof.hvm in Hb. rewrite lookup_fmap in Hb.
    destruct (contents_at hist v !! k) as [x|]; [done|]. reflexivity.
Qed.
Lemma trie_get_ok s hist lo k v : SInv s hist lo -> trie_get s k v = value_at k hist v.
Proof. intros HS. apply hist_ok_read. apply (si_vals _ _ _ _ _ HS). Qed.

(** ** Completeness *)
Lemma wfm_hvm m : (forall k x, m !! k = Some x -> length k = 32) -> wfm (hvm m).
Proof. intros H k x. unfold JmtPutProof.hvm. rewrite lookup_fmap. destruct (m !! k) eqn:E; [|done]. intros _. by eapply H. Qed.

Lemma made_proof_len m k : length k = 32 -> length (p_siblings (made_proof k m)) <= 256.
Proof.
  intros Hk. unfold made_proof, proof_of. pose proof (bpath_len sha (hvm m) [] (key_bits k)) as H.
  destruct (bpath _ _ _) as [l sb]. cbn [snd p_siblings] in *. rewrite rev_length. rewrite key_bits_length in H. lia.
Qed.
Lemma made_proof_fold m k : wfm (hvm m) -> length k = 32 ->
  fold_siblings sha (proof_leaf_hash sha (made_proof k m)) (p_siblings (made_proof k m))
    (drop (256 - length (p_siblings (made_proof k m))) (rev (iter_bits k))) = smt_root sha hv m.
Proof.
  intros Hw Hk. unfold made_proof, proof_of. pose proof (bpath_len sha (hvm m) [] (key_bits k)) as HL.
  pose proof (bpath_fold sha (hvm m) [] (key_bits k) Hw) as HF. cbn [length] in HF.
  rewrite smt_root_hash. rewrite <-HF by (rewrite key_bits_length; lia).
  destruct (bpath (hvm m) [] (key_bits k)) as [l sb]. cbn [fst snd p_siblings p_leaf] in *.
  rewrite rev_length, iter_bits_key by done.
  rewrite drop_rev_take by (rewrite key_bits_length in *; lia).
  rewrite fold_siblings_top by done. reflexivity.
Qed.
Lemma made_proof_verifies m k : (forall k x, m !! k = Some x -> length k = 32) -> length k = 32 ->
  verify sha hv (made_proof k m) (smt_root sha hv m) k (m !! k) = Ok tt.
Proof.
  intros Hm Hk. pose proof (wfm_hvm m Hm) as Hw. unfold verify.
  rewrite (proj2 (Nat.ltb_ge _ _)) by (by apply made_proof_len).
  rewrite made_proof_fold by done.
  assert (match m !! k, p_leaf (made_proof k m) with
     | Some x, Some (lk, lvh) =>
         if decide (k = lk) then if decide (hv x = lvh) then Ok tt else Err ValueMismatch else Err KeyMismatch
     | Some _, None => Err NotInclusion
     | None, Some (lk, _) =>
         if decide (k = lk) then Err KeyPresent
         else if (length (p_siblings (made_proof k m)) <=? common_prefix_bits_len k lk)%nat
              then Ok tt else Err NotSameSubtree
     | None, None => Ok tt
     end = (Ok tt : res jerr unit)) as ->.
  2: { cbn [rbind]. by rewrite decide_True. }
  pose proof (bpath_key (hvm m) k Hw Hk) as Hb. pose proof (bpath_len sha (hvm m) [] (key_bits k)) as HL.
  unfold made_proof, proof_of, JmtPutProof.hvm in *.
  destruct (bpath (hv <$> m) [] (key_bits k)) as [[[k0 x0]|] sb]; cbn [fst snd p_leaf p_siblings] in *.
  - destruct Hb as (Hk0 & Hp & Hor). rewrite lookup_fmap in Hk0.
    destruct (decide (k = k0)) as [<-|Hne].
    + destruct (m !! k) as [x|]; [|done]. cbn in Hk0. injection Hk0 as Hk0. by rewrite decide_True.
    + destruct Hor as [|Hn]; [done|]. rewrite lookup_fmap in Hn. destruct (m !! k) as [x|]; [done|].
      rewrite rev_length. rewrite (proj2 (Nat.leb_le _ _)); [done|].
      assert (length k0 = 32) as Hk0l by (destruct (m !! k0) eqn:E; [by eapply Hm|done]).
      unfold common_prefix_bits_len. rewrite !iter_bits_key by done.
      apply common_count_ge; [done|]. destruct Hp as [z Hz]. rewrite Hz.
      rewrite take_app_alt; [done|]. rewrite take_length. lia.
  - rewrite lookup_fmap in Hb. by destruct (m !! k).
Qed.

(** ** Soundness *)
Notation inputs B M := (smt_inputs sha (256 - length B) (length B) (map_to_list (subm B M))).
Lemma smt_inputs_perm f d l l' : l ≡ₚ l' -> smt_inputs sha f d l ≡ₚ smt_inputs sha f d l'.
Proof.
  revert d l l'. induction f as [|f IH]; intros d l l' Hp.
  - destruct l as [|[k x] [|y l]].
    + apply Permutation_nil_l in Hp as <-. done.
    + apply Permutation_singleton_l in Hp as <-. done.
    + pose proof (Permutation_length Hp) as HL. destruct l' as [|[] [|? l']]; cbn in HL; try lia. done.
  - destruct l as [|[k x] [|y l]].
    + apply Permutation_nil_l in Hp as <-. done.
    + apply Permutation_singleton_l in Hp as <-. done.
    + pose proof (Permutation_length Hp) as HL. destruct l' as [|[k' x'] [|y' l']]; cbn in HL; try lia.
      cbn [smt_inputs].
      rewrite (smt_perm _ _ _ f (S d) (filter (has_bit d false) ((k, x) :: y :: l)) (filter (has_bit d false) ((k', x') :: y' :: l')))
        by (by rewrite Hp).
      rewrite (smt_perm _ _ _ f (S d) (filter (has_bit d true) ((k, x) :: y :: l)) (filter (has_bit d true) ((k', x') :: y' :: l')))
        by (by rewrite Hp).
      apply Permutation_skip, Permutation_app; apply IH; by rewrite Hp.
Qed.
Lemma inputs_single B M k x : subm B M = {[k := x]} -> inputs B M = [spec_leaf_input k x].
Proof. intros ->. rewrite map_to_list_singleton. by destruct (_ - _). Qed.
Lemma inputs_split B M : wfm M -> 2 <= cnt B M ->
  inputs B M ≡ₚ spec_node_input (hashP (B ++ [false]) M) (hashP (B ++ [true]) M)
    :: inputs (B ++ [false]) M ++ inputs (B ++ [true]) M.
Proof.
  intros Hw Hc.
  assert (length B < 256) as Hl.
  { destruct (decide (length B < 256)); [done|]. pose proof (cnt_deep B M Hw). lia. }
  rewrite !app_length. cbn [length].
  replace (256 - length B) with (S (256 - (length B + 1))) by lia.
  assert (forall b, filter (has_bit (length B) b) (map_to_list (subm B M)) ≡ₚ map_to_list (subm (B ++ [b]) M)) as Hf.
  { intros b. apply NoDup_Permutation; try apply NoDup_filter; try apply NoDup_map_to_list. intros [k x].
    rewrite elem_of_list_filter, !elem_of_map_to_list, subm_bit by done. unfold has_bit. cbn. tauto. }
  unfold hashB. rewrite !app_length. cbn [length]. replace (length B + 1) with (S (length B)) by lia.
  change (2 <= length (map_to_list (subm B M))) in Hc.
  rewrite <-(smt_inputs_perm _ _ _ _ (Hf false)), <-(smt_inputs_perm _ _ _ _ (Hf true)).
  rewrite <-(smt_perm _ _ _ _ _ _ _ (Hf false)), <-(smt_perm _ _ _ _ _ _ _ (Hf true)).
  destruct (map_to_list (subm B M)) as [|[] [|? l]]; cbn [length] in Hc; [lia..|]. reflexivity.
Qed.

(** Hash inputs determine what is hashed. *)
Lemma leaf_node_input k x l r : spec_leaf_input k x <> spec_node_input l r.
Proof. unfold spec_leaf_input, spec_node_input. cbn [app]. congruence. Qed.
Lemma leaf_input_inj k x k' x' : length k = length k' -> spec_leaf_input k x = spec_leaf_input k' x' -> k = k' /\ x = x'.
Proof. intros L E. unfold spec_leaf_input in E. apply app_inv_head in E. by apply app_inj_1. Qed.
Lemma node_input_inj l r l' r' : length l = length l' -> spec_node_input l r = spec_node_input l' r' -> l = l' /\ r = r'.
Proof. intros L E. unfold spec_node_input in E. apply app_inv_head in E. by apply app_inj_1. Qed.
Lemma sm_leaf_input k x : sm_leaf k x = sha (spec_leaf_input k x).
Proof. reflexivity. Qed.
Lemma sm_internal_input l r : sm_internal l r = sha (spec_node_input l r).
Proof. reflexivity. Qed.
Lemma hashP_length B M : (forall x, length (sha x) = 32) -> wfm M -> length (hashP B M) = 32.
Proof.
  intros Hsha Hw. destruct (decide (cnt B M = 0)) as [H0|H0].
  { rewrite hashB_empty by done. reflexivity. }
  destruct (decide (cnt B M = 1)) as [H1|H1].
  { destruct (cnt_1 _ _ H1) as (k & x & E). rewrite (hashB_single _ _ _ _ _ _ _ E), sm_leaf_input. apply Hsha. }
  rewrite hashB_split, sm_internal_input by (done || lia). apply Hsha.
Qed.

(** The strings hashed by the top-down fold. *)
Fixpoint top_inputs (cur : bytes) (sibs : list bytes) (bits : list bool) : list bytes :=
  match sibs, bits with
  | s :: sibs', b :: bits' =>
      (if b : bool then spec_node_input s (fold_top sha cur sibs' bits') else spec_node_input (fold_top sha cur sibs' bits') s)
      :: top_inputs cur sibs' bits'
  | _, _ => []
  end.
Lemma fold_inputs_app cur a b c d : length a = length c ->
  fold_inputs sha cur (a ++ b) (c ++ d) = fold_inputs sha cur a c ++ fold_inputs sha (fold_siblings sha cur a c) b d.
Proof.
  revert cur c. induction a as [|x a IH]; intros cur [|y c] H; try done.
  cbn [app fold_inputs fold_siblings]. rewrite IH by (by injection H). by destruct y.
Qed.
Lemma fold_inputs_top cur sibs bits : length sibs <= length bits ->
  fold_inputs sha cur (rev sibs) (rev (take (length sibs) bits)) ≡ₚ top_inputs cur sibs bits.
Proof.
  revert bits. induction sibs as [|s sibs IH]; intros bits H; [done|].
  destruct bits as [|b bits]; cbn [length] in H; [lia|]. cbn [length take rev top_inputs].
  rewrite fold_inputs_app by (rewrite !rev_length, take_length; lia).
  rewrite IH by lia. rewrite fold_siblings_top by lia. cbn [fold_inputs].
  rewrite Permutation_app_comm. by destruct b.
Qed.

Definition leaf_inputs (l : option (bytes * bytes)) : list bytes :=
  match l with Some (k, vh) => [spec_leaf_input k vh] | None => [] end.

(** What it means that a leaf sits at [B] in [M]: it is all there is below. *)
Definition at_leaf (M : pairs) (B : list bool) (l : option (bytes * bytes)) : Prop :=
  subm B M = match l with Some (k, vh) => {[k := vh]} | None => ∅ end.

Lemma fold_sound M l sibs : wfm M -> Forall (fun s : bytes => length s = 32) sibs ->
  match l with Some (lk, _) => length lk = 32 | None => True end ->
  forall B rest, length sibs <= length rest -> length B + length rest = 256 ->
  good_hash sha (leaf_inputs l ++ top_inputs (leaf_hash_of sha l) sibs rest ++ inputs B M) ->
  fold_top sha (leaf_hash_of sha l) sibs rest = hashP B M ->
  at_leaf M (B ++ take (length sibs) rest) l.
Proof.
  intros Hw Hs Hl. induction Hs as [|s sibs Hs1 Hs IH]; intros B rest HL HB Hg Hf.
  - cbn [fold_top length take app top_inputs] in *. rewrite app_nil_r. destruct Hg as (Hsha & Hinj & Hph).
    assert (fold_top sha (leaf_hash_of sha l) [] rest = leaf_hash_of sha l) as E0 by (by destruct rest).
    rewrite Forall_forall in Hph. unfold at_leaf.
    destruct (decide (cnt B M = 0)) as [H0|H0].
    { rewrite hashB_empty in Hf by done. destruct l as [[lk lv]|]; [exfalso|by apply cnt_0].
      apply (Hph (spec_leaf_input lk lv)); [left|]. exact Hf. }
    destruct (decide (cnt B M = 1)) as [H1|H1].
    { destruct (cnt_1 _ _ H1) as (k & x & E). rewrite (hashB_single _ _ _ _ _ _ _ E) in Hf.
      rewrite (inputs_single _ _ _ _ E) in Hinj, Hph. rewrite E.
      destruct l as [[lk lv]|].
      - cbn [leaf_hash_of] in Hf. rewrite !sm_leaf_input in Hf.
        apply Hinj in Hf; [|cbn; set_solver..]. apply leaf_input_inj in Hf as [<- <-]; [done|].
        assert (M !! k = Some x) as Hk.
        { assert (subm B M !! k = Some x) as Hk by (by rewrite E, lookup_singleton). by apply subm_Some in Hk as [? _]. }
        rewrite Hl. symmetry. by eapply Hw.
      - exfalso. apply (Hph (spec_leaf_input k x)); [cbn; set_solver|]. symmetry. exact Hf. }
    exfalso. rewrite hashB_split in Hf by (done || lia).
    assert (spec_node_input (hashP (B ++ [false]) M) (hashP (B ++ [true]) M) ∈ inputs B M) as Hin.
    { rewrite inputs_split by (done || lia). left. }
    rewrite sm_internal_input in Hf. destruct l as [[lk lv]|].
    + cbn [leaf_hash_of] in Hf. rewrite sm_leaf_input in Hf.
      apply Hinj in Hf; [by apply leaf_node_input in Hf|left|]. cbn [leaf_inputs app]. right. destruct rest; exact Hin.
    + apply (Hph _ Hin). symmetry. exact Hf.
  - destruct rest as [|b rest]; cbn [length] in HL; [lia|]. cbn [length] in HB.
    cbn [fold_top top_inputs length take] in *. set (rec := fold_top sha (leaf_hash_of sha l) sibs rest) in *.
    set (inp := if b then spec_node_input s rec else spec_node_input rec s) in *.
    assert (sha inp = hashP B M) as Hf'.
    { rewrite <-Hf. unfold inp. by destruct b. }
    assert (inp ∈ leaf_inputs l ++ (inp :: top_inputs (leaf_hash_of sha l) sibs rest) ++ inputs B M) as Hinp.
    { set_solver. }
    destruct Hg as (Hsha & Hinj & Hph). rewrite Forall_forall in Hph.
    destruct (decide (cnt B M = 0)) as [H0|H0].
    { exfalso. rewrite hashB_empty in Hf' by done. by apply (Hph inp). }
    destruct (decide (cnt B M = 1)) as [H1|H1].
    { exfalso. destruct (cnt_1 _ _ H1) as (k & x & E). rewrite (hashB_single _ _ _ _ _ _ _ E), sm_leaf_input in Hf'.
      apply Hinj in Hf'; [|done|rewrite (inputs_single _ _ _ _ E); set_solver].
      unfold inp in Hf'. destruct b; symmetry in Hf'; by apply leaf_node_input in Hf'. }
    rewrite hashB_split, sm_internal_input in Hf' by (done || lia).
    apply Hinj in Hf'; [|done|rewrite (inputs_split B M) by (done || lia); set_solver].
    assert (rec = hashP (B ++ [b]) M) as Hrec.
    { unfold inp in Hf'. destruct b; apply node_input_inj in Hf' as [? ?]; try done.
      - by rewrite Hs1, hashP_length.
      - rewrite hashP_length by done. unfold rec. destruct sibs as [|s' sibs'], rest as [|b' rest']; cbn [fold_top].
        1-3: destruct l as [[lk lv]|]; [apply Hsha|reflexivity].
        destruct b'; apply Hsha. }
    specialize (IH (B ++ [b]) rest ltac:(lia)). rewrite <-app_assoc in IH. apply IH; [rewrite app_length; cbn [length]; lia| |done].
    split_and!; [done|..].
    + intros y z Hy Hz. apply Hinj.
      * revert Hy. rewrite !elem_of_app, elem_of_cons. rewrite (inputs_split B M) by (done || lia).
        rewrite elem_of_cons, elem_of_app. destruct b; tauto.
      * revert Hz. rewrite !elem_of_app, elem_of_cons. rewrite (inputs_split B M) by (done || lia).
        rewrite elem_of_cons, elem_of_app. destruct b; tauto.
    + apply Forall_forall. intros y Hy. apply Hph.
      revert Hy. rewrite !elem_of_app, elem_of_cons. rewrite (inputs_split B M) by (done || lia).
      rewrite elem_of_cons, elem_of_app. destruct b; tauto.
Qed.

Lemma tree_inputs_eq m : smt_inputs sha 256 0 (map_to_list (hvm m)) = tree_inputs sha hv m.
Proof. unfold tree_inputs, JmtPutProof.hvm. reflexivity. Qed.
(** A verifier that accepts has found the leaf, or the absence of one. *)
Definition wf_proof (p : proof) : Prop :=
  Forall (fun s : bytes => length s = 32) (p_siblings p) /\
  match p_leaf p with Some (lk, _) => length lk = 32 | None => True end.
Lemma verify_sound p m k x : (forall k x, m !! k = Some x -> length k = 32) -> length k = 32 -> wf_proof p ->
  good_hash sha (proof_inputs sha (p_leaf p) (p_siblings p) k ++ tree_inputs sha hv m) ->
  verify sha hv p (smt_root sha hv m) k x = Ok tt -> hv <$> (m !! k) = hv <$> x.
Proof.
  intros Hm Hk [Hsib Hlk] Hg Hv. pose proof (wfm_hvm m Hm) as Hw. unfold verify in Hv.
  destruct (Nat.ltb_spec 256 (length (p_siblings p))) as [|Hlen]; [done|].
  set (sb := rev (p_siblings p)).
  assert (p_siblings p = rev sb) as Esb by (unfold sb; by rewrite rev_involutive).
  assert (length (p_siblings p) = length sb) as Elen by (rewrite Esb; apply rev_length).
  match type of Hv with rbind ?a _ = _ => destruct a as [[]| | |] eqn:Echk end; try done.
  cbn [rbind] in Hv. destruct (decide _) as [Hr|]; [clear Hv|done].
  rewrite iter_bits_key in Hr by done.
  rewrite drop_rev_take in Hr by (rewrite ?key_bits_length; lia).
  rewrite Elen, Esb, fold_siblings_top in Hr by (rewrite key_bits_length; lia).
  rewrite smt_root_hash in Hr.
  assert (at_leaf (hvm m) ([] ++ take (length sb) (key_bits k)) (p_leaf p)) as Hat.
  { apply (fold_sound (hvm m) (p_leaf p) sb Hw); [|done|rewrite key_bits_length; lia|cbn [length]; rewrite key_bits_length; lia| |exact Hr].
    - unfold sb. by apply Forall_rev.
    - destruct Hg as (Hsha & Hinj & Hph). rewrite subm_nil. change (length (@nil bool)) with 0.
      replace (256 - 0) with 256 by reflexivity.
      rewrite tree_inputs_eq.
      assert (leaf_inputs (p_leaf p) ++ top_inputs (leaf_hash_of sha (p_leaf p)) sb (key_bits k) ++ tree_inputs sha hv m
        ≡ₚ proof_inputs sha (p_leaf p) (p_siblings p) k ++ tree_inputs sha hv m) as Hperm.
      { rewrite app_assoc. apply Permutation_app_tail. unfold proof_inputs. rewrite Elen, Esb.
        rewrite <-fold_inputs_top by (rewrite key_bits_length; lia). by destruct (p_leaf p) as [[lk lv]|]. }
      split_and!; [done| |].
      + intros y z Hy Hz. apply Hinj; [rewrite <-Hperm; exact Hy|rewrite <-Hperm; exact Hz].
      + rewrite <-Hperm in Hph. exact Hph. }
  cbn [app] in Hat. unfold at_leaf in Hat.
  assert (subm (take (length sb) (key_bits k)) (hvm m) !! k = hv <$> (m !! k)) as Hsub.
  { apply option_eq. intros y. rewrite subm_Some. unfold JmtPutProof.hvm. rewrite lookup_fmap.
    split; [tauto|]. intros; split; [done|]. exists (drop (length sb) (key_bits k)). by rewrite take_drop. }
  rewrite <-Hsub, Hat. destruct x as [x|], (p_leaf p) as [[lk lv]|]; try done.
  - destruct (decide (k = lk)) as [<-|]; [|done]. destruct (decide (hv x = lv)) as [<-|]; [|done].
    by rewrite lookup_singleton.
  - destruct (decide (k = lk)) as [|Hne]; [done|]. by rewrite lookup_singleton_ne.
Qed.
End ProofOk.
