(** The convenience methods of the tree (C75), and the version that the store
    calls its latest (C76). *)
From Verif Require Import Base KeccakModel Sha256Model JmtNibModel JmtNibProof JmtSpec JmtNibSpec JmtTraceSpec JmtModel JmtIterModel
  JmtTrieModel JmtAbsProof JmtCacheProof JmtPutProof JmtHistProof JmtRunSpec JmtValueProof JmtRunProof JmtReadProof JmtProofProof
  JmtMoreProof JmtPropProof JmtOrderProof JmtIterProof JmtIterSpec JmtExamples JmtProps JmtIterProps JmtPurgeProof JmtPurgeProps.
Local Open Scope N_scope.

(** * C75: [verify_proof] accepts the tree's own proofs, and what it accepts
    against the root of any contents is true of those contents and of the
    version. *)
Theorem C75_own_proofs sha hv ops s v k : reached sha hv ops s -> low ops <= v < versions ops -> length k = 32%nat ->
  exists p r, trie_get_proof sha s k v = Ok p /\ get_root_hash sha s v = Ok r /\ trie_verify_proof sha hv s k v r p = Ok tt.
Proof.
  intros HR Hv Hk. unfold trie_get_proof, trie_verify_proof. destruct (value_at k (history ops) v) as [x|] eqn:Ex.
  - destruct (C29_inclusion_complete sha hv ops s v k x HR Hv Ex) as (p & r & -> & -> & H). exists p, r. done.
  - destruct (C30_noninclusion_complete sha hv ops s v k HR Hv Hk Ex) as (p & r & -> & -> & H). exists p, r. done.
Qed.
Theorem C75_verify_sound sha hv ops s v k m p : reached sha hv ops s -> low ops <= v < versions ops -> length k = 32%nat ->
  (forall k x, m !! k = Some x -> length k = 32%nat) -> wf_proof p ->
  good_hash sha (proof_inputs sha (p_leaf p) (p_siblings p) k ++ tree_inputs sha hv m) ->
  trie_verify_proof sha hv s k v (smt_root sha hv m) p = Ok tt ->
  option_map hv (m !! k) = option_map hv (value_at k (history ops) v).
Proof.
  intros HR Hv Hk Hm Hp Hg. unfold trie_verify_proof.
  destruct (proj2 (C22_versioned_reads sha hv ops s HR k v) Hv Hk) as [p0 ->]. cbn [rbind]. intros H.
  destruct (value_at k (history ops) v) as [x|].
  - destruct (C31_inclusion_sound sha hv m p k x Hm Hk Hp Hg H) as (y & -> & E). cbn [option_map]. by rewrite E.
  - by rewrite (C32_noninclusion_sound sha hv m p k Hm Hk Hp Hg H).
Qed.

(** * C76: the version that the store calls its latest can be read, whatever has
    been purged, and shows the latest contents. *)
Lemma tip_same ops s sha hv k : reached sha hv ops s -> 0 < versions ops ->
  db_version s < versions ops /\ value_at k (history ops) (db_version s) = value_at k (history ops) (versions ops - 1).
Proof.
  intros HR Hpos. destruct (db_version_ok s _ (si_vals _ _ _ _ _ (reached_inv _ _ _ _ HR))) as [H1 H2].
  assert (db_version s < versions ops) as Hlt.
  { destruct H2 as [->|(ws & H & _)]; [done|]. apply lookup_lt_Some in H. unfold versions. lia. }
  split; [done|]. apply value_at_same; [lia|]. intros t Ht (ws & Hws & [x Hx]).
  assert (ws <> []) as Hne by (intros ->; discriminate Hx). pose proof (H1 _ _ Hws Hne). lia.
Qed.
Lemma tip_holds sha hv ops s : reached sha hv ops s -> 0 < versions ops ->
  exists ver, Holds sha (st_nodes s) (db_version s) (cs_of hv (history ops) (db_version s)) ver /\
  forall q k h, q = [] \/ live [] (cs_of hv (history ops) (db_version s)) q ->
    subm (path_bits q) (cs_of hv (history ops) (db_version s)) = {[k := h]} ->
    st_get_value s (vp (db_version s) ver q) k = Ok (val_of ops (db_version s) k).
Proof.
  intros HR Hpos. destruct (full_store_all sha hv ops s HR) as (s0 & HR0 & Hsub & Hh & Hlost & _ & Hrec).
  set (w := db_version s). destruct (tip_same ops s sha hv [] HR Hpos) as [Hw _]. fold w in Hw.
  destruct (db_version_ok s _ (si_vals _ _ _ _ _ (reached_inv _ _ _ _ HR))) as [Hmax _].
  pose proof (reached_inv _ _ _ _ HR0) as HS. destruct (si_hist _ _ _ _ _ HS) as [vs HI].
  rewrite unpurged_history in HI. fold (versions ops) in HI.
  assert (low (unpurged ops) <= w < versions ops) as Hw0 by (rewrite unpurged_low; lia).
  pose proof (hi_holds _ _ _ _ _ _ _ _ HI w Hw0) as HH.
  assert (forall t nk, (t, nk) ∈ st_stale s0 -> t <= w) as Hle.
  { intros t nk H. destruct (Hrec t nk H) as (ws & H1 & H2). pose proof (Hmax _ _ H1 H2). lia. }
  exists (vs w). split.
  - split.
    + apply (h_wf _ _ _ _ _ HH).
    + pose proof (h_root _ _ _ _ _ HH) as Hr. destruct (Hlost _ _ Hr) as [H|[t H]]; [done|].
      pose proof (hi_rec _ _ _ _ _ _ _ _ HI t _ H) as (A & _). apply Hle in H. cbn [fst] in A. lia.
    + intros q Hq Hl. pose proof (h_live _ _ _ _ _ HH q Hq Hl) as Hn. destruct (Hlost _ _ Hn) as [H|[t H]]; [done|].
      pose proof (hi_safe _ _ _ _ _ _ _ _ HI t _ w H Hw0 (conj Hq (conj Hl eq_refl))) as A. apply Hle in H. lia.
    + apply (h_le _ _ _ _ _ HH).
  - intros q k h Hq E.
    assert (cs_of hv (history ops) w !! k = Some h) as Hk.
    { assert (subm (path_bits q) (cs_of hv (history ops) w) !! k = Some h) as Hs by (rewrite E; apply lookup_singleton).
      apply psub_Some in Hs as [? _]. done. }
    unfold cs_of, hvm in Hk. rewrite lookup_fmap in Hk.
    assert (value_at k (history ops) (vp w (vs w) q) = value_at k (history ops) w) as Hval.
    { destruct q as [|i q]; [done|]. destruct Hq as [?|Hq]; [done|]. apply value_at_same.
      - apply (h_le _ _ _ _ _ HH); done.
      - intros t Ht. apply (hi_val _ _ _ _ _ _ _ _ HI w (i :: q) k h t); [done..| |done]. rewrite E. apply lookup_singleton. }
    unfold st_get_value. rewrite (hist_ok_read s (history ops)) by apply (si_vals _ _ _ _ _ (reached_inv _ _ _ _ HR)).
    rewrite Hval, <-contents_value. unfold val_of. destruct (contents_at (history ops) w !! k) as [x|]; done.
Qed.
Lemma tip_contents ops s sha hv : reached sha hv ops s -> 0 < versions ops ->
  contents_at (history ops) (db_version s) = contents_at (history ops) (versions ops - 1).
Proof. intros HR Hpos. apply map_eq. intros k. rewrite !contents_value. by apply (tip_same ops s sha hv k). Qed.

Theorem C76_latest_version_reads sha hv ops s k : reached sha hv ops s -> 0 < versions ops -> length k = 32%nat ->
  trie_get s k (db_version s) = value_at k (history ops) (versions ops - 1) /\
  exists p r, get_with_proof sha s k (db_version s) = Ok (value_at k (history ops) (versions ops - 1), p) /\
    get_root_hash sha s (db_version s) = Ok r /\ get_root_hash sha s (versions ops - 1) = Ok r /\
    verify sha hv p r k (value_at k (history ops) (versions ops - 1)) = Ok tt.
Proof.
  intros HR Hpos Hk. destruct (tip_same ops s sha hv k HR Hpos) as [Hw Hval]. split.
  { rewrite <- Hval. apply C22_versioned_reads with (1 := HR). }
  destruct (full_store_all sha hv ops s HR) as (s0 & HR0 & Hsub & Hh & _).
  destruct (tip_holds sha hv ops s HR Hpos) as (ver & HH & _). set (w := db_version s) in *.
  assert (Holds sha (st_nodes s0) w (cs_of hv (history ops) w) ver) as HH0.
  { split; [apply (h_wf _ _ _ _ _ HH)|apply Hsub, (h_root _ _ _ _ _ HH)| |apply (h_le _ _ _ _ _ HH)].
    intros q Hq Hl. by apply Hsub, (h_live _ _ _ _ _ HH). }
  assert (get_with_proof sha s k w = get_with_proof sha s0 k w) as ->.
  { unfold get_with_proof.
    rewrite (gwp_ok sha s w _ ver k HH Hk (nibs k) [] (w, []) true []); [|apply (h_root _ _ _ _ _ HH)|done|by left|done|done].
    rewrite (gwp_ok sha s0 w _ ver k HH0 Hk (nibs k) [] (w, []) true []); [|apply (h_root _ _ _ _ _ HH0)|done|by left|done|done].
    destruct (bpath _ _ _ _) as [l sb]. f_equal. unfold found_value, st_get_value, st_get_value_option. by rewrite Hh. }
  assert (low (unpurged ops) <= w < versions (unpurged ops)) as Hw0.
  { unfold versions in *. rewrite unpurged_low, unpurged_history. lia. }
  assert (get_root_hash sha s w = get_root_hash sha s0 w) as ->.
  { unfold get_root_hash. by rewrite (h_root _ _ _ _ _ HH), (h_root _ _ _ _ _ HH0). }
  assert (low ops <= versions ops - 1 < versions ops) as Hlast.
  { split; [|lia]. pose proof (si_lo _ _ _ _ _ (reached_inv _ _ _ _ HR)). unfold versions in *. lia. }
  rewrite (proj1 (proj1 (C24_root_is_smt_root sha hv ops s HR) _ Hlast)).
  rewrite <- (tip_contents ops s sha hv HR Hpos), <- Hval. fold w.
  rewrite (proj1 (proj1 (C24_root_is_smt_root sha hv _ s0 HR0) _ Hw0)), unpurged_history.
  destruct (value_at k (history ops) w) as [x|] eqn:Ex.
  - destruct (C29_inclusion_complete sha hv _ s0 w k x HR0 Hw0) as (p & r & -> & H & Hver); [by rewrite unpurged_history|].
    rewrite (proj1 (proj1 (C24_root_is_smt_root sha hv _ s0 HR0) _ Hw0)), unpurged_history in H. injection H as <-.
    eexists _, _. done.
  - destruct (C30_noninclusion_complete sha hv _ s0 w k HR0 Hw0 Hk) as (p & r & -> & H & Hver); [by rewrite unpurged_history|].
    rewrite (proj1 (proj1 (C24_root_is_smt_root sha hv _ s0 HR0) _ Hw0)), unpurged_history in H. injection H as <-.
    eexists _, _. done.
Qed.
Theorem C76_latest_version_iterates sha hv ops s : reached sha hv ops s -> 0 < versions ops ->
  exists it l, trie_iter s (db_version s) = Ok it /\ yields s it l /\ ascending l /\
    forall k x, (k, x) ∈ l <-> value_at k (history ops) (versions ops - 1) = Some x.
Proof.
  intros HR Hpos. destruct (tip_holds sha hv ops s HR Hpos) as (ver & HH & Hval). set (w := db_version s) in *.
  destruct (iter_index_ok sha s w _ ver HH (val_of ops w) Hval 0) as (it & E & HS).
  exists it, (map (pair_of ops w) (all_keys hv ops w)). split; [exact E|]. split_and!.
  - by apply (state_yields sha hv ops s w ver HH).
  - apply asc_map, lkeys_sorted. by apply (wfm_m sha hv ops s w).
  - intros k x. rewrite (pairs_elem ops w (fun _ => True)).
    + destruct (tip_same ops s sha hv k HR Hpos) as [_ <-]. rewrite contents_value. tauto.
    + intros k'. unfold all_keys. rewrite lkeys_elem by (by apply (wfm_m sha hv ops s w)).
      unfold cs_of, hvm. rewrite lookup_fmap, fmap_is_Some. split; [tauto|]. intros [? _]. split; [done|apply prefix_nil].
Qed.

(** Versions 2 to 4 change nothing and all but the last are purged; the store
    still calls version 1 its latest. *)
Definition tip_ops : list op :=
  [OpPut [[(ka, Some va); (kc, Some vb)]; [(ka, None); (kd, Some va)]; []]; OpPut [[]; []]; OpPurge 4].
Definition tip_store : store := match run sha256 sha256 tip_ops with Ok s => s | _ => empty_store end.
Lemma tip_reached : reached sha256 sha256 tip_ops tip_store.
Proof.
  split; [wf|]. assert (H : (match run sha256 sha256 tip_ops with Ok _ => true | _ => false end) = true)
    by (vm_compute; reflexivity).
  unfold tip_store. revert H. destruct (run sha256 sha256 tip_ops); [reflexivity|discriminate..].
Qed.
Example C76_example : reached sha256 sha256 tip_ops tip_store /\ versions tip_ops = 5 /\ low tip_ops = 4 /\
  db_version tip_store = 1 /\ map (fun k => outcome (get_with_proof sha256 tip_store k 1)) [ka; kc; kd] =
    [inl (Some None); inl (Some (Some vb)); inl (Some (Some va))] /\
  map (fun k => outcome (get_with_proof sha256 tip_store k 0)) [ka] = [inr (MissingRoot 0)].
Proof. split; [exact tip_reached|]. vm_compute. auto 10. Qed.
(** The tree's own proofs of a present and an absent key verify; the proof of
    another key does not. *)
Example C75_example : reached sha256 sha256 ex_ops ex_store /\
  let p k := match trie_get_proof sha256 ex_store k 4 with Ok p => p | _ => Proof None [] end in
  let r := match get_root_hash sha256 ex_store 4 with Ok r => r | _ => [] end in
  map (fun '(k, k') => match trie_verify_proof sha256 sha256 ex_store k 4 r (p k') with Ok _ => true | _ => false end)
    [(ka, ka); (mk 0x30 0, mk 0x30 0); (ka, kb)] = [true; true; false] /\
  wf_proof (p ka) /\
  good_hash sha256 (proof_inputs sha256 (p_leaf (p ka)) (p_siblings (p ka)) ka ++ tree_inputs sha256 sha256 ex_m).
Proof.
  split; [exact ex_reached|]. cbv zeta. split; [vm_compute; reflexivity|].
  assert (match trie_get_proof sha256 ex_store ka 4 with Ok p => p | _ => Proof None [] end = ex_proof ka) as ->.
  { unfold trie_get_proof, ex_proof. by destruct (get_with_proof sha256 ex_store ka 4) as [[? ?]| | |]. }
  exact (conj (proj1 C31_example) (proj1 (proj2 C31_example))).
Qed.
Print Assumptions C75_own_proofs.
Print Assumptions C75_verify_sound.
Print Assumptions C76_latest_version_reads.
Print Assumptions C76_latest_version_iterates.
