(** The properties of the versioned Jellyfish Merkle tree (C22-C34, C39-C43,
    C48, C53, C54).  Executions and the observations made on them are defined
    in JmtRunSpec.v, contents and the sparse Merkle root in JmtSpec.v, the
    strings a hash function must not confuse in JmtTraceSpec.v.  [sha] (the hash
    of the nodes) and [hv] (the hash of the values) are arbitrary functions. *)
From Verif Require Import Base KeccakModel Sha256Model JmtNibModel JmtNibProof JmtSpec JmtTraceSpec JmtModel JmtHashProof
  JmtAbsProof JmtCacheProof JmtInsertProof JmtPutProof JmtHistProof JmtRunSpec JmtValueProof JmtRunProof JmtReadProof
  JmtProofProof JmtMoreProof JmtPropProof PmtExamples JmtExamples.
Local Open Scope N_scope.

(** For examples: [P] holds of the store an execution ends in. *)
Definition on_run (sha hv : bytes -> bytes) (ops : list op) (P : store -> Prop) : Prop :=
  match run sha hv ops with Ok s => P s | _ => False end.
Lemma on_run_elim sha hv ops P s : on_run sha hv ops P -> run sha hv ops = Ok s -> P s.
Proof. unfold on_run. intros H E. rewrite E in H. exact H. Qed.
Ltac wf := split; [apply wf_setsb; vm_compute; reflexivity|vm_compute; discriminate].

(** * C22: reads at a version see the last write at or before it. *)
Theorem C22_versioned_reads sha hv ops s : reached sha hv ops s -> forall k v,
  trie_get s k v = value_at k (history ops) v /\
  (low ops <= v < versions ops -> length k = 32%nat ->
   exists p, get_with_proof sha s k v = Ok (value_at k (history ops) v, p)).
Proof.
  intros HR k v. pose proof (reached_inv _ _ _ _ HR) as HS. split; [by apply (trie_get_ok sha hv s _ _ k v HS)|].
  intros Hv Hk. eexists. rewrite (read_ok sha hv s _ _ k v HS Hv Hk), contents_value. reflexivity.
Qed.
Example C22_example : reached sha256 sha256 ex_ops ex_store /\ low ex_ops = 1 /\ versions ex_ops = 5 /\
  map (trie_get ex_store kb) [0; 1; 2; 3; 4] = [Some vb; Some vb; Some vb; None; Some va] /\
  map (trie_get ex_store kd) [2; 3] = [None; Some vb] /\
  match get_with_proof sha256 ex_store kb 1 with Ok (x, _) => x = Some vb | _ => False end.
Proof. split; [exact ex_reached|]. vm_compute. auto. Qed.
Print Assumptions C22_versioned_reads.

(** * C23: whatever is done later, an earlier version that pruning keeps shows the same. *)
Theorem C23_earlier_versions_fixed sha hv ops more s s' v k :
  reached sha hv ops s -> reached sha hv (ops ++ more) s' ->
  low (ops ++ more) <= v < versions ops -> length k = 32%nat ->
  obs sha s' v k = obs sha s v k.
Proof.
  intros HR HR' Hv Hk. pose proof (low_app_ge ops more) as Hlo.
  assert (versions ops <= versions (ops ++ more)) as Hver by (unfold versions; rewrite history_app, app_length; lia).
  apply (obs_same sha hv _ _ _ _ _ _ _ HR' HR); [lia|lia|done|].
  rewrite history_app. apply contents_at_app. unfold versions in *. lia.
Qed.
Definition ex_more : list op := [OpPut [[(ka, None); (kb, None)]; [(kd, Some va)]]; OpPurge 2].
Example C23_example : reached sha256 sha256 ex_ops ex_store /\
  (exists s', reached sha256 sha256 (ex_ops ++ ex_more) s' /\ trie_get s' ka 6 = None /\
     trie_get s' ka 4 = Some vb) /\
  low (ex_ops ++ ex_more) = 2.
Proof.
  split; [exact ex_reached|]. split; [|vm_compute; reflexivity].
  destruct (run_ok sha256 sha256 (ex_ops ++ ex_more)) as (s' & E & _).
  { wf. }
  exists s'. split.
  - split; [wf|exact E].
  - assert (H : on_run sha256 sha256 (ex_ops ++ ex_more)
      (fun s => trie_get s ka 6 = None /\ trie_get s ka 4 = Some vb)) by (vm_compute; auto).
    exact (on_run_elim _ _ _ _ _ H E).
Qed.
Print Assumptions C23_earlier_versions_fixed.

(** * C24: root hashes are the sparse Merkle roots of the contents. *)
Theorem C24_root_is_smt_root sha hv ops s : reached sha hv ops s ->
  (forall v, low ops <= v < versions ops ->
     get_root_hash sha s v = Ok (smt_root sha hv (contents_at (history ops) v)) /\
     get_root_hash_option sha s v = Ok (Some (smt_root sha hv (contents_at (history ops) v)))) /\
  (forall (sets : list (list write)) roots b, wf_sets sets -> versions ops + N.of_nat (length sets) <= u64_max ->
     put_value_sets sha hv s sets (versions ops) = Ok (roots, b) ->
     length roots = length sets /\
     forall i r, roots !! i = Some r ->
       r = smt_root sha hv (contents_at (history ops ++ sets) (versions ops + N.of_nat i))).
Proof.
  intros HR. pose proof (reached_inv _ _ _ _ HR) as HS. split.
  - intros v Hv. split; [by apply (root_ok sha hv s _ _ v HS)|by apply (root_option_ok sha hv s _ _ v HS)].
  - intros sets roots b Hw Hl E. unfold versions in *.
    destruct (call_ok sha hv s _ _ sets HS Hw) as (roots' & b' & s' & E' & _ & _ & HC & _); [rewrite app_length; lia|].
    rewrite E' in E. injection E as -> ->. split; [apply (ca_len _ _ _ _ _ _ _ HC)|].
    intros i r Hi. rewrite (ca_roots _ _ _ _ _ _ _ HC i r Hi), smt_root_hash. unfold cs_of.
    by replace (N.of_nat (length (history ops)) + N.of_nat i) with (N.of_nat (length (history ops) + i)) by lia.
Qed.
Theorem C24_equal_contents_equal_roots sha hv ops ops' s s' v v' :
  reached sha hv ops s -> reached sha hv ops' s' ->
  low ops <= v < versions ops -> low ops' <= v' < versions ops' ->
  (forall k, value_at k (history ops) v = value_at k (history ops') v') ->
  exists r, get_root_hash sha s v = Ok r /\ get_root_hash sha s' v' = Ok r.
Proof.
  intros HR HR' Hv Hv' E.
  assert (contents_at (history ops) v = contents_at (history ops') v') as Ec.
  { apply map_eq. intros k. rewrite !contents_value. apply E. }
  eexists. rewrite (proj1 (proj1 (C24_root_is_smt_root sha hv ops s HR) v Hv)),
    (proj1 (proj1 (C24_root_is_smt_root sha hv ops' s' HR') v' Hv')), Ec. done.
Qed.
Theorem C24_empty_root sha hv ops s v : reached sha hv ops s -> low ops <= v < versions ops ->
  (forall k, value_at k (history ops) v = None) -> get_root_hash sha s v = Ok spec_empty_hash.
Proof.
  intros HR Hv E. rewrite (proj1 (proj1 (C24_root_is_smt_root sha hv ops s HR) v Hv)).
  assert (contents_at (history ops) v = ∅) as ->.
  { apply map_eq. intros k. rewrite contents_value, lookup_empty. apply E. }
  unfold smt_root. rewrite fmap_empty, map_to_list_empty. reflexivity.
Qed.
Example C24_example : reached sha256 sha256 ex_ops ex_store /\
  (exists roots b, put_value_sets sha256 sha256 ex_store [[(ka, None)]; [(kc, None); (kb, None); (kd, None)]] 5 = Ok (roots, b) /\
    length roots = 2%nat /\ roots !! 1%nat = Some spec_empty_hash).
Proof.
  split; [exact ex_reached|].
  assert (H : match put_value_sets sha256 sha256 ex_store [[(ka, None)]; [(kc, None); (kb, None); (kd, None)]] 5 with
    | Ok (roots, _) => length roots = 2%nat /\ roots !! 1%nat = Some spec_empty_hash | _ => False end) by (vm_compute; auto).
  revert H. destruct (put_value_sets _ _ _ _ _) as [[roots b]| | |]; [|done..]. intros H. by exists roots, b.
Qed.
(** The specification on the vectors of the repository. *)
Example C24_vectors :
  vector_root [(hello, Some world)] = Some (smt_root sha256 sha256 {[hello := world]}) /\
  vector_root [(hello, Some world); (goodbye, Some world)] = Some (smt_root sha256 sha256 (<[goodbye := world]> {[hello := world]})).
Proof. vm_compute. auto. Qed.
Print Assumptions C24_root_is_smt_root.
Print Assumptions C24_equal_contents_equal_roots.
Print Assumptions C24_empty_root.

(** * C25: deleting absent keys changes nothing. *)
Theorem C25_absent_deletion sha hv ops s ks : reached sha hv ops s -> versions ops < u64_max ->
  Forall (fun k => length k = 32%nat /\ latest (history ops) !! k = None) ks ->
  exists r b s', put_value_set sha hv s (map (fun k => (k, None)) ks) (versions ops) = Ok (r, b) /\
    write_batch s b = Ok s' /\ b_stale b = ∅ /\ r = smt_root sha hv (latest (history ops)) /\
    (0 < versions ops -> forall k, length k = 32%nat ->
       obs sha s' (versions ops) k = obs sha s (versions ops - 1) k).
Proof.
  intros HR Hm Hks. pose proof (reached_inv _ _ _ _ HR) as HS. set (kvs := map (fun k => (k, None)) ks).
  assert (Forall (fun w : write => length (fst w) = 32%nat /\ snd w = None /\ latest (history ops) !! fst w = None) kvs) as Hkv.
  { apply Forall_map. eapply Forall_impl; [exact Hks|]. cbn. intros k [? ?]. done. }
  assert (wf_sets [kvs]) as Hw.
  { constructor; [|constructor]. eapply Forall_impl; [exact Hkv|]. intros w [? _]. done. }
  destruct (call_ok sha hv s _ _ [kvs] HS Hw) as (roots & b & s' & E & E2 & HS' & HC & _).
  { rewrite app_length. unfold versions in Hm. cbn [length]. lia. }
  pose proof (ca_len _ _ _ _ _ _ _ HC) as HL. destruct roots as [|r [|]]; try discriminate HL. clear HL.
  assert (contents_at (history ops ++ [kvs]) (versions ops) = latest (history ops)) as Ec.
  { unfold contents_at, versions. rewrite take_ge by (rewrite app_length; cbn [length]; lia).
    rewrite fold_left_app. cbn [fold_left]. apply absent_apply. exact Hkv. }
  exists r, b, s'. unfold put_value_set. fold kvs. unfold versions in *. rewrite E. cbn [rbind]. split; [reflexivity|].
  split; [done|]. split; [by apply (absent_call sha hv s _ _ kvs HS Hkv Hm [r] b)|]. split.
  - rewrite (ca_roots _ _ _ _ _ _ _ HC 0%nat r eq_refl), smt_root_hash. unfold cs_of.
    by replace (N.of_nat (length (history ops) + 0)) with (N.of_nat (length (history ops))) by lia; rewrite Ec.
  - intros Hpos k Hk.
    assert (reached sha hv (ops ++ [OpPut [kvs]]) s') as HR'.
    { eapply (reached_put sha hv ops s); try done. unfold versions. cbn [length]. lia. }
    pose proof (si_lo _ _ _ _ _ HS Hpos) as Hlo.
    apply (obs_same sha hv _ _ _ _ _ _ _ HR' HR); [|unfold versions; lia|done|].
    + rewrite low_app. cbn [low_from op_low]. unfold versions. rewrite history_app, history_put, app_length. cbn [length]. lia.
    + rewrite history_app, history_put, contents_last by lia. exact Ec.
Qed.
Example C25_example : reached sha256 sha256 ex_ops ex_store /\
  latest (history ex_ops) !! mk 0x12 0x36 = None /\ latest (history ex_ops) !! mk 0x77 0 = None /\
  latest (history ex_ops) !! ka = Some vb.
Proof. split; [exact ex_reached|]. vm_compute. auto. Qed.
Print Assumptions C25_absent_deletion.

(** * C26: one call with several sets against one call per set.  Every
    observation, every returned root and the value histories agree ... *)
Theorem C26_multi_version_partial sha hv ops s (sets : list (list write)) s1 s2 roots b : reached sha hv ops s ->
  put_value_sets sha hv s sets (versions ops) = Ok (roots, b) ->
  reached sha hv (ops ++ [OpPut sets]) s1 ->
  reached sha hv (ops ++ map (fun ws => OpPut [ws]) sets) s2 ->
  st_hist s1 = st_hist s2 /\
  (forall i r, roots !! i = Some r -> get_root_hash sha s2 (versions ops + N.of_nat i) = Ok r) /\
  (forall v k, low ops <= v < versions ops + N.of_nat (length sets) -> length k = 32%nat ->
     obs sha s1 v k = obs sha s2 v k).
Proof.
  intros HR E HR1 HR2.
  assert (history (ops ++ [OpPut sets]) = history ops ++ sets) as H1 by (by rewrite history_app, history_put).
  assert (history (ops ++ map (fun ws => OpPut [ws]) sets) = history ops ++ sets) as H2 by (by rewrite history_app, history_puts).
  assert (low (ops ++ [OpPut sets]) = low ops) as L1 by (by rewrite low_app).
  assert (low (ops ++ map (fun ws => OpPut [ws]) sets) = low ops) as L2 by (by rewrite low_app, low_puts).
  assert (forall o, history o = history ops ++ sets -> versions o = versions ops + N.of_nat (length sets)) as HV.
  { intros o Ho. unfold versions. rewrite Ho, app_length. lia. }
  split_and!.
  - apply map_eq. intros k. pose proof (si_vals _ _ _ _ _ (reached_inv _ _ _ _ HR1) k) as A.
    pose proof (si_vals _ _ _ _ _ (reached_inv _ _ _ _ HR2) k) as B. rewrite A, B, H1, H2. done.
  - intros i r Hi. destruct HR1 as [[Hw1 Hm1] _]. rewrite H1 in Hw1, Hm1. rewrite app_length in Hm1.
    destruct (proj2 (C24_root_is_smt_root sha hv ops s HR) sets roots b) as [HL Hr]; try done.
    { apply Forall_app in Hw1 as [_ ?]. done. } { unfold versions. lia. }
    pose proof (lookup_lt_Some _ _ _ Hi) as Hlt. rewrite HL in Hlt.
    pose proof (low_le sha hv ops s HR) as Hlo.
    assert (low (ops ++ map (fun ws => OpPut [ws]) sets) <= versions ops + N.of_nat i <
      versions (ops ++ map (fun ws => OpPut [ws]) sets)) as Hin by (rewrite L2, (HV _ H2); lia).
    rewrite (proj1 (proj1 (C24_root_is_smt_root sha hv _ s2 HR2) _ Hin)).
    rewrite H2, (Hr i r Hi). done.
  - intros v k Hv Hk. apply (obs_same sha hv _ _ _ _ _ _ _ HR1 HR2); rewrite ?L1, ?L2, ?(HV _ H1), ?(HV _ H2); try done.
    by rewrite H1, H2.
Qed.
Example C26_example :
  let sets := [[(ka, None); (kb, Some va)]; [(kc, Some vb)]; []] in
  reached sha256 sha256 ex_ops ex_store /\
  (exists s1, reached sha256 sha256 (ex_ops ++ [OpPut sets]) s1) /\
  (exists s2, reached sha256 sha256 (ex_ops ++ map (fun ws => OpPut [ws]) sets) s2).
Proof.
  cbn zeta. split; [exact ex_reached|].
  split; match goal with |- exists s, reached _ _ ?o s =>
    assert (W : wf_ops o) by wf;
    destruct (run_ok sha256 sha256 o W) as (s1 & E & _); exists s1; exact (conj W E) end.
Qed.
Print Assumptions C26_multi_version_partial.
(** ... but the stores need not: after a set that changes nothing, one call
    records the root of the version before it as stale, a call per set records
    the copied root. *)
Theorem C26_multi_version_refuted : exists ops sets, forall sha hv, exists s1 s2,
  reached sha hv (ops ++ [OpPut sets]) s1 /\ reached sha hv (ops ++ map (fun ws => OpPut [ws]) sets) s2 /\
  st_stale s1 = {[(2, (0, []))]} /\ st_stale s2 = {[(2, (1, []))]}.
Proof.
  exists [OpPut [[(ka, Some va)]]], [[]; [(ka, Some vb)]]. intros sha hv.
  assert (W1 : wf_ops ([OpPut [[(ka, Some va)]]] ++ [OpPut [[]; [(ka, Some vb)]]]))
    by wf.
  assert (W2 : wf_ops ([OpPut [[(ka, Some va)]]] ++ map (fun ws => OpPut [ws]) [[]; [(ka, Some vb)]]))
    by wf.
  assert (H1 : on_run sha hv ([OpPut [[(ka, Some va)]]] ++ [OpPut [[]; [(ka, Some vb)]]])
    (fun s => elements (st_stale s) = [(2, (0, []))])) by (vm_compute; reflexivity).
  assert (H2 : on_run sha hv ([OpPut [[(ka, Some va)]]] ++ map (fun ws => OpPut [ws]) [[]; [(ka, Some vb)]])
    (fun s => elements (st_stale s) = [(2, (1, []))])) by (vm_compute; reflexivity).
  destruct (run_ok sha hv _ W1) as (s1 & E1 & _). destruct (run_ok sha hv _ W2) as (s2 & E2 & _).
  apply (on_run_elim _ _ _ _ _ H1) in E1 as H3. apply (on_run_elim _ _ _ _ _ H2) in E2 as H4.
  exists s1, s2. split; [exact (conj W1 E1)|]. split; [exact (conj W2 E2)|].
  split; apply set_eq; intros x; rewrite elem_of_singleton, <-elem_of_elements.
  - rewrite H3. apply elem_of_list_singleton.
  - rewrite H4. apply elem_of_list_singleton.
Qed.
Print Assumptions C26_multi_version_refuted.

(** * C28: in one set, the last mention of a key counts. *)
Theorem C28_last_write_wins sha hv ops s1 s2 ws :
  reached sha hv (ops ++ [OpPut [ws]]) s1 -> reached sha hv (ops ++ [OpPut [keep_last ws]]) s2 ->
  st_hist s1 = st_hist s2 /\
  forall k, length k = 32%nat -> obs sha s1 (versions ops) k = obs sha s2 (versions ops) k.
Proof.
  intros HR1 HR2.
  assert (forall ws, history (ops ++ [OpPut [ws]]) = history ops ++ [ws]) as H1 by (intros; by rewrite history_app, history_put).
  assert (forall ws, low (ops ++ [OpPut [ws]]) = low ops) as L1 by (intros; by rewrite low_app).
  assert (reached sha hv ops (match run sha hv ops with Ok s => s | _ => empty_store end)) as HR.
  { assert (wf_ops ops) as Hw.
    { destruct HR1 as [[Hw Hm] _]. rewrite H1 in *. apply Forall_app in Hw as [Hw _]. split; [done|].
      rewrite app_length in Hm. lia. }
    split; [done|]. destruct (run_ok sha hv ops Hw) as (s & -> & _). done. }
  pose proof (low_le _ _ _ _ HR) as Hlo. split.
  - apply map_eq. intros k. pose proof (si_vals _ _ _ _ _ (reached_inv _ _ _ _ HR1) k) as A.
    pose proof (si_vals _ _ _ _ _ (reached_inv _ _ _ _ HR2) k) as B. rewrite A, B, !H1. by rewrite !entries_keep_last.
  - intros k Hk. apply (obs_same sha hv _ _ _ _ _ _ _ HR1 HR2); try done.
    + rewrite L1. unfold versions. rewrite H1, app_length. cbn [length]. unfold versions in Hlo. lia.
    + rewrite L1. unfold versions. rewrite H1, app_length. cbn [length]. unfold versions in Hlo. lia.
    + rewrite !H1. unfold contents_at, versions. rewrite !take_ge by (rewrite app_length; cbn [length]; lia).
      rewrite !fold_left_app. cbn [fold_left]. by rewrite keep_last_apply.
Qed.
(** What "only the last mention" means. *)
Theorem C28_keep_last ws : NoDup (map fst (keep_last ws)) /\
  forall k x, (k, x) ∈ keep_last ws <-> exists a b, ws = a ++ (k, x) :: b /\ k ∉ map fst b.
Proof. split; [apply keep_last_nodup|]. intros k x. apply keep_last_elem. Qed.
Definition ex_dups : list write := [(ka, Some va); (kb, None); (ka, None); (kc, Some va); (ka, Some vc); (kc, None)].
Example C28_example : keep_last ex_dups = [(kb, None); (ka, Some vc); (kc, None)] /\
  (exists s1, reached sha256 sha256 (ex_ops ++ [OpPut [ex_dups]]) s1) /\
  (exists s2, reached sha256 sha256 (ex_ops ++ [OpPut [keep_last ex_dups]]) s2).
Proof.
  split; [vm_compute; reflexivity|].
  split; match goal with |- exists s, reached _ _ ?o s =>
    assert (W : wf_ops o) by wf;
    destruct (run_ok sha256 sha256 o W) as (s1 & E & _); exists s1; exact (conj W E) end.
Qed.
Print Assumptions C28_last_write_wins.
Print Assumptions C28_keep_last.

(** * C29, C30: the proofs the tree hands out verify. *)
Theorem C29_inclusion_complete sha hv ops s v k x : reached sha hv ops s -> low ops <= v < versions ops ->
  value_at k (history ops) v = Some x ->
  exists p r, get_with_proof sha s k v = Ok (Some x, p) /\ get_root_hash sha s v = Ok r /\
    verify sha hv p r k (Some x) = Ok tt.
Proof.
  intros HR Hv Hx. pose proof (reached_inv _ _ _ _ HR) as HS. rewrite <-contents_value in Hx.
  assert (forall k x, contents_at (history ops) v !! k = Some x -> length k = 32%nat) as Hm.
  { intros k' x'. apply contents_wf. apply (si_wf _ _ _ _ _ HS). }
  pose proof (Hm k x Hx) as Hk. eexists _, _. split; [rewrite (read_ok sha hv s _ _ k v HS Hv Hk), Hx; reflexivity|].
  split; [apply (root_ok sha hv s _ _ v HS Hv)|]. rewrite <-Hx. by apply made_proof_verifies.
Qed.
Theorem C30_noninclusion_complete sha hv ops s v k : reached sha hv ops s -> low ops <= v < versions ops ->
  length k = 32%nat -> value_at k (history ops) v = None ->
  exists p r, get_with_proof sha s k v = Ok (None, p) /\ get_root_hash sha s v = Ok r /\
    verify sha hv p r k None = Ok tt.
Proof.
  intros HR Hv Hk Hx. pose proof (reached_inv _ _ _ _ HR) as HS. rewrite <-contents_value in Hx.
  assert (forall k x, contents_at (history ops) v !! k = Some x -> length k = 32%nat) as Hm.
  { intros k' x'. apply contents_wf. apply (si_wf _ _ _ _ _ HS). }
  eexists _, _. split; [rewrite (read_ok sha hv s _ _ k v HS Hv Hk), Hx; reflexivity|].
  split; [apply (root_ok sha hv s _ _ v HS Hv)|]. rewrite <-Hx. by apply made_proof_verifies.
Qed.
(** A deep leaf, an empty slot and another key's leaf, on version 4 of the
    example; proof sizes shown. *)
Example C29_C30_example : reached sha256 sha256 ex_ops ex_store /\
  map (fun k => (match get_with_proof sha256 ex_store k 4 with
                 | Ok (_, p) => Some (bool_decide (is_Some (p_leaf p)), length (p_siblings p)) | _ => None end))
    [ka; mk 0x30 0; mk 0x12 0x36] =
  [Some (true, 16%nat); Some (false, 3%nat); Some (false, 15%nat)].
Proof. split; [exact ex_reached|]. vm_compute. reflexivity. Qed.
Print Assumptions C29_inclusion_complete.
Print Assumptions C30_noninclusion_complete.

(** * C31, C32: a verifier that accepts a proof against the root of contents [m]
    learns the truth about [m], unless the hash collides on the strings hashed
    by the tree and the verifier. *)
Theorem C31_inclusion_sound sha hv m p k x :
  (forall k x, m !! k = Some x -> length k = 32%nat) -> length k = 32%nat -> wf_proof p ->
  good_hash sha (proof_inputs sha (p_leaf p) (p_siblings p) k ++ tree_inputs sha hv m) ->
  verify sha hv p (smt_root sha hv m) k (Some x) = Ok tt ->
  exists y, m !! k = Some y /\ hv y = hv x.
Proof.
  intros Hm Hk Hp Hg Hv. pose proof (verify_sound sha hv p m k (Some x) Hm Hk Hp Hg Hv) as H.
  destruct (m !! k) as [y|]; [|done]. cbn in H. injection H as H. by exists y.
Qed.
Theorem C32_noninclusion_sound sha hv m p k :
  (forall k x, m !! k = Some x -> length k = 32%nat) -> length k = 32%nat -> wf_proof p ->
  good_hash sha (proof_inputs sha (p_leaf p) (p_siblings p) k ++ tree_inputs sha hv m) ->
  verify sha hv p (smt_root sha hv m) k None = Ok tt -> m !! k = None.
Proof.
  intros Hm Hk Hp Hg Hv. pose proof (verify_sound sha hv p m k None Hm Hk Hp Hg Hv) as H. by destruct (m !! k).
Qed.
Definition ex_m : gmap bytes bytes := contents_at (history ex_ops) 4.
Definition ex_proof (k : bytes) : proof :=
  match get_with_proof sha256 ex_store k 4 with Ok (_, p) => p | _ => Proof None [] end.
Lemma good_hashb (l : list bytes) :
  inj_onb sha256 l && forallb (fun x => negb (bool_decide (sha256 x = spec_empty_hash))) l = true -> good_hash sha256 l.
Proof.
  intros [H1 H2]%andb_true_iff. split; [apply sha256_length|]. split; [by apply inj_onb_spec|].
  apply Forall_forall. intros x Hx%elem_of_list_In. rewrite forallb_forall in H2. specialize (H2 x Hx).
  by apply negb_true_iff, bool_decide_eq_false in H2.
Qed.
Lemma ex_m_wf k x : ex_m !! k = Some x -> length k = 32%nat.
Proof. apply contents_wf, ex_wf. Qed.
Example C31_example : wf_proof (ex_proof ka) /\
  good_hash sha256 (proof_inputs sha256 (p_leaf (ex_proof ka)) (p_siblings (ex_proof ka)) ka ++ tree_inputs sha256 sha256 ex_m) /\
  verify sha256 sha256 (ex_proof ka) (smt_root sha256 sha256 ex_m) ka (Some vb) = Ok tt.
Proof.
  split; [split; [apply Forall_forall; intros s Hs; revert s Hs; apply Forall_forall; vm_compute; repeat constructor|vm_compute; reflexivity]|].
  split; [apply good_hashb; vm_compute; reflexivity|vm_compute; reflexivity].
Qed.
Example C32_example : let k := mk 0x12 0x36 in wf_proof (ex_proof k) /\
  good_hash sha256 (proof_inputs sha256 (p_leaf (ex_proof k)) (p_siblings (ex_proof k)) k ++ tree_inputs sha256 sha256 ex_m) /\
  verify sha256 sha256 (ex_proof k) (smt_root sha256 sha256 ex_m) k None = Ok tt.
Proof.
  cbn zeta. split; [split; [vm_compute; repeat constructor|vm_compute; exact I]|].
  split; [apply good_hashb; vm_compute; reflexivity|vm_compute; reflexivity].
Qed.
Print Assumptions C31_inclusion_sound.
Print Assumptions C32_noninclusion_sound.

(** * C33: the recomputed root is the only one a proof verifies against. *)
Theorem C33_root_hash sha hv p lk x : p_leaf p = Some (lk, hv x) -> (length (p_siblings p) <= 256)%nat ->
  exists r, root_hash sha p = Ok r /\
    forall root, verify sha hv p root lk (Some x) = Ok tt <-> root = r.
Proof.
  intros Hl Hs. unfold root_hash. rewrite Hl. rewrite (proj2 (Nat.ltb_ge _ _)) by done. eexists. split; [reflexivity|].
  intros root. unfold verify. rewrite (proj2 (Nat.ltb_ge _ _)) by done. rewrite Hl. rewrite !decide_True by done. cbn [rbind].
  case_decide; split; intros; subst; done.
Qed.
Example C33_example : p_leaf (ex_proof ka) = Some (ka, sha256 vb) /\ length (p_siblings (ex_proof ka)) = 16%nat.
Proof. vm_compute. auto. Qed.
Print Assumptions C33_root_hash.

(** * C34: the leaf count. *)
Theorem C34_leaf_count sha hv ops s v : reached sha hv ops s -> low ops <= v < versions ops ->
  exists ks, get_leaf_count s v = Ok (Some (N.of_nat (length ks))) /\ NoDup ks /\
    forall k, k ∈ ks <-> is_Some (value_at k (history ops) v).
Proof.
  intros HR Hv. pose proof (reached_inv _ _ _ _ HR) as HS.
  destruct (key_list (contents_at (history ops) v)) as (ks & Hl & Hn & Hin). exists ks. split; [|split; [done|]].
  - by rewrite (leaf_count_ok sha hv s _ _ v HS Hv), Hl.
  - intros k. by rewrite Hin, contents_value.
Qed.
Example C34_example : reached sha256 sha256 ex_ops ex_store /\
  map (get_leaf_count ex_store) [1; 2; 3; 4] = [Ok (Some 2); Ok (Some 2); Ok (Some 2); Ok (Some 4)].
Proof. split; [exact ex_reached|]. vm_compute. reflexivity. Qed.
Print Assumptions C34_leaf_count.

(** * C39: pruning at [least] keeps every version from [least] on, and the
    newest one in any case. *)
Theorem C39_pruning_safe sha hv ops s least : reached sha hv ops s ->
  exists s', purge s least = Ok s' /\
    forall v k, low ops <= v < versions ops -> least <= v \/ v + 1 = versions ops -> length k = 32%nat ->
      obs sha s' v k = obs sha s v k.
Proof.
  intros HR. pose proof (reached_inv _ _ _ _ HR) as HS.
  destruct (purge_ok sha hv s _ _ least HS) as (s' & E & _). exists s'. split; [done|].
  intros v k Hv Hl Hk. apply (C23_earlier_versions_fixed sha hv ops [OpPurge least]); try done.
  - eapply reached_purge; done.
  - rewrite low_app. cbn [low_from op_low]. unfold versions in *. lia.
Qed.
Example C39_example : reached sha256 sha256 ex_ops ex_store /\
  match purge ex_store 3 with
  | Ok s' => (size (st_nodes ex_store), size (st_nodes s')) = (19, 13)%nat /\ get_root_hash sha256 s' 2 = Err (MissingRoot 2)
  | _ => False
  end.
Proof. split; [exact ex_reached|]. vm_compute. auto. Qed.
Print Assumptions C39_pruning_safe.

(** * C40: what is left after pruning is needed by a version that is kept ... *)
Theorem C40_pruning_complete_partial sha hv ops s least s' : reached sha hv ops s -> purge s least = Ok s' ->
  0 < versions ops ->
  forall nk nd, st_nodes s' !! nk = Some nd -> snd nk <> [] ->
  exists u, (N.min least (versions ops - 1) <= u < versions ops) /\ reach (st_nodes s') (u, []) nk.
Proof.
  intros HR E Hpos nk nd Hnk Hq. pose proof (reached_purge sha hv ops s least s' HR E) as HR'.
  pose proof (reached_inv _ _ _ _ HR') as HS'.
  destruct (pruned_reach sha hv s' _ _ nk nd HS' Hnk Hq) as (u & Hu & Hr). exists u. split; [|done].
  rewrite low_app in Hu. cbn [low_from op_low] in Hu. unfold versions in *.
  rewrite history_app, history_purge, app_nil_r in Hu. lia.
Qed.
Example C40_example : reached sha256 sha256 ex_ops ex_store /\
  (exists s', purge ex_store 3 = Ok s') /\ 0 < versions ex_ops.
Proof.
  split; [exact ex_reached|]. split; [|vm_compute; reflexivity].
  destruct (purge_ok sha256 sha256 ex_store _ _ 3 (reached_inv _ _ _ _ ex_reached)) as (s' & E & _). by exists s'.
Qed.
Print Assumptions C40_pruning_complete_partial.
(** ... except for roots: the empty root written by a deletion is never stale. *)
Theorem C40_pruning_complete_refuted : exists ops least, forall sha hv, exists s s' nk,
  reached sha hv ops s /\ purge s least = Ok s' /\ versions ops = least + 1 /\ is_Some (st_nodes s' !! nk) /\
  forall u, least <= u -> ~ reach (st_nodes s') (u, []) nk.
Proof.
  exists [OpPut [[(ka, Some va)]; [(ka, None)]; [(ka, Some vb)]]], 2. intros sha hv.
  assert (W : wf_ops [OpPut [[(ka, Some va)]; [(ka, None)]; [(ka, Some vb)]]])
    by wf.
  destruct (run_ok sha hv _ W) as (s & E & HS). destruct (purge_ok sha hv s _ _ 2 HS) as (s' & E' & _).
  exists s, s', (1, []). split; [exact (conj W E)|]. split; [done|]. split; [vm_compute; reflexivity|].
  assert (H : on_run sha hv [OpPut [[(ka, Some va)]; [(ka, None)]; [(ka, Some vb)]]] (fun s =>
      match purge s 2 with
      | Ok s' => map_to_list (st_nodes s') = [((1, []), NNull); ((2, []), NLeaf ka (hv vb))]
      | _ => False end)) by (vm_compute; reflexivity).
  apply (on_run_elim _ _ _ _ _ H) in E. rewrite E' in E. clear H. rename E into H.
  assert (forall nk nd, st_nodes s' !! nk = Some nd <-> (nk, nd) = ((1, []), NNull) \/ (nk, nd) = ((2, []), NLeaf ka (hv vb))) as Hn.
  { intros nk nd. rewrite <-elem_of_map_to_list, H, elem_of_cons, elem_of_list_singleton. done. }
  split; [exists NNull; apply Hn; by left|].
  intros u Hu Hr. assert ((1, []) = (u, []) :> nkey) as [= <-]; [|lia].
  induction Hr as [|nk n i c _ _ Hnk _]; [done|]. apply Hn in Hnk as [?|?]; done.
Qed.
Print Assumptions C40_pruning_complete_refuted.

(** * C41: the next update always succeeds, writes only new node keys, and
    never marks a node stale that is already marked. *)
Theorem C41_updates_succeed sha hv ops s (sets : list (list write)) : reached sha hv ops s -> wf_sets sets ->
  versions ops + N.of_nat (length sets) <= u64_max ->
  exists roots b s', put_value_sets sha hv s sets (versions ops) = Ok (roots, b) /\ write_batch s b = Ok s' /\
    reached sha hv (ops ++ [OpPut sets]) s' /\
    (forall nk, is_Some (b_nodes b !! nk) -> st_nodes s !! nk = None) /\
    (forall t t' nk, (t, nk) ∈ b_stale b ∪ st_stale s -> (t', nk) ∈ b_stale b ∪ st_stale s -> t = t') /\
    (forall t nk, (t, nk) ∈ b_stale b -> forall t', (t', nk) ∉ st_stale s).
Proof.
  intros HR Hw Hm. pose proof (reached_inv _ _ _ _ HR) as HS. unfold versions in *.
  destruct (call_ok sha hv s _ _ sets HS Hw) as (roots & b & s' & E & E' & HS' & HC & Hn & Hst & Hd & Hds).
  { rewrite app_length. lia. }
  destruct (si_hist _ _ _ _ _ HS') as [vs HH]. rewrite Hst in HH.
  pose proof (hi_uniq _ _ _ _ _ _ _ _ HH) as Hu.
  exists roots, b, s'. split; [done|]. split; [done|]. split; [by eapply reached_put|]. split; [|split].
  - intros nk [nd Hnk]. by eapply map_disjoint_Some_l.
  - intros t t' nk. apply Hu.
  - intros t nk Hin t' Hin'. assert (t = t') as <- by (apply (Hu t t' nk); set_solver). set_solver.
Qed.
Example C41_example : reached sha256 sha256 ex_ops ex_store /\ wf_sets [[(ka, None); (kc, Some vb)]; [(ka, Some va)]] /\
  size (st_stale ex_store) = 10%nat.
Proof. split; [exact ex_reached|]. split; [apply wf_setsb; vm_compute; reflexivity|vm_compute; reflexivity]. Qed.
Print Assumptions C41_updates_succeed.

(** * C42: the statistics count what the batch records. *)
Theorem C42_statistics sha hv ops s (sets : list (list write)) roots b : reached sha hv ops s -> wf_sets sets ->
  versions ops + N.of_nat (length sets) <= u64_max ->
  put_value_sets sha hv s sets (versions ops) = Ok (roots, b) ->
  length (b_stats b) = length sets /\
  forall i st, b_stats b !! i = Some st ->
    st = counted (b_nodes b ∪ st_nodes s) (b_nodes b) (b_stale b) (versions ops + N.of_nat i).
Proof.
  intros HR Hw Hm E. pose proof (reached_inv _ _ _ _ HR) as HS. unfold versions in *.
  destruct (call_ok sha hv s _ _ sets HS Hw) as (roots' & b' & s' & E1 & _ & _ & HC & _); [rewrite app_length; lia|].
  rewrite E in E1. injection E1 as <- <-. split; [apply (ca_stats_len _ _ _ _ _ _ _ HC)|].
  intros i st Hi. rewrite (ca_stats _ _ _ _ _ _ _ HC i st Hi). f_equal. lia.
Qed.
Example C42_example : reached sha256 sha256 ex_ops ex_store /\
  match put_value_sets sha256 sha256 ex_store [[(ka, None); (kb, Some vb)]; []] 5 with
  | Ok (_, b) => b_stats b = [Stats 4 1 6 2; Stats 1 0 0 0] | _ => False end.
Proof. split; [exact ex_reached|]. vm_compute. reflexivity. Qed.
Print Assumptions C42_statistics.

(** * C43: writing at a later version than the next one loses the contents: the
    call succeeds, but the new tree holds only the update, and reads without and
    with a proof disagree. *)
Theorem C43_version_gap_refuted : exists ops kvs v, forall sha hv, exists s r b s',
  reached sha hv ops s /\ versions ops < v /\ latest (history ops) = {[ka := va]} /\ kvs = [(kc, Some vb)] /\
  put_value_set sha hv s kvs v = Ok (r, b) /\ write_batch s b = Ok s' /\
  r = smt_root sha hv {[kc := vb]} /\ get_leaf_count s' v = Ok (Some 1) /\
  trie_get s' ka v = Some va /\ (exists p, get_with_proof sha s' ka v = Ok (None, p)).
Proof.
  exists [OpPut [[(ka, Some va)]]], [(kc, Some vb)], 5. intros sha hv.
  assert (W : wf_ops [OpPut [[(ka, Some va)]]])
    by wf.
  destruct (run_ok sha hv _ W) as (s & E & HS).
  assert (H : on_run sha hv [OpPut [[(ka, Some va)]]] (fun s =>
      match put_value_set sha hv s [(kc, Some vb)] 5 with
      | Ok (r, b) => match write_batch s b with
        | Ok s' => r = smt_root sha hv {[kc := vb]} /\ get_leaf_count s' 5 = Ok (Some 1) /\
            trie_get s' ka 5 = Some va /\ match get_with_proof sha s' ka 5 with Ok (x, _) => x = None | _ => False end
        | _ => False end
      | _ => False end)) by (vm_compute; auto).
  apply (on_run_elim _ _ _ _ _ H) in E as H0. clear H. rename H0 into H. destruct (put_value_set sha hv s [(kc, Some vb)] 5) as [[r b]| | |] eqn:E1; try done.
  destruct (write_batch s b) as [s'| | |] eqn:E2; try done. destruct H as (H1 & H2 & H3 & H4).
  exists s, r, b, s'. split; [exact (conj W E)|]. split; [vm_compute; reflexivity|].
  split; [apply (bool_decide_unpack _); vm_compute; exact I|].
  split_and!; try done. destruct (get_with_proof sha s' ka 5) as [[x p]| | |]; try done. subst x. by exists p.
Qed.
Print Assumptions C43_version_gap_refuted.
(** With an empty first set even the root of the version just written is missing. *)
Theorem C43_first_gap_refuted : exists v, forall sha hv, exists r b s',
  put_value_set sha hv empty_store [] v = Ok (r, b) /\ write_batch empty_store b = Ok s' /\
  r = spec_empty_hash /\ get_root_hash sha s' v = Err (MissingRoot v).
Proof.
  exists 5. intros sha hv.
  assert (H : match put_value_set sha hv empty_store [] 5 with
      | Ok (r, b) => match write_batch empty_store b with
        | Ok s' => r = spec_empty_hash /\ get_root_hash sha s' 5 = Err (MissingRoot 5)
        | _ => False end
      | _ => False end) by (vm_compute; auto).
  destruct (put_value_set sha hv empty_store [] 5) as [[r b]| | |] eqn:E1; try done.
  destruct (write_batch empty_store b) as [s'| | |] eqn:E2; try done. by exists r, b, s'.
Qed.
Print Assumptions C43_first_gap_refuted.

(** * C48: the value histories of the store. *)
Theorem C48_value_history vals :
  (in_order vals -> exists h, hist_puts vals ∅ = Ok h /\
     forall k max, st_get_value_option (Store ∅ ∅ h false) max k = newest k max vals) /\
  (~ in_order vals -> hist_puts vals ∅ = Err ValuesOutOfOrder).
Proof.
  destruct (hist_puts_repr vals) as [(Ho & h & E & Hr)|[Ho E]]; split; intros H; try done.
  exists h. split; [done|]. intros k max. rewrite <-(rp_find _ _ Hr). unfold st_get_value_option. cbn [st_hist].
  reflexivity.
Qed.
Example C48_example : in_order [(0, ka, Some va); (3, kb, Some vb); (2, ka, None); (2, ka, Some vb); (7, ka, None)] /\
  map (fun v => newest ka v [(0, ka, Some va); (3, kb, Some vb); (2, ka, None); (2, ka, Some vb); (7, ka, None)]) [1; 2; 6; 9] =
    [Some va; Some vb; Some vb; None] /\
  ~ in_order [(2, ka, Some va); (1, kb, None); (1, ka, Some vb)].
Proof.
  split_and!.
  - set (vals := [(0, ka, Some va); (3, kb, Some vb); (2, ka, None); (2, ka, Some vb); (7, ka, None)]).
    destruct (hist_puts_repr vals) as [[H _]|[_ E]]; [exact H|exfalso].
    assert (C : (match hist_puts vals ∅ with Ok _ => true | _ => false end) = true) by (vm_compute; reflexivity).
    rewrite E in C. discriminate C.
  - vm_compute. reflexivity.
  - intros H. specialize (H [] [(1, kb, None)] [] ka 2 1 (Some va) (Some vb) eq_refl). lia.
Qed.
Print Assumptions C48_value_history.

(** * C53: verification never panics and rejects oversized proofs; the range
    proof verifier does panic on them, and so does the root recomputation on a
    proof without a leaf. *)
Theorem C53_verify_total sha hv p root k x :
  (verify sha hv p root k x = Ok tt \/ exists e, verify sha hv p root k x = Err e) /\
  ((256 < length (p_siblings p))%nat -> verify sha hv p root k x = Err TooManySiblings).
Proof.
  unfold verify. destruct (Nat.ltb_spec 256 (length (p_siblings p))) as [Hl|Hl]; [eauto|]. split; [|lia].
  match goal with |- rbind ?a _ = _ \/ _ => assert (a = Ok tt \/ exists e, a = Err e) as [->|[e ->]] end.
  { destruct x, (p_leaf p) as [[]|]; repeat case_match; eauto. }
  - cbn [rbind]. case_decide; eauto.
  - eauto.
Qed.
Theorem C53_range_verify_total_partial sha right root leaf left : (length left + length right <= 256)%nat ->
  range_verify sha right root leaf left = Ok tt \/ exists e, range_verify sha right root leaf left = Err e.
Proof.
  intros Hl. unfold range_verify. rewrite (proj2 (Nat.ltb_ge _ _)) by done.
  assert (forall bits cur l r, (exists h, range_fold sha cur bits l r = Ok h) \/ exists e, range_fold sha cur bits l r = Err e) as H.
  { induction bits as [|[] bits IH]; intros cur l r; cbn [range_fold]; [eauto| |].
    - destruct l; [eauto|apply IH].
    - destruct r; [eauto|apply IH]. }
  edestruct H as [[h ->]|[e ->]]; cbn [rbind]; [|eauto]. case_decide; eauto.
Qed.
Theorem C53_range_verify_total_refuted : exists right, forall sha root leaf left,
  range_verify sha right root leaf left = Panic.
Proof.
  exists (replicate 257 []). intros sha root leaf left. unfold range_verify.
  rewrite (proj2 (Nat.ltb_lt _ _)) by (rewrite replicate_length; lia). done.
Qed.
Theorem C53_root_hash_total_refuted : exists p, forall sha, root_hash sha p = Panic.
Proof. exists (Proof None []). reflexivity. Qed.
Example C53_example : (length (p_siblings (ex_proof ka)) <= 256)%nat /\
  verify sha256 sha256 (ex_proof ka) (smt_root sha256 sha256 ex_m) ka (Some va) = Err ValueMismatch /\
  verify sha256 sha256 (ex_proof ka) (smt_root sha256 sha256 ex_m) kb (Some vb) = Err KeyMismatch /\
  verify sha256 sha256 (ex_proof ka) spec_empty_hash ka (Some vb) = Err RootMismatch.
Proof. split; [apply Nat.leb_le; vm_compute; reflexivity|]. vm_compute. auto. Qed.
Print Assumptions C53_verify_total.
Print Assumptions C53_range_verify_total_partial.
Print Assumptions C53_range_verify_total_refuted.
Print Assumptions C53_root_hash_total_refuted.

(** * C54: store-wide counts. *)
Theorem C54_store_counts sha hv ops s : reached sha hv ops s ->
  (exists ks, length ks = db_len s /\ NoDup ks /\ forall k, k ∈ ks <-> exists x, last_write k (history ops) = Some (Some x)) /\
  (db_is_empty s = true <-> db_len s = 0%nat) /\
  (forall v ws, history ops !! v = Some ws -> ws <> [] -> N.of_nat v <= db_version s) /\
  (db_version s = 0 \/ exists ws, history ops !! N.to_nat (db_version s) = Some ws /\ ws <> []).
Proof.
  intros HR. pose proof (si_vals _ _ _ _ _ (reached_inv _ _ _ _ HR)) as Hv. split; [|split].
  - destruct (key_list (latest (history ops))) as (ks & Hl & Hn & Hin). exists ks. split; [|split; [done|]].
    + by rewrite (db_len_ok s _ Hv), Hl.
    + intros k. rewrite Hin. unfold latest. rewrite fold_sets_lookup, lookup_empty.
      destruct (last_write k (history ops)) as [[x|]|]; split; intros [? ?]; try done; try by eexists.
  - unfold db_is_empty. apply Nat.eqb_eq.
  - by apply db_version_ok.
Qed.
Example C54_example : reached sha256 sha256 ex_ops ex_store /\ db_len ex_store = 4%nat /\ db_version ex_store = 4.
Proof. split; [exact ex_reached|]. vm_compute. auto. Qed.
Print Assumptions C54_store_counts.
(** It is not the version of the newest root: an empty set leaves it behind. *)
Theorem C54_version_of_root_refuted : exists ops, forall sha hv, exists s r,
  reached sha hv ops s /\ get_root_hash sha s 1 = Ok r /\ db_version s = 0.
Proof.
  exists [OpPut [[(ka, Some va)]; []]]. intros sha hv.
  assert (W : wf_ops [OpPut [[(ka, Some va)]; []]])
    by wf.
  destruct (run_ok sha hv _ W) as (s & E & HS). exists s. eexists. split; [exact (conj W E)|].
  split; [apply (root_ok sha hv s _ _ 1 HS); vm_compute; split; [discriminate|reflexivity]|].
  assert (H : on_run sha hv [OpPut [[(ka, Some va)]; []]] (fun s => db_version s = 0)) by (vm_compute; reflexivity).
  exact (on_run_elim _ _ _ _ _ H E).
Qed.
Print Assumptions C54_version_of_root_refuted.
