(** C81: a commit that fails in the database. *)
From Verif Require Import Base PmtNibblesModel RlpModel PmtModel PmtFailModel PmtRunSpec KeccakModel
  PmtNibblesProof RlpProof PmtSpec PmtEncProof PmtLookupProof PmtOpsProof PmtDeleteProof PmtCommitProof PmtRunProof
  PmtStepProof PmtPropProof PmtExamples.
Open Scope res_scope.

Lemma commit_pending keccak d t d' t' r h : light d = false -> commit keccak d t = (d', t', Ok r) ->
  storage d' !! h = match pending keccak t !! h with Some e => Some e | None => storage d !! h end.
Proof.
  intros Hl. unfold commit, pending. destruct (write_node keccak _ _) as [[cache gen] [e|e| |]]; [|intros H; by inversion H..].
  destruct e as [h0|data]; rewrite remove_batch_archive by (by rewrite (proj1 (insert_batch_storage _ _)));
    destruct (recover_from_db _ _) as [[n|]|e| |]; intros H; try (by inversion H); injection H as <- _ _; apply flush_lookup.
Qed.

Lemma failing_storage keccak order n d t h : light d = false -> order ≡ₚ map_to_list (pending keccak t) ->
  light (commit_failing keccak order n d t).1 = false /\
  (storage (commit_failing keccak order n d t).1 !! h = storage d !! h \/
   exists e, pending keccak t !! h = Some e /\ storage (commit_failing keccak order n d t).1 !! h = Some e).
Proof.
  intros Hl Ho. unfold commit_failing. cbn [fst].
  destruct (insert_batch_storage d (take n order)) as [El Es].
  rewrite remove_batch_archive by congruence. split; [congruence|].
  assert (NoDup (order.*1)) as Hnd by (rewrite Ho; apply NoDup_fst_map_to_list).
  assert (NoDup (take n order).*1) as Hnd'.
  { rewrite fmap_take. rewrite <- (take_drop n (order.*1)) in Hnd. by apply NoDup_app in Hnd as [? _]. }
  rewrite Es, fold_insert_lookup by done.
  destruct ((list_to_map (take n order) : gmap bytes bytes) !! h) as [e|] eqn:E; [|by left].
  right. exists e. split; [|done]. apply elem_of_list_to_map_2 in E. apply elem_of_map_to_list. rewrite <- Ho.
  rewrite <- (take_drop n order). apply elem_of_app. by left.
Qed.

(** * C81: after a commit has failed in the database the trie, every other view
    and every committed root read as before and every later call returns what it
    would have returned; a commit tried again gives the root hash the first one
    would have given. *)
Theorem C81_failed_commit keccak x ops w s i v m order n d1 v1 : hash32 keccak -> reaches keccak x ops w s ->
  w_views w !! i = Some v -> s_views s !! i = Some m -> commit_collision_free keccak w v ->
  order ≡ₚ map_to_list (pending keccak v) -> commit_failing keccak order n (w_db w) v = (d1, v1) ->
  let w1 := World d1 (<[i := v1]> (w_views w)) (w_roots w) (w_trace w ++ hashed_root keccak (t_root v)) in
  (forall x2 ops2, Forall op_short ops2 -> inj_on keccak (w_trace (run keccak x2 w1 ops2).2) ->
     outs_ok false s ops2 (run keccak x2 w1 ops2).1) /\
  exists d2 d3 v2 r, commit keccak (w_db w) v = (d2, v2, Ok r) /\ commit keccak d1 v1 = (d3, v2, Ok r).
Proof.
  intros Hk Hr Hv Hm Hcf Ho Hf w1. pose proof (reaches_inv keccak Hk false _ _ _ _ Hr ltac:(done)) as Hinv.
  pose proof (inv_view keccak _ _ _ _ _ _ Hinv Hv Hm) as Hvm. destruct Hinv as [Hl Hd Hvs Hrs].
  unfold commit_collision_free in Hcf. set (T' := w_trace w ++ hashed_root keccak (t_root v)) in *.
  destruct Hvm as (t & Hrt & Hw & Hh & Hc).
  destruct (commit_exact keccak Hk false (w_db w) (w_trace w) v t Hl Hd Hrt Hw Hc Hcf)
    as (d2 & E & Hl2 & Hs2 & Hk2 & _). fold T' in Hk2.
  assert (Hl1 : light d1 = false).
  { pose proof (failing_storage keccak order n (w_db w) v [] Hl Ho) as [H _]. by rewrite Hf in H. }
  assert (Hst : forall h, storage d1 !! h = storage (w_db w) !! h \/
    exists e, pending keccak v !! h = Some e /\ storage d1 !! h = Some e).
  { intros h. pose proof (failing_storage keccak order n (w_db w) v h Hl Ho) as [_ H]. by rewrite Hf in H. }
  assert (Hp : forall h e, pending keccak v !! h = Some e -> storage d2 !! h = Some e).
  { intros h e He. rewrite (commit_pending _ _ _ _ _ _ h Hl E). by rewrite He. }
  assert (Hsub : storage (w_db w) ⊆ storage d1).
  { apply map_subseteq_spec. intros h e He. destruct (Hst h) as [->|(e' & He' & ->)]; [done|].
    apply Hp in He'. pose proof (lookup_weaken _ _ _ _ He Hs2). congruence. }
  assert (HT : forall e, e ∈ w_trace w -> e ∈ T') by (intros; apply elem_of_app; auto).
  assert (Hd1 : keyed keccak T' (storage d1)).
  { intros h e He. destruct (Hst h) as [Eq|(e' & He' & Eq)]; rewrite Eq in He.
    - destruct (Hd h e He). auto.
    - injection He as <-. apply Hk2. by apply Hp. }
  assert (Hv1 : t_root v1 = t_root v /\ t_cache v1 = ∅).
  { unfold commit_failing in Hf. by injection Hf as <- <-. }
  destruct Hv1 as [Ert Ec].
  assert (Hc1 : keyed keccak T' (t_cache v1)).
  { rewrite Ec. intros h e He. by rewrite lookup_empty in He. }
  assert (Hrt1 : rrepr keccak true d1 (t_root v1) t) by (rewrite Ert; by eapply rrepr_mono).
  split.
  - intros x2 ops2 Hs Hi. apply (run_inv keccak Hk false x2 w1 s ops2); [|done|done|done].
    split; cbn; [done|done| |].
    + rewrite <- (list_insert_id (s_views s) i m Hm). apply Forall2_insert.
      * eapply Forall2_impl; [exact Hvs|]. intros ??. by apply view_ok_mono.
      * exists t. done.
    + eapply Forall2_impl; [exact Hrs|]. intros ??. by apply root_ok_mono.
  - destruct (commit_exact keccak Hk false d1 T' v1 t Hl1 Hd1 Hrt1 Hw Hc1) as (d3 & E3 & _).
    + rewrite Ert. eapply inj_on_sub; [|exact Hcf]. intros e. unfold T'. rewrite !elem_of_app. tauto.
    + eauto 10.
Qed.
Print Assumptions C81_failed_commit.

(** Two keys removed and overwritten after a commit; the second of the entries
    cannot be written. *)
Definition fail_ops : list op := take 9 ex_ops.
Definition fail_world : world := (run keccak256 0 (world0 keccak256) fail_ops).2.
Definition fail_view : trie := default (new_trie keccak256) (w_views fail_world !! 0).
Definition fail_order : list (bytes * bytes) := map_to_list (pending keccak256 fail_view).
Definition fail_cut : db * trie := commit_failing keccak256 fail_order 1 (w_db fail_world) fail_view.
Example C81_example : reaches keccak256 0 fail_ops fail_world (srun spec0 fail_ops) /\
  w_views fail_world !! 0 = Some fail_view /\ s_views (srun spec0 fail_ops) !! 0 = Some {[k1 := v40 7; k3 := hexs [9]%N]} /\
  commit_collision_free keccak256 fail_world fail_view /\
  length fail_order = 3 /\ size (storage fail_cut.1) = S (size (storage (w_db fail_world))) /\
  get (fuel_for 0 k1) fail_cut.1 fail_cut.2 k1 = Ok (Some (v40 7)) /\
  (exists h, (commit keccak256 fail_cut.1 fail_cut.2).2 = Ok h /\ (commit keccak256 (w_db fail_world) fail_view).2 = Ok h).
Proof.
  split.
  { unfold reaches, fail_world. split; [apply eq_refl|]. split; [apply eq_refl|].
    split; [apply op_shortb_spec; vm_compute; reflexivity|]. apply inj_onb_spec. vm_compute. reflexivity. }
  split; [vm_compute; reflexivity|]. split; [apply (bool_decide_unpack _); vm_compute; exact I|].
  split; [apply inj_onb_spec; vm_compute; reflexivity|].
  split; [vm_compute; reflexivity|]. split; [vm_compute; reflexivity|]. split; [vm_compute; reflexivity|].
  eexists. split; vm_compute; reflexivity.
Qed.

(** * C82: over a pruning database a commit that fails while it removes the
    replaced nodes has made the last committed root unreadable, and the caller
    has not been told the new one. *)
Definition light_world (ops : list op) : world := (run keccak256 0 (World (db_new true) [new_trie keccak256] [] []) ops).2.
Definition pruned_ops : list op :=
  [OAct 0 (AInsert k1 (v40 5)); OAct 0 (AInsert k2 (v40 6)); OAct 0 ACommit; OAct 0 (AInsert k1 (v40 7))].
Theorem C82_failed_pruning_refuted : exists v m n d1 v1 root h, let w := light_world pruned_ops in
  Forall op_short pruned_ops /\ inj_on keccak256 (w_trace w) /\ commit_collision_free keccak256 w v /\
  w_views w !! 0 = Some v /\ w_roots w !! 0 = Some root /\ s_roots (srun spec0 pruned_ops) !! 0 = Some m /\
  commit_failing keccak256 (map_to_list (pending keccak256 v)) n (w_db w) v = (d1, v1) /\
  get (fuel_for 0 k2) (w_db w) (at_root root) k2 = Ok (m !! k2) /\
  get (fuel_for 0 k2) d1 (at_root root) k2 = Err (MissingTrieNode h (Some [0; 1; 0; 2]) (Some root) (Some k2)).
Proof.
  exists (default (new_trie keccak256) (w_views (light_world pruned_ops) !! 0)), {[k1 := v40 5; k2 := v40 6]},
    (length (map_to_list (pending keccak256 (default (new_trie keccak256) (w_views (light_world pruned_ops) !! 0)))) + 2).
  eexists _, _, (default [] (w_roots (light_world pruned_ops) !! 0)), _. cbn zeta.
  split; [apply op_shortb_spec; vm_compute; reflexivity|].
  split; [apply inj_onb_spec; vm_compute; reflexivity|].
  split; [apply inj_onb_spec; vm_compute; reflexivity|].
  split; [vm_compute; reflexivity|]. split; [vm_compute; reflexivity|].
  split; [apply (bool_decide_unpack _); vm_compute; exact I|].
  split; [apply surjective_pairing|].
  split; [vm_compute; reflexivity|]. vm_compute. reflexivity.
Qed.
Print Assumptions C82_failed_pruning_refuted.
