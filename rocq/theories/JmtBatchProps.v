(** Batch insertion (C27). *)
From Verif Require Import Base KeccakModel Sha256Model JmtNibModel JmtSpec JmtModel JmtBatchModel JmtAbsProof JmtCacheProof
  JmtPutProof JmtHistProof JmtValueProof JmtRunSpec JmtRunProof JmtPropProof JmtBatchListProof JmtBatchProof JmtBatchRunProof
  JmtExamples JmtProps.
Local Open Scope N_scope.

(** Every value present. *)
Definition all_present (sets : list (list (bytes * bytes))) : list (list write) :=
  map (map (fun kv => (fst kv, Some (snd kv)))) sets.
Definition wf_batch (sets : list (list (bytes * bytes))) : Prop :=
  Forall (fun kvs => kvs <> [] /\ Forall (fun kv => length (fst kv) = 32%nat) kvs) sets.
(** A list of hash caches that names the hash of every node of the batch but the
    roots. *)
Definition names_hashes (sha : bytes -> bytes) (b : batch) (first : N) (hs : list (gmap path bytes)) : Prop :=
  forall i c q nd h, hs !! i = Some c -> q <> [] -> b_nodes b !! (first + N.of_nat i, q) = Some nd ->
    node_hash sha nd = Ok h -> c !! q = Some h.

Lemma wf_batch_sets sets : wf_batch sets -> wf_sets (all_present sets).
Proof.
  intros H. apply Forall_map. eapply Forall_impl; [exact H|]. intros kvs [_ Hk]. apply Forall_map.
  eapply Forall_impl; [exact Hk|]. done.
Qed.
Lemma batch_ok sha hv ops s sets hcs : reached sha hv ops s -> wf_batch sets -> length hcs = length sets ->
  (Forall (fun hc => hc = None) hcs \/
   (versions ops + N.of_nat (length sets) <= u64_max /\
    forall tc, put_sets sha hv (versions ops) (all_present sets) (cache_new s (versions ops)) = Ok tc ->
      hash_ok sha (versions ops) tc hcs)) ->
  batch_sets sha hv (versions ops) sets hcs (cache_new s (versions ops)) =
  put_sets sha hv (versions ops) (all_present sets) (cache_new s (versions ops)).
Proof.
  intros HR Hwf Hlen Hh. pose proof (reached_inv _ _ _ _ HR) as HS.
  pose proof (start_ok sha hv s (history ops) (low ops) [] HS) as HL. unfold versions in *.
  destruct (lp_cur _ _ _ _ _ _ _ _ _ _ HL) as (old & ver & vs & _ & HC). cbn [length fold_left] in HC.
  pose proof (cu_inv _ _ _ _ _ _ _ _ _ HC) as HP. rewrite N.add_0_r in HP.
  set (n := N.of_nat (length (history ops))) in *.
  eapply (batch_sets_ok sha hv); [exact HP| |done|..|exact Hh].
  - intros HM. unfold cache_new. destruct (n =? 0) eqn:En.
    + destruct (st_nodes s !! (pre_genesis, [])) as [nd|] eqn:E.
      * unfold tc_get_option. cbn. rewrite !lookup_empty, E. by eexists.
      * unfold tc_get_option. cbn. rewrite lookup_singleton. by eexists.
    + destruct (pi_state _ _ _ _ _ _ HP) as [(X & _)|(_ & _ & _ & X)]; [done|].
      unfold cache_new in X. rewrite En in X. cbn [tc_root fst] in X.
      apply N.eqb_neq in En. specialize (X ltac:(lia)). unfold onodes in X. cbn in X.
      rewrite (left_id_L ∅ (∪)) in X. unfold tc_get_option. cbn. rewrite !lookup_empty, X. by eexists.
  - eapply Forall_impl; [exact Hwf|]. by intros ? [? ?].
  - eapply Forall_impl; [exact Hwf|]. by intros ? [? ?].
Qed.

(** Without hash caches the batch call and the one-by-one call return the same
    result: roots, nodes, values, stale nodes and statistics, or the same
    failure. *)
Theorem C27_batch_equals_puts sha hv ops s sets : reached sha hv ops s -> wf_batch sets ->
  batch_put_value_sets sha hv s sets None (versions ops) = put_value_sets sha hv s (all_present sets) (versions ops).
Proof.
  intros HR Hwf. unfold batch_put_value_sets, put_value_sets. rewrite (batch_ok sha hv ops s sets); [done|done|done|by rewrite map_length|].
  left. apply Forall_map, Forall_forall. done.
Qed.
(** So the store after the batch is a store of an execution: the roots are those
    of the sparse Merkle tree over the contents, and reads return the values of
    the batch. *)
Theorem C27_batch_contents sha hv ops s sets : reached sha hv ops s -> wf_batch sets ->
  versions ops + N.of_nat (length sets) <= u64_max ->
  exists roots b s', batch_put_value_sets sha hv s sets None (versions ops) = Ok (roots, b) /\
    write_batch s b = Ok s' /\ reached sha hv (ops ++ [OpPut (all_present sets)]) s' /\
    length roots = length sets /\
    (forall i r, roots !! i = Some r ->
       r = smt_root sha hv (contents_at (history ops ++ all_present sets) (versions ops + N.of_nat i))) /\
    (forall v k, low ops <= v < versions ops + N.of_nat (length sets) -> length k = 32%nat ->
       exists p, get_with_proof sha s' k v = Ok (value_at k (history ops ++ all_present sets) v, p)).
Proof.
  intros HR Hwf Hmax. pose proof (wf_batch_sets _ Hwf) as Hws. pose proof (reached_inv _ _ _ _ HR) as HS.
  assert (length (all_present sets) = length sets) as Hl by apply map_length.
  destruct (call_ok sha hv s (history ops) (low ops) (all_present sets) HS Hws) as (roots & b & s' & E & Ew & _).
  { rewrite app_length, Hl. unfold versions in Hmax. lia. }
  fold (versions ops) in E.
  assert (history (ops ++ [OpPut (all_present sets)]) = history ops ++ all_present sets) as Hh
    by (by rewrite history_app, history_put).
  assert (reached sha hv (ops ++ [OpPut (all_present sets)]) s') as HR'.
  { destruct HR as [[Hw1 Hw2] Hr]. split.
    - split; rewrite Hh; [apply Forall_app; by split|]. rewrite app_length, Hl. unfold versions in Hmax. lia.
    - unfold run. rewrite (run_from_app sha hv ops). unfold run in Hr. rewrite Hr. cbn [rbind run_from].
      rewrite N.add_0_l. fold (versions ops). cbn [run_op]. rewrite E. cbn [rbind]. rewrite Ew. done. }
  exists roots, b, s'. rewrite (C27_batch_equals_puts sha hv ops s sets HR Hwf).
  pose proof (proj2 (C24_root_is_smt_root sha hv ops s HR) _ _ _ Hws ltac:(lia) E) as [H1 H2].
  split_and!; [done|done|done|lia|done|].
  intros v k Hv Hk. eexists. pose proof (obs_ok sha hv _ s' v k HR') as Ho. rewrite Hh in Ho.
  assert (low (ops ++ [OpPut (all_present sets)]) = low ops) as Hlow by (by rewrite low_app).
  rewrite Hlow in Ho. unfold versions in Ho. rewrite Hh, app_length, Hl in Ho. unfold versions in Hv.
  specialize (Ho ltac:(lia) Hk). unfold obs in Ho. injection Ho as _ _ _ ->.
  by rewrite contents_value.
Qed.
(** With hash caches that name the right hashes the result is the same too. *)
Theorem C27_batch_with_hashes sha hv ops s sets hs roots b : reached sha hv ops s -> wf_batch sets ->
  versions ops + N.of_nat (length sets) <= u64_max -> length hs = length sets ->
  put_value_sets sha hv s (all_present sets) (versions ops) = Ok (roots, b) ->
  names_hashes sha b (versions ops) hs ->
  batch_put_value_sets sha hv s sets (Some hs) (versions ops) = Ok (roots, b).
Proof.
  intros HR Hwf Hmax Hlen E Hn. unfold put_value_sets in E. unfold batch_put_value_sets.
  rewrite (batch_ok sha hv ops s sets); [done|done|done|by rewrite map_length|].
  right. split; [done|]. intros tc Etc. rewrite Etc in E. cbn [rbind] in E. unfold batch_of in E.
  injection E as _ <-. intros i c Hc q nd h Hq Hnd Hh.
  change (map Some hs) with (Some <$> hs) in Hc. rewrite list_lookup_fmap in Hc.
  destruct (hs !! i) as [c'|] eqn:Ec; [|done]. cbn in Hc. injection Hc as ->.
  by apply (Hn i c q nd h Ec Hq).
Qed.

(** Two sets on a tree of several versions: an update of a leaf, a key that
    splits it, a key twice; then keys under one another. *)
Definition ex_sets : list (list (bytes * bytes)) :=
  [[(kd, va); (kb, va); (mk 0x90 1, vb); (kd, vc)]; [(ka, vc); (kc, vb); (mk 0x12 0x36, va)]].
Lemma ex_sets_wf : wf_batch ex_sets.
Proof. repeat constructor; done. Qed.
Definition hashes_at (sha : bytes -> bytes) (b : batch) (v : N) : gmap path bytes :=
  list_to_map (omap (fun e : nkey * node =>
    if decide (fst (fst e) = v) then match node_hash sha (snd e) with Ok h => Some (snd (fst e), h) | _ => None end
    else None) (map_to_list (b_nodes b))).
Lemma hashes_at_ok sha b first n :
  names_hashes sha b first (map (fun i => hashes_at sha b (first + N.of_nat i)) (seq 0 n)).
Proof.
  intros i c q nd h Hc _ Hnd Hh. change (map ?f ?l) with (f <$> l) in Hc. rewrite list_lookup_fmap in Hc.
  destruct (seq 0 n !! i) as [j|] eqn:Ej; [|done]. apply lookup_seq in Ej as [-> _]. cbn in Hc. injection Hc as <-.
  unfold hashes_at. apply elem_of_list_to_map_1'.
  - intros y Hy. apply elem_of_list_omap in Hy as ([[w r] nd'] & Hin & Hy). cbn [fst snd] in Hy.
    case_decide as Hw; [|done]. destruct (node_hash sha nd') as [h'| | |] eqn:Eh; try done. injection Hy as -> <-. subst w.
    apply elem_of_map_to_list in Hin. congruence.
  - apply elem_of_list_omap. exists ((first + N.of_nat i, q), nd). split; [by apply elem_of_map_to_list|].
    cbn [fst snd]. by rewrite decide_True, Hh.
Qed.
Example C27_example : reached sha256 sha256 ex_ops ex_store /\ wf_batch ex_sets /\
  versions ex_ops + N.of_nat (length ex_sets) <= u64_max /\
  exists roots b hs, put_value_sets sha256 sha256 ex_store (all_present ex_sets) (versions ex_ops) = Ok (roots, b) /\
    length hs = length ex_sets /\ names_hashes sha256 b (versions ex_ops) hs.
Proof.
  assert (versions ex_ops + N.of_nat (length ex_sets) <= u64_max) as Hmax by (rewrite ex_versions; vm_compute; discriminate).
  split; [exact ex_reached|]. split; [exact ex_sets_wf|]. split; [exact Hmax|].
  destruct (C27_batch_contents sha256 sha256 ex_ops ex_store ex_sets ex_reached ex_sets_wf Hmax) as (roots & b & s' & E & _).
  rewrite (C27_batch_equals_puts _ _ _ _ _ ex_reached ex_sets_wf) in E.
  exists roots, b, (map (fun i => hashes_at sha256 b (versions ex_ops + N.of_nat i)) (seq 0 2)).
  split; [exact E|]. split; [done|]. apply hashes_at_ok.
Qed.
(** The two calls run, on the shapes of [ex_sets], with a small hash. *)
Definition mix (b : bytes) : bytes :=
  match Byte.of_N (fold_left (fun a x => (a * 31 + Byte.to_N x) mod 251) b 7) with Some x => [x] | None => [] end.
Example C27_runs :
  match batch_put_value_sets mix mix empty_store ex_sets None 0 with
  | Ok (roots, b) => Some (roots, size (b_nodes b), size (b_stale b)) | _ => None end =
  match put_value_sets mix mix empty_store (all_present ex_sets) 0 with
  | Ok (roots, b) => Some (roots, size (b_nodes b), size (b_stale b)) | _ => None end /\
  match batch_put_value_sets mix mix empty_store ex_sets None 0 with
  | Ok (roots, b) => (length roots, size (b_nodes b), size (b_stale b)) | _ => (0, 0, 0)%nat end = (2, 18, 5)%nat.
Proof. split; vm_compute; reflexivity. Qed.

(** A set without pairs makes the batch call panic where the one-by-one call
    succeeds. *)
Theorem C27_empty_set_refuted : exists ops s sets, forall sha hv : bytes -> bytes,
  reached sha hv ops s /\ wf_sets (all_present sets) /\
  batch_put_value_sets sha hv s sets None (versions ops) = Panic /\
  exists roots b, put_value_sets sha hv s (all_present sets) (versions ops) = Ok (roots, b).
Proof.
  exists [], empty_store, [[(ka, va)]; []]. intros sha hv. split_and!.
  - split; [|done]. split; [constructor|vm_compute; discriminate].
  - repeat constructor.
  - vm_compute. reflexivity.
  - eexists _, _. vm_compute. reflexivity.
Qed.

Print Assumptions C27_batch_equals_puts.
Print Assumptions C27_batch_contents.
Print Assumptions C27_batch_with_hashes.
Print Assumptions C27_empty_set_refuted.
