(** Reads at every version of a pruned store (C72). *)
From Verif Require Import Base KeccakModel Sha256Model JmtNibModel JmtSpec JmtModel JmtAbsProof JmtCacheProof
  JmtPutProof JmtHistProof JmtValueProof JmtRunSpec JmtRunProof JmtPropProof JmtExamples JmtProps JmtPurgeProof.
Local Open Scope N_scope.

(** The same execution without its purges. *)
Definition unpurged (ops : list op) : list op :=
  flat_map (fun o => match o with OpPut sets => [OpPut sets] | OpPurge _ => [] end) ops.
Lemma unpurged_app a b : unpurged (a ++ b) = unpurged a ++ unpurged b.
Proof. apply flat_map_app. Qed.
Lemma unpurged_history ops : history (unpurged ops) = history ops.
Proof.
  induction ops as [|[sets|l] ops IH]; [done| |exact IH].
  change (sets ++ history (unpurged ops) = sets ++ history ops). by rewrite IH.
Qed.
Lemma unpurged_low ops : low (unpurged ops) = 0.
Proof.
  unfold low. assert (forall n lo, low_from n lo (unpurged ops) = lo) as H; [|apply H].
  induction ops as [|[sets|l] ops IH]; intros n lo; [done|apply IH|apply IH].
Qed.
Lemma reached_snoc sha hv ops o s' : reached sha hv (ops ++ [o]) s' ->
  exists s, reached sha hv ops s /\ run_op sha hv s (versions ops) o = Ok s'.
Proof.
  intros [[Hw Hm] E]. rewrite history_app in Hw, Hm. unfold run in E. rewrite run_from_app in E.
  apply rbind_inv in E as (s & E & E1). exists s. split.
  - split; [|done]. apply Forall_app in Hw as [Hw _]. rewrite app_length in Hm. split; [done|lia].
  - rewrite N.add_0_l in E1. cbn [run_from] in E1. apply rbind_inv in E1 as (s1 & E1 & [= <-]). done.
Qed.

(** The pruned store has nodes of the full store only, and all its values; it
    lacks only nodes that are recorded stale, by a set that is not empty. *)
Lemma full_store_all sha hv ops : forall s, reached sha hv ops s -> exists s0, reached sha hv (unpurged ops) s0 /\
  (forall nk nd, st_nodes s !! nk = Some nd -> st_nodes s0 !! nk = Some nd) /\ st_hist s = st_hist s0 /\
  (forall nk nd, st_nodes s0 !! nk = Some nd -> st_nodes s !! nk = Some nd \/ exists t, (t, nk) ∈ st_stale s0) /\
  st_stale s ⊆ st_stale s0 /\
  (forall t nk, (t, nk) ∈ st_stale s0 -> exists ws, history ops !! N.to_nat t = Some ws /\ ws <> []).
Proof.
  induction ops as [|o ops IH] using rev_ind; intros s' HR.
  - exists s'. split; [exact HR|]. destruct HR as [_ [= <-]]. split; [done|]. split; [done|]. split; [by left|].
    split; [done|]. intros t nk H. by apply elem_of_empty in H.
  - assert (wf_ops (unpurged (ops ++ [o]))) as Hwf.
    { destruct HR as [[Hw Hm] _]. split; rewrite unpurged_history; done. }
    destruct (run_ok sha hv _ Hwf) as (s0' & E0' & _).
    assert (reached sha hv (unpurged (ops ++ [o])) s0') as HR0' by done. exists s0'. split; [done|].
    destruct (reached_snoc _ _ _ _ _ HR) as (s & HRs & Eo). destruct (IH s HRs) as (s0 & HR0 & Hsub & Hh & Hlost & Hst & Hrec).
    rewrite unpurged_app in HR0'. destruct o as [sets|least].
    + change (unpurged [OpPut sets]) with [OpPut sets] in HR0'.
      destruct (reached_snoc _ _ _ _ _ HR0') as (s0a & HR0a & Eo0).
      assert (s0a = s0) as -> by (destruct HR0 as [_ A], HR0a as [_ B]; congruence).
      assert (versions (unpurged ops) = versions ops) as Hv by (unfold versions; by rewrite unpurged_history).
      rewrite Hv in Eo0. cbn [run_op] in Eo, Eo0. apply rbind_inv in Eo as ([r b] & Ep & Ew).
      pose proof (reached_inv _ _ _ _ HRs) as HS. pose proof (reached_inv _ _ _ _ HR0) as HS0.
      assert (put_value_sets sha hv s0 sets (versions ops) = Ok (r, b)) as Ep0.
      { eapply same_batch; [exact Hsub| | |exact Ep].
        - intros nk nd Hn. destruct (si_hist _ _ _ _ _ HS0) as [vs HI].
          pose proof (hi_fresh _ _ _ _ _ _ _ _ HI nk nd Hn) as H. rewrite unpurged_history in H. exact H.
        - intros Hpos. destruct (si_hist _ _ _ _ _ HS) as [vs HI]. unfold versions in *.
          pose proof (si_lo _ _ _ _ _ HS Hpos) as Hlo.
          pose proof (hi_holds _ _ _ _ _ _ _ _ HI (N.of_nat (length (history ops)) - 1) ltac:(lia)) as HH.
          rewrite (h_root _ _ _ _ _ HH). by eexists. }
      rewrite Ep0 in Eo0. cbn [rbind] in Eo0.
      unfold write_batch, write_node_batch in Ew, Eo0.
      apply rbind_inv in Ew as (x & Ew & E1). apply rbind_inv in Eo0 as (x0 & Ew0 & E2).
      destruct (negb _ && _) in Ew; [discriminate|]. destruct (negb _ && _) in Ew0; [discriminate|].
      apply rbind_inv in Ew as (h & Ew & [= <-]). apply rbind_inv in Ew0 as (h0 & Ew0 & [= <-]).
      rewrite Hh, Ew0 in Ew. injection Ew as <-.
      destruct (bool_decide _) in E1; [|discriminate]. destruct (bool_decide _) in E2; [|discriminate].
      injection E1 as <-. injection E2 as <-. cbn [st_nodes st_hist st_stale]. split_and!.
      * intros nk nd. rewrite !lookup_union_Some_raw. intros [H|[H1 H2]]; [by left|right]. split; [done|by apply Hsub].
      * done.
      * intros nk nd. rewrite !lookup_union_Some_raw. intros [H|[H1 H2]]; [left; by left|].
        destruct (Hlost nk nd H2) as [H|[t H]]; [left; by right|right]. exists t. apply elem_of_union. by right.
      * set_solver.
      * intros t nk [H|H]%elem_of_union.
        -- destruct (batch_stale sha hv s sets (versions ops) r b Ep t nk H) as (i & ws & H1 & H2 & H3). exists ws.
           split; [|done]. rewrite history_app, history_put. unfold versions in H3.
           rewrite lookup_app_r by lia. by replace (N.to_nat t - length (history ops))%nat with i by lia.
        -- destruct (Hrec t nk H) as (ws & H1 & H2). exists ws. split; [|done]. rewrite history_app. by apply lookup_app_l_Some.
    + change (unpurged [OpPurge least]) with (@nil op) in HR0'. rewrite app_nil_r in HR0'.
      assert (s0' = s0) as -> by (destruct HR0 as [_ A], HR0' as [_ B]; congruence).
      cbn [run_op] in Eo. unfold purge in Eo. destruct (_ && _) in Eo; [|discriminate]. injection Eo as <-.
      cbn [st_nodes st_hist st_stale]. split_and!.
      * intros nk nd [H _]%map_filter_lookup_Some. by apply Hsub.
      * done.
      * intros nk nd H. destruct (Hlost nk nd H) as [H1|H1]; [|by right].
        destruct (decide (nk ∈ set_map (C := gset (N * nkey)) (D := gset nkey) snd
          (filter (fun l : N * nkey => (fst l <= least)%N) (st_stale s)))) as [H2|H2].
        -- right. apply elem_of_map in H2 as ([t nk'] & -> & [_ H2]%elem_of_filter). exists t. by apply Hst.
        -- left. by apply map_filter_lookup_Some.
      * set_solver.
      * intros t nk H. rewrite history_app, history_purge, app_nil_r. by apply Hrec in H.
Qed.
Lemma full_store sha hv ops s : reached sha hv ops s -> exists s0, reached sha hv (unpurged ops) s0 /\
  (forall nk nd, st_nodes s !! nk = Some nd -> st_nodes s0 !! nk = Some nd) /\ st_hist s = st_hist s0.
Proof. intros HR. destruct (full_store_all sha hv ops s HR) as (s0 & H1 & H2 & H3 & _). by exists s0. Qed.

(** A read on the pruned store is that on the full store, or stops at a missing
    node. *)
Lemma gwp_sub sha s s0 v k : (forall nk nd, st_nodes s !! nk = Some nd -> st_nodes s0 !! nk = Some nd) ->
  st_hist s = st_hist s0 -> forall rest nk b sibs,
  gwp sha s v k rest nk b sibs = gwp sha s0 v k rest nk b sibs \/
  (b = true /\ gwp sha s v k rest nk b sibs = Err (MissingRoot v) /\ st_nodes s !! nk = None) \/
  (exists nk', gwp sha s v k rest nk b sibs = Err (MissingNode nk')) /\ (b = true -> is_Some (st_nodes s !! nk)).
Proof.
  intros Hsub Hh. assert (forall k0, st_get_value s v k0 = st_get_value s0 v k0) as Hg
    by (intros k0; unfold st_get_value, st_get_value_option; by rewrite Hh).
  induction rest as [|i rest IH]; intros nk b sibs; cbn [gwp]; (destruct (st_nodes s !! nk) as [nd|] eqn:E;
    [|destruct b; [right; left; done|right; right; split; [by eexists|discriminate]]]);
    rewrite (Hsub _ _ E); (destruct nd as [|k0 x0|n]; [by left|left; by rewrite ?Hg|]).
  - by left.
  - destruct (get_child_with_siblings sha n nk i) as [[[nk'|] more]| | |]; cbn [rbind]; [|by left..].
    destruct (IH nk' false (sibs ++ more)) as [H|[[H _]|[H _]]]; [by left|discriminate|right; right].
    split; [exact H|]. intros _. by eexists.
Qed.

(** * C72: at every version, purged, kept or not written yet, a read answers
    right or reports a missing node. *)
Theorem C72_every_version sha hv ops s v k : reached sha hv ops s -> length k = 32%nat ->
  (v < versions ops /\ exists p, get_with_proof sha s k v = Ok (value_at k (history ops) v, p) /\
     verify sha hv p (smt_root sha hv (contents_at (history ops) v)) k (value_at k (history ops) v) = Ok tt) \/
  get_with_proof sha s k v = Err (MissingRoot v) \/
  (v < versions ops /\ exists nk, get_with_proof sha s k v = Err (MissingNode nk)).
Proof.
  intros HR Hk. destruct (full_store sha hv ops s HR) as (s0 & HR0 & Hsub & Hh).
  assert (versions (unpurged ops) = versions ops) as Hv by (unfold versions; by rewrite unpurged_history).
  assert (is_Some (st_nodes s0 !! (v, [])) -> v < versions ops) as Hlt.
  { intros [nd Hn]. pose proof (reached_inv _ _ _ _ HR0) as HS0. destruct (si_hist _ _ _ _ _ HS0) as [vs HI].
    pose proof (hi_fresh _ _ _ _ _ _ _ _ HI _ nd Hn) as H. cbn [fst] in H. fold (versions (unpurged ops)) in H. lia. }
  destruct (gwp_sub sha s s0 v k Hsub Hh (nibs k) (v, []) true []) as [H|[(_ & H & _)|[H Hr]]].
  - destruct (decide (v < versions ops)) as [Hvv|Hvv].
    + left. split; [done|]. unfold get_with_proof at 1. rewrite H. fold (get_with_proof sha s0 k v).
      pose proof (C24_root_is_smt_root sha hv _ s0 HR0) as [Hroot _]. rewrite unpurged_low, unpurged_history, Hv in Hroot.
      destruct (value_at k (history ops) v) as [x|] eqn:Ex.
      * destruct (C29_inclusion_complete sha hv _ s0 v k x HR0) as (p & r & H1 & H2 & H3).
        { rewrite unpurged_low, Hv. lia. } { by rewrite unpurged_history. }
        exists p. split; [done|]. rewrite (proj1 (Hroot v ltac:(lia))) in H2. injection H2 as <-. done.
      * destruct (C30_noninclusion_complete sha hv _ s0 v k HR0) as (p & r & H1 & H2 & H3); [|done| |].
        { rewrite unpurged_low, Hv. lia. } { by rewrite unpurged_history. }
        exists p. split; [done|]. rewrite (proj1 (Hroot v ltac:(lia))) in H2. injection H2 as <-. done.
    + right. left. unfold get_with_proof. rewrite H. destruct (st_nodes s0 !! (v, [])) as [nd|] eqn:E; [destruct Hvv; apply Hlt; by eexists|].
      destruct (nibs k); cbn [gwp]; by rewrite E.
  - right. left. exact H.
  - right. right. split; [|exact H]. apply Hlt. destruct (Hr eq_refl) as [nd E]. rewrite (Hsub _ _ E). by eexists.
Qed.
(** The root hash and the leaf count likewise. *)
Theorem C72_every_root sha hv ops s v : reached sha hv ops s ->
  (v < versions ops /\ get_root_hash sha s v = Ok (smt_root sha hv (contents_at (history ops) v)) /\
   exists ks, get_leaf_count s v = Ok (Some (N.of_nat (length ks))) /\ NoDup ks /\
     forall k, k ∈ ks <-> is_Some (value_at k (history ops) v)) \/
  (get_root_hash sha s v = Err (MissingRoot v) /\ get_leaf_count s v = Err (MissingRoot v)).
Proof.
  intros HR. destruct (full_store sha hv ops s HR) as (s0 & HR0 & Hsub & Hh).
  assert (versions (unpurged ops) = versions ops) as Hv by (unfold versions; by rewrite unpurged_history).
  destruct (st_nodes s !! (v, [])) as [nd|] eqn:E; [left|right; unfold get_root_hash, get_leaf_count; by rewrite E].
  pose proof (Hsub _ _ E) as E0.
  assert (v < versions ops) as Hlt.
  { pose proof (reached_inv _ _ _ _ HR0) as HS0. destruct (si_hist _ _ _ _ _ HS0) as [vs HI].
    pose proof (hi_fresh _ _ _ _ _ _ _ _ HI _ nd E0) as H. cbn [fst] in H. fold (versions (unpurged ops)) in H. lia. }
  split; [done|]. assert (get_root_hash sha s v = get_root_hash sha s0 v) as -> by (unfold get_root_hash; by rewrite E, E0).
  assert (get_leaf_count s v = get_leaf_count s0 v) as -> by (unfold get_leaf_count; by rewrite E, E0).
  pose proof (C24_root_is_smt_root sha hv _ s0 HR0) as [Hroot _]. rewrite unpurged_low, unpurged_history, Hv in Hroot.
  pose proof (C34_leaf_count sha hv _ s0 v HR0) as Hc. rewrite unpurged_low, unpurged_history, Hv in Hc.
  split; [apply (Hroot v); lia|apply Hc; lia].
Qed.
(** All three outcomes at a purged version and at one not written yet. *)
Definition purged_ops : list op := [OpPut [[(ka, Some va); (kd, Some vb)]; []; [(ka, Some vc)]]; OpPurge 2].
Definition purged_store : store := match run sha256 sha256 purged_ops with Ok s => s | _ => empty_store end.
Definition outcome (r : res jerr (option bytes * proof)) : option (option bytes) + jerr :=
  match r with Ok (x, _) => inl (Some x) | Err e => inr e | _ => inl None end.
Example C72_example : reached sha256 sha256 purged_ops purged_store /\
  map (fun '(k, v) => outcome (get_with_proof sha256 purged_store k v)) [(kc, 1); (ka, 1); (ka, 0); (kd, 2); (ka, 3)] =
  [inl (Some None); inr (MissingNode (0, take 1 (nibs ka))); inr (MissingRoot 0); inl (Some (Some vb)); inr (MissingRoot 3)].
Proof.
  split.
  - split; [wf|]. assert (H : (match run sha256 sha256 purged_ops with Ok _ => true | _ => false end) = true)
      by (vm_compute; reflexivity).
    unfold purged_store. revert H. destruct (run sha256 sha256 purged_ops); [reflexivity|discriminate..].
  - vm_compute. reflexivity.
Qed.
Print Assumptions C72_every_version.
Print Assumptions C72_every_root.
