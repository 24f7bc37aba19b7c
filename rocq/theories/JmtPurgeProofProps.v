(** Exclusion, range and ICS-23 proofs at every version of a pruned store (C77). *)
From Verif Require Import Base KeccakModel Sha256Model JmtNibModel JmtNibProof JmtSpec JmtTraceSpec JmtNibSpec JmtModel
  JmtHashProof JmtAbsProof JmtCacheProof JmtPutProof JmtHistProof JmtRunSpec JmtValueProof JmtRunProof JmtReadProof
  JmtProofProof JmtPropProof JmtOrderProof JmtIterModel JmtIterSpec JmtIterProof PmtExamples JmtExamples JmtProps JmtExclModel JmtExclSpec
  JmtExclProof JmtExclProps JmtRestoreModel JmtRestoreSpec JmtRestoreRunSpec JmtRestoreProps
  JmtIcsSpec JmtIcsModel JmtIcsProof JmtIcsProps JmtPurgeProof JmtPurgeProps JmtExclSpec.
Local Open Scope N_scope.

(** ** Agreement with the full store *)

(** The same result, or a missing node. *)
Definition lacks (v : N) (e : jerr) : Prop := e = MissingRoot v \/ exists nk, e = MissingNode nk.
Definition same_or_lacks {A} (v : N) (r r0 : res jerr A) : Prop := r = r0 \/ exists e, r = Err e /\ lacks v e.
Lemma sol_bind {A B} v (r r0 : res jerr A) (f f0 : A -> res jerr B) : same_or_lacks v r r0 ->
  (forall a, same_or_lacks v (f a) (f0 a)) -> same_or_lacks v (rbind r f) (rbind r0 f0).
Proof.
  intros [->|(e & -> & He)] Hf; [|right; by exists e].
  destruct r0 as [a|e| |]; cbn [rbind]; [apply Hf|by left..].
Qed.
Lemma sol_refl {A} v (r : res jerr A) : same_or_lacks v r r.
Proof. by left. Qed.

Section Sub.
Context (sha : bytes -> bytes) (s s0 : store) (v : N).
Context (Hsub : forall nk nd, st_nodes s !! nk = Some nd -> st_nodes s0 !! nk = Some nd) (Hh : st_hist s = st_hist s0).

Lemma read_sub k : same_or_lacks v (get_with_proof sha s k v) (get_with_proof sha s0 k v).
Proof.
  destruct (gwp_sub sha s s0 v k Hsub Hh (nibs k) (v, []) true []) as [H|[(_ & H & _)|[[nk H] _]]]; unfold get_with_proof.
  - left. exact H.
  - right. eexists. split; [exact H|]. by left.
  - right. eexists. split; [exact H|]. right. by eexists.
Qed.
Lemma extreme_sub e : forall fuel nk b, same_or_lacks v (extreme_key fuel s v nk b e) (extreme_key fuel s0 v nk b e).
Proof.
  induction fuel as [|f IH]; intros nk b; cbn [extreme_key]; [by left|].
  destruct (st_nodes s !! nk) as [nd|] eqn:E.
  - rewrite (Hsub _ _ E). destruct nd as [|k0 x0|n]; [by left..|]. destruct (min_or_max n e); [|by left].
    apply sol_bind; [by left|]. intros [nk'|]; [apply IH|by left].
  - right. eexists. split; [reflexivity|]. destruct b; [by left|right; by eexists].
Qed.
Lemma search_extreme_sub e p ps : same_or_lacks v (search_extreme s v e p ps) (search_extreme s0 v e p ps).
Proof.
  unfold search_extreme. apply sol_bind; [by left|]. intros [q|]; [|by left].
  apply sol_bind; [apply extreme_sub|by left].
Qed.
Lemma search_node_sub : forall rest nk vis ps, same_or_lacks v (search_node s v rest nk vis ps) (search_node s0 v rest nk vis ps).
Proof.
  induction rest as [|i rest IH]; intros nk vis ps; cbn [search_node]; (destruct (st_nodes s !! nk) as [nd|] eqn:E;
    [|right; eexists; split; [reflexivity|]; destruct vis; [by left|right; by eexists]]);
    rewrite (Hsub _ _ E); (destruct nd as [|k0 x0|n]; [by left..|]); [by left|].
  apply sol_bind; [by left|]. intros [nk'|]; [apply IH|by left].
Qed.
Lemma bounding_sub k : same_or_lacks v (bounding_path s k v) (bounding_path s0 k v).
Proof.
  unfold bounding_path. apply sol_bind; [apply search_node_sub|]. intros [k0 p ps|p ps].
  - destruct (key_ltb k0 k); [apply sol_bind; [apply search_extreme_sub|by left]|].
    destruct (key_ltb k k0); [apply sol_bind; [apply search_extreme_sub|by left]|by left].
  - apply sol_bind; [apply search_extreme_sub|]. intros r. apply sol_bind; [apply search_extreme_sub|by left].
Qed.
Lemma exclusion_sub k : same_or_lacks v (get_with_exclusion_proof sha s k v) (get_with_exclusion_proof sha s0 k v).
Proof.
  unfold get_with_exclusion_proof. apply sol_bind; [apply read_sub|]. intros [[x|] p]; [by left|].
  apply sol_bind; [apply bounding_sub|]. intros [[l|] [r|]].
  - apply sol_bind; [apply read_sub|]. intros pl. apply sol_bind; [apply read_sub|by left].
  - apply sol_bind; [apply read_sub|by left].
  - apply sol_bind; [apply read_sub|by left].
  - by left.
Qed.
Lemma range_sub k : same_or_lacks v (get_range_proof sha s k v) (get_range_proof sha s0 k v).
Proof. unfold get_range_proof. apply sol_bind; [apply read_sub|by left]. Qed.
Lemma ics_sub hv pre key : get_with_ics23_proof sha hv s pre key v = get_with_ics23_proof sha hv s0 pre key v \/
  exists e, get_with_ics23_proof sha hv s pre key v = Err (TreeErr e) /\ lacks v e.
Proof.
  unfold get_with_ics23_proof. destruct (exclusion_sub (hv key)) as [->|(e & -> & He)]; [left|right; by exists e].
  assert (forall kh, trie_get s kh v = trie_get s0 kh v) as Hg by (intros kh; unfold trie_get, st_get_value_option; by rewrite Hh).
  assert (forall p, ics_neighbour hv s pre v p = ics_neighbour hv s0 pre v p) as Hn.
  { intros p. unfold ics_neighbour. destruct (leaf_key p); cbn [rbind]; [by rewrite Hg|done..]. }
  destruct (get_with_exclusion_proof sha s0 (hv key) v) as [[[x p]|e]| | |]; cbn [JmtIcsModel.lift rbind]; [done| |done..].
  destruct e as [p|pr pl|p]; cbn [ics_nonexist]; rewrite ?Hn; [|done..].
  destruct (leaf_key p) as [kh| | |]; cbn [rbind]; [|done..]. by rewrite Hg.
Qed.
End Sub.

(** A version that can be read at all is one of the full store. *)
Lemma unread sha hv ops s v k : reached sha hv ops s -> length k = 32%nat ->
  get_with_proof sha s k v = Err (MissingRoot v) \/ v < versions ops.
Proof. intros HR Hk. destruct (C72_every_version sha hv ops s v k HR Hk) as [[? _]|[?|[? _]]]; tauto. Qed.

(** On an empty version the search for neighbours reports it. *)
Lemma exclusion_empty sha hv ops s v k : reached sha hv ops s -> low ops <= v < versions ops -> length k = 32%nat ->
  contents_at (history ops) v = ∅ -> get_with_exclusion_proof sha s k v = Err EmptyTree.
Proof.
  intros HR Hv Hk Em. pose proof (reached_inv _ _ _ _ HR) as HS. unfold get_with_exclusion_proof.
  rewrite (read_ok sha hv s _ _ k v HS Hv Hk), Em, lookup_empty. cbn [rbind].
  destruct (run_born sha hv ops s v HR Hv) as (ver & HH & _). pose proof (h_root _ _ _ _ _ HH) as Hr.
  assert (cs_of hv (history ops) v = ∅) as Ec by (unfold cs_of, hvm; rewrite Em; apply fmap_empty).
  rewrite Ec in Hr. rewrite (node_of_null sha) in Hr by (unfold pcnt; by rewrite ?subm_empty).
  unfold bounding_path. destruct (nibs k); cbn [search_node]; by rewrite Hr.
Qed.

(** * C77 *)

(** [p] shows that [m] holds the key [l]. *)
Definition shown (sha hv : bytes -> bytes) (m : gmap bytes bytes) (l : bytes) (p : proof) : Prop :=
  exists x, m !! l = Some x /\ verify sha hv p (smt_root sha hv m) l (Some x) = Ok tt.
(** The proof shows the neighbours of the absent key [k]. *)
Inductive shows (sha hv : bytes -> bytes) (m : gmap bytes bytes) (k : bytes) : exclusion -> Prop :=
| shows_leftmost r p : none_below m k -> above m k r -> shown sha hv m r p -> shows sha hv m k (ExLeftmost p)
| shows_rightmost l p : below m k l -> none_above m k -> shown sha hv m l p -> shows sha hv m k (ExRightmost p)
| shows_middle l r pl pr : below m k l -> above m k r -> shown sha hv m l pl -> shown sha hv m r pr ->
    shows sha hv m k (ExMiddle pr pl).
Lemma excludes_shows sha hv s v m k e : excludes sha hv s v m k e -> shows sha hv m k e.
Proof.
  assert (forall l p, includes sha hv s v m l p -> shown sha hv m l p) as H by (intros l p (x & ? & _ & ?); by exists x).
  intros []; [eapply shows_leftmost|eapply shows_rightmost|eapply shows_middle]; eauto.
Qed.

(** Exclusion proofs. *)
Theorem C77_exclusion sha hv ops s v k : reached sha hv ops s -> length k = 32%nat ->
  let m := contents_at (history ops) v in let r := get_with_exclusion_proof sha s k v in
  r = Err (MissingRoot v) \/
  v < versions ops /\
  ((exists x p, r = Ok (inl (x, p)) /\ m !! k = Some x /\ verify sha hv p (smt_root sha hv m) k (Some x) = Ok tt) \/
   (exists e, r = Ok (inr e) /\ m !! k = None /\ shows sha hv m k e) \/
   (r = Err EmptyTree /\ m = ∅) \/
   (exists nk, r = Err (MissingNode nk))).
Proof.
  intros HR Hk m r. destruct (full_store sha hv ops s HR) as (s0 & HR0 & Hsub & Hh).
  assert (versions (unpurged ops) = versions ops) as Hvs by (unfold versions; by rewrite unpurged_history).
  destruct (unread sha hv ops s v k HR Hk) as [E|Hlt].
  { left. unfold r, get_with_exclusion_proof. by rewrite E. }
  assert (low (unpurged ops) <= v < versions (unpurged ops)) as Hv0 by (rewrite unpurged_low, Hvs; lia).
  assert (contents_at (history (unpurged ops)) v = m) as Em by (unfold m; by rewrite unpurged_history).
  destruct (exclusion_sub sha s s0 v Hsub Hh k) as [E|(e & E & [->|[nk ->]])]; fold r in E.
  - right. split; [done|]. rewrite E. destruct (m !! k) as [x|] eqn:Ex.
    + left. destruct (C38_present_key sha hv _ s0 v k x HR0 Hv0) as (p & Ep & y & Hy & _ & Hver); [by rewrite Em|].
      rewrite Em in Hy, Hver. rewrite Ex in Hy. injection Hy as <-. by exists x, p.
    + right. destruct (decide (m = ∅)) as [He|Hne].
      * right. left. split; [|done]. apply (exclusion_empty sha hv _ s0 v k HR0 Hv0 Hk). by rewrite Em.
      * destruct (C38_exclusion_partial sha hv _ s0 v k HR0 Hv0 Hk) as [(e & Ee & Hex)|(q & _ & Ee & _)];
          [by rewrite Em|by rewrite Em| |].
        -- left. exists e. split; [done|]. split; [done|]. rewrite Em in Hex. by eapply excludes_shows.
        -- right. right. by eexists.
  - by left.
  - right. split; [done|]. right. right. right. by exists nk.
Qed.

(** Range proofs: what is returned completes a chunk, as in C35. *)
Theorem C77_range sha hv ops s u k : reached sha hv ops s -> length k = 32%nat ->
  let m := contents_at (history ops) u in let r := get_range_proof sha s k u in
  Forall (fun i => sha i <> spec_empty_hash) (tree_inputs sha hv m) ->
  r = Err (MissingRoot u) \/
  u < versions ops /\
  ((exists x sibs, m !! k = Some x /\ r = Ok sibs /\
      forall t v cs st c l, fresh t v -> Forall (fun c : sent => wf_chunk (fst c)) cs ->
      feed sha hv (new_overwrite t v (smt_root sha hv m)) cs = Some st -> received (map fst cs) l ->
      wf_chunk c -> c <> [] -> increasing_part (last_key l) c c ->
      (forall k' y, (k', y) ∈ l ++ c <-> m !! k' = Some y /\ key_le k' k) ->
      exists st', add_chunk sha hv st c sibs = RDone st' None) \/
   (r = Err KeyNotFound /\ m !! k = None) \/
   (exists nk, r = Err (MissingNode nk))).
Proof.
  intros HR Hk m r Hin. destruct (full_store sha hv ops s HR) as (s0 & HR0 & Hsub & Hh).
  assert (versions (unpurged ops) = versions ops) as Hvs by (unfold versions; by rewrite unpurged_history).
  destruct (unread sha hv ops s u k HR Hk) as [E|Hlt].
  { left. unfold r, get_range_proof. by rewrite E. }
  assert (low (unpurged ops) <= u < versions (unpurged ops)) as Hv0 by (rewrite unpurged_low, Hvs; lia).
  assert (contents_at (history (unpurged ops)) u = m) as Em by (unfold m; by rewrite unpurged_history).
  pose proof (reached_inv _ _ _ _ HR0) as HS0.
  destruct (range_sub sha s s0 u Hsub Hh k) as [E|(e & E & [->|[nk ->]])]; fold r in E.
  - right. split; [done|]. rewrite E. destruct (m !! k) as [x|] eqn:Ex.
    + left. pose proof (root_ok sha hv s0 _ _ u HS0 Hv0) as Hroot. rewrite Em in Hroot.
      destruct (C35_range_proofs_verify sha hv _ s0 u k x (smt_root sha hv m) HR0 Hv0) as (sibs & Es & H).
      { by rewrite Em. } { exact Hroot. } { by rewrite Em. }
      rewrite Em in H. exists x, sibs. done.
    + right. left. split; [|done]. unfold get_range_proof. rewrite (read_ok sha hv s0 _ _ k u HS0 Hv0 Hk), Em, Ex. done.
  - by left.
  - right. split; [done|]. right. right. by exists nk.
Qed.

(** ICS-23 proofs; when they verify is C66 and C67. *)
Theorem C77_ics23 sha ops s pre key v : (forall y, length (sha y) = 32%nat) -> reached sha sha ops s ->
  (forall l p, pre !! l = Some p -> sha p = l) ->
  let m := contents_at (history ops) v in let r := get_with_ics23_proof sha sha s pre key v in
  r = Err (TreeErr (MissingRoot v)) \/
  v < versions ops /\
  ((exists x p, r = Ok (Some x, Exist p) /\ m !! sha key = Some x /\
      (verify_existence sha ics_spec p (smt_root sha sha m) key x = true <-> key <> [] /\ x <> [] /\ shallow m (sha key))) \/
   (exists p, r = Ok (None, Nonexist p) /\ m !! sha key = None /\ np_key p = key /\
      (verify_nonexistence sha ics_spec p (smt_root sha sha m) key = true <->
       forall l, neighbour m (sha key) l -> presentable pre m l)) \/
   (r = Err NoPreimage /\ m !! sha key = None /\ exists l, neighbour m (sha key) l /\ pre !! l = None) \/
   (r = Err (TreeErr EmptyTree) /\ m = ∅) \/
   (exists nk, r = Err (TreeErr (MissingNode nk)))).
Proof.
  intros Hsha HR Hpre m r. destruct (full_store sha sha ops s HR) as (s0 & HR0 & Hsub & Hh).
  assert (versions (unpurged ops) = versions ops) as Hvs by (unfold versions; by rewrite unpurged_history).
  destruct (unread sha sha ops s v (sha key) HR (Hsha key)) as [E|Hlt].
  { left. unfold r, get_with_ics23_proof, get_with_exclusion_proof. by rewrite E. }
  assert (low (unpurged ops) <= v < versions (unpurged ops)) as Hv0 by (rewrite unpurged_low, Hvs; lia).
  assert (contents_at (history (unpurged ops)) v = m) as Em by (unfold m; by rewrite unpurged_history).
  pose proof (root_ok sha sha s0 _ _ v (reached_inv _ _ _ _ HR0) Hv0) as Hroot. rewrite Em in Hroot.
  destruct (ics_sub sha s s0 v Hsub Hh sha pre key) as [E|(e & E & [->|[nk ->]])]; fold r in E.
  - right. split; [done|]. rewrite E. destruct (m !! sha key) as [x|] eqn:Ex.
    + left. destruct (C66_ics23_existence_partial sha _ s0 pre key v x Hsha HR0 Hv0) as (p & root & Ep & Er & Hi); [by rewrite Em|].
      rewrite Hroot in Er. injection Er as <-. rewrite Em in Hi. by exists x, p.
    + right. destruct (decide (m = ∅)) as [He|Hne].
      * right. right. left. split; [|done]. unfold get_with_ics23_proof.
        rewrite (exclusion_empty sha sha _ s0 v (sha key) HR0 Hv0 (Hsha key)); [done|by rewrite Em].
      * destruct (C67_ics23_nonexistence_partial sha _ s0 pre key v Hsha HR0 Hv0 Hpre) as [(p & root & Ep & Er & Hk & Hi)|[[Ep Hn]|(q & l & Ep & _)]];
          [by rewrite Em|by rewrite Em| | |].
        -- left. exists p. rewrite Hroot in Er. injection Er as <-. rewrite Em in Hi. done.
        -- right. left. rewrite Em in Hn. done.
        -- right. right. right. by eexists.
  - by left.
  - right. split; [done|]. right. right. right. right. by exists nk.
Qed.

(** A purged version of which the root and some nodes are left: a present key,
    an absent one with its neighbour, nodes that are gone; a version of which
    nothing is left; one that is kept; one not written yet; an empty tree. *)
Definition pproof_ops : list op :=
  [OpPut [[(mix [x61], Some [x01]); (mix [x62], Some [x02]); (mix [x65], Some [x03]); (mix [xc1], Some [x04])]; [];
          [(mix [x61], Some [x05])]; [(mix [x61], None); (mix [x62], None); (mix [x65], None); (mix [xc1], None)]]; OpPurge 2].
Definition pproof_store : store := match run mix mix pproof_ops with Ok s => s | _ => empty_store end.
Definition kind_of (r : res ierr (option bytes * commitment_proof)) : nat + ierr :=
  match r with Ok (Some _, Exist _) => inl 1%nat | Ok (None, Nonexist _) => inl 2%nat | Err e => inr e | _ => inl 0%nat end.
Definition range_kind (r : res jerr (list bytes)) : nat + jerr :=
  match r with Ok l => inl (length l) | Err e => inr e | _ => inl 1000%nat end.
Lemma pproof_reached : reached mix mix pproof_ops pproof_store.
Proof.
  split; [split; [apply wf_setsb; vm_compute; reflexivity|vm_compute; discriminate]|].
  assert (H : (match run mix mix pproof_ops with Ok _ => true | _ => false end) = true) by (vm_compute; reflexivity).
  unfold pproof_store. revert H. destruct (run mix mix pproof_ops); [reflexivity|discriminate..].
Qed.
Definition pproof_asked : list (bytes * N) :=
  [([xc1], 1); ([xc2], 1); ([x61], 1); ([x60], 1); ([x61], 0); ([x61], 2); ([x60], 2); ([x61], 3); ([x61], 4)].
Example C77_example : reached mix mix pproof_ops pproof_store /\ (low pproof_ops, versions pproof_ops) = (2, 4) /\
  (forall y, length (mix y) = 32%nat) /\ (forall l p, ics_pre !! l = Some p -> mix p = l) /\
  (forall v, In v [0; 1; 2; 3; 4] ->
     Forall (fun i => mix i <> spec_empty_hash) (tree_inputs mix mix (contents_at (history pproof_ops) v))) /\
  map (fun '(k, v) => kind_of (get_with_ics23_proof mix mix pproof_store ics_pre k v)) pproof_asked =
  [inl 1%nat; inl 2%nat; inr (TreeErr (MissingNode (0, [Nib false true true false])));
   inr (TreeErr (MissingNode (0, [Nib false true true false]))); inr (TreeErr (MissingRoot 0)); inl 1%nat;
   inl 2%nat; inr (TreeErr EmptyTree); inr (TreeErr (MissingRoot 4))] /\
  map (fun '(k, v) => range_kind (get_range_proof mix pproof_store (mix k) v)) pproof_asked =
  [inl 0%nat; inr KeyNotFound; inr (MissingNode (0, [Nib false true true false]));
   inr (MissingNode (0, [Nib false true true false])); inr (MissingRoot 0); inl 3%nat; inr KeyNotFound;
   inr KeyNotFound; inr (MissingRoot 4)].
Proof.
  split; [exact pproof_reached|]. split; [vm_compute; reflexivity|]. split; [exact mix_length|]. split; [exact ics_pre_ok|].
  split; [|split; vm_compute; reflexivity].
  assert (H : forallb (fun v => forallb (fun i => negb (bool_decide (mix i = spec_empty_hash)))
    (tree_inputs mix mix (contents_at (history pproof_ops) v))) [0; 1; 2; 3; 4] = true) by (vm_compute; reflexivity).
  intros v Hv. rewrite forallb_forall in H. specialize (H v Hv). rewrite forallb_forall in H.
  apply Forall_forall. intros i Hi. specialize (H i (proj1 (elem_of_list_In _ _) Hi)).
  by apply negb_true_iff, bool_decide_eq_false in H.
Qed.
Print Assumptions C77_exclusion.
Print Assumptions C77_range.
Print Assumptions C77_ics23.
