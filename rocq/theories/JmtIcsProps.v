(** ICS-23 proofs (C66, C67, C68, C69).  The verifier is that of JmtIcsSpec.v
    with the specification [ics_spec] of the repository. *)
From Verif Require Import Base KeccakModel Sha256Model JmtNibModel JmtNibProof JmtSpec JmtTraceSpec JmtNibSpec JmtModel
  JmtHashProof JmtAbsProof JmtCacheProof JmtPutProof JmtHistProof JmtRunSpec JmtValueProof JmtRunProof JmtReadProof
  JmtProofProof JmtPropProof JmtOrderProof JmtIterModel JmtIterProof PmtExamples JmtExamples JmtProps JmtExclModel JmtExclSpec
  JmtExclProof JmtExclProps JmtRestoreVerifyProof JmtRestoreCheckProof JmtRestorePropProof JmtRestoreProps
  JmtIcsSpec JmtIcsModel JmtIcsProof JmtIcsSoundProof JmtExclSpec.
Local Open Scope N_scope.

(** No other key of [m] agrees with [k] in the first 64 bits. *)
Definition shallow (m : gmap bytes bytes) (k : bytes) : Prop :=
  forall l, is_Some (m !! l) -> l <> k -> take 64 (key_bits l) <> take 64 (key_bits k).

Section Made.
Context (sha : bytes -> bytes) (Hsha : forall x, length (sha x) = 32%nat).
Context (m : gmap bytes bytes) (Hm : forall k x, m !! k = Some x -> length k = 32%nat).
Notation M := (hvm sha m).

Lemma depth_shallow k x : m !! k = Some x -> (length (tops sha M k) <= 64)%nat <-> shallow m k.
Proof.
  intros Hk. pose proof (Hm k x Hk) as Lk. pose proof (wfm_hvm sha m Hm) as Hw.
  rewrite Nat.le_ngt, (tops_lt sha Hsha M k 64 Hw Lk). split.
  - intros H l [y Hl] Hne E. apply H. apply (cnt_ge2 _ _ l k (sha y) (sha x)); [done|by unfold hvm; rewrite lookup_fmap, Hl|by unfold hvm; rewrite lookup_fmap, Hk| |].
    + rewrite <-E. eexists. symmetry. apply take_drop.
    + eexists. symmetry. apply take_drop.
  - intros Hs H2. destruct (cnt_ge2_inv _ _ k H2) as (l & y & Hne & Hl & [z Hz]).
    apply (Hs l); [|done|].
    + unfold hvm in Hl. rewrite lookup_fmap in Hl. by destruct (m !! l).
    + rewrite Hz, take_app_le, take_take, Nat.min_id by (rewrite take_length, key_bits_length; lia). done.
Qed.
(** The existence proof made for a present key. *)
Definition exist_of (key x : bytes) : exist_proof := ExistProof key x ics_leaf (rev (tops sha M (sha key))).
Lemma ics_exist_ok key x : ics_exist sha key x (made_proof sha sha (sha key) m) = Ok (exist_of key x).
Proof.
  unfold ics_exist. rewrite (proj2 (Nat.ltb_ge _ _)) by (apply made_proof_len, Hsha).
  rewrite (ics_steps_made sha Hsha sha m (sha key) (Hsha key)). reflexivity.
Qed.
Lemma leaf_of k x : m !! k = Some x -> p_leaf (made_proof sha sha k m) = Some (k, sha x).
Proof.
  intros Hk. pose proof (wfm_hvm sha m Hm) as Hw. pose proof (bpath_key sha sha M k Hw (Hm k x Hk)) as H.
  assert (M !! k = Some (sha x)) as HM by (unfold hvm; by rewrite lookup_fmap, Hk).
  unfold made_proof, proof_of. destruct (bpath sha M [] (key_bits k)) as [[[k0 x0]|] sb]; cbn [fst snd p_leaf] in *.
  - destruct H as (A & _ & [->|B]); congruence.
  - congruence.
Qed.
Lemma exist_root key x : m !! sha key = Some x -> key <> [] -> x <> [] ->
  proof_root sha (exist_of key x) = Some (smt_root sha sha m).
Proof.
  intros Hk Hne Hx. pose proof (wfm_hvm sha m Hm) as Hw. unfold proof_root, exist_of. cbn [ep_leaf ep_key ep_value ep_path].
  assert (apply_leaf sha ics_leaf key x = Some (sm_leaf sha (sha key) (sha x))) as ->.
  { unfold apply_leaf, leaf_data. destruct key; [done|]. destruct x; [done|]. reflexivity. }
  rewrite <-(made_proof_fold sha sha m (sha key) Hw (Hsha key)).
  pose proof (leaf_of (sha key) x Hk) as HL. pose proof (made_proof_len sha sha m (sha key) (Hsha key)) as HLen.
  pose proof (ics_steps_made sha Hsha sha m (sha key) (Hsha key)) as HS.
  rewrite ics_steps_skip, bits_up_key in HS. rewrite iter_bits_key by apply Hsha.
  rewrite ics_steps_ok in HS by (rewrite drop_length, rev_length, key_bits_length, Hsha; lia).
  injection HS as HS. rewrite <-HS.
  rewrite (apply_zip sha Hsha) ; [|rewrite drop_length, rev_length, key_bits_length, Hsha; lia|].
  - unfold proof_leaf_hash. rewrite HL. reflexivity.
  - intros E. apply (f_equal length) in E. unfold sm_leaf in E. by rewrite Hsha in E.
Qed.
Lemma exist_verify key x : m !! sha key = Some x ->
  verify_existence sha ics_spec (exist_of key x) (smt_root sha sha m) key x = true <-> key <> [] /\ x <> [] /\ shallow m (sha key).
Proof.
  intros Hk. rewrite <-(depth_shallow _ _ Hk). pose proof (wfm_hvm sha m Hm) as Hw.
  pose proof (exist_root key x Hk) as Hroot. revert Hroot. generalize (smt_root sha sha m). intros root Hroot.
  unfold verify_existence. rewrite !andb_true_iff, !bool_decide_eq_true. split.
  - intros [[[Hf _] _] Hr]. split; [|split].
    + intros ->. unfold proof_root, exist_of in Hr. cbn [ep_leaf ep_key ep_value] in Hr.
      assert (apply_leaf sha ics_leaf [] x = None) as E by reflexivity. rewrite E in Hr. discriminate Hr.
    + intros ->. unfold proof_root, exist_of in Hr. cbn [ep_leaf ep_key ep_value] in Hr.
      assert (apply_leaf sha ics_leaf key [] = None) as E by (unfold apply_leaf; by destruct (leaf_data _ _ _ key)).
      rewrite E in Hr. discriminate Hr.
    + unfold proof_fits in Hf. apply andb_prop in Hf as [Hf _]. apply andb_prop in Hf as [_ Hf].
      unfold depth_fits in Hf. cbn [ics_spec sp_min_depth sp_max_depth Nat.eqb orb andb] in Hf.
      apply Nat.leb_le in Hf. cbn [exist_of ep_path] in Hf. by rewrite rev_length in Hf.
  - intros (Hne & Hx & Hd). split; [|by apply Hroot]. split; [|done]. split; [|done].
    unfold proof_fits. rewrite !andb_true_iff. split; [split|].
    + reflexivity.
    + unfold depth_fits. cbn [ics_spec sp_min_depth sp_max_depth Nat.eqb orb andb exist_of ep_path].
      apply Nat.leb_le. by rewrite rev_length.
    + apply forallb_forall. intros o Ho. cbn [exist_of ep_path] in Ho. apply in_rev, elem_of_list_In in Ho.
      pose proof (tops_fits sha Hsha M (sha key) Hw (Hsha key)) as Hf. rewrite Forall_forall in Hf. by apply Hf.
Qed.
End Made.

(** * C66: the existence proof that [get_with_ics23_proof] makes for a present
    key verifies against [ics_spec] if key and value are not empty and no other
    key shares 64 bits with it, and only then.  In full the property says that
    it always verifies; that is false, see the refutations below.  The hasher
    [H] of the tree is SHA-256. *)
Theorem C66_ics23_existence_partial sha ops s pre key v x : (forall y, length (sha y) = 32%nat) ->
  reached sha sha ops s -> low ops <= v < versions ops ->
  let m := contents_at (history ops) v in m !! sha key = Some x ->
  exists p root, get_with_ics23_proof sha sha s pre key v = Ok (Some x, Exist p) /\ get_root_hash sha s v = Ok root /\
    (verify_existence sha ics_spec p root key x = true <-> key <> [] /\ x <> [] /\ shallow m (sha key)).
Proof.
  intros Hsha HR Hv m Hx. pose proof (reached_inv _ _ _ _ HR) as HS.
  assert (forall k x, m !! k = Some x -> length k = 32%nat) as Hm by (intros k' x'; apply contents_wf, (si_wf _ _ _ _ _ HS)).
  exists (exist_of sha m key x), (smt_root sha sha m). split; [|split].
  - unfold get_with_ics23_proof, get_with_exclusion_proof. rewrite (read_ok sha sha s _ _ (sha key) v HS Hv (Hsha key)).
    fold m. rewrite Hx. cbn [rbind lift]. rewrite (ics_exist_ok sha Hsha m key x). reflexivity.
  - apply (root_ok sha sha s _ _ v HS Hv).
  - by apply exist_verify.
Qed.
(** Deep trees: 256 siblings, and a value that is not empty.  Whatever SHA-256
    is and whatever the key. *)
Definition twin (k : bytes) : bytes :=
  take 31 k ++ [if decide (last k = Some x00) then x01 else x00].
Lemma twin_ok k : length k = 32%nat -> length (twin k) = 32%nat /\ twin k <> k /\ take 64 (key_bits (twin k)) = take 64 (key_bits k).
Proof.
  intros Hk. unfold twin.
  assert (exists a c, k = a ++ [c] /\ length a = 31%nat) as (a & c & -> & La).
  { destruct k as [|c a _] using rev_ind; [done|]. exists a, c. rewrite app_length in Hk. cbn in Hk. split; [done|lia]. }
  rewrite last_snoc, take_app_alt by done. split; [|split].
  - rewrite app_length, La. done.
  - intros E. apply app_inv_head in E. injection E as E. case_decide as Hd; [injection Hd as ->; discriminate E|]. by subst.
  - assert (forall d, take 64 (key_bits (a ++ [d])) = take 64 (key_bits a)) as H; [|by rewrite !H].
    intros d. unfold key_bits. rewrite flat_map_app, take_app_le; [done|].
    change (64 <= length (key_bits a))%nat. rewrite key_bits_length. lia.
Qed.
Lemma start_reached sha hv : reached sha hv [] empty_store.
Proof. split; [split; [constructor|done]|reflexivity]. Qed.
Lemma one_set sha hv ws : wf_sets [ws] -> exists s, reached sha hv [OpPut [ws]] s /\ low [OpPut [ws]] <= 0 < versions [OpPut [ws]].
Proof.
  intros Hw. destruct (C41_updates_succeed sha hv [] empty_store [ws] (start_reached sha hv) Hw) as (r & b & s & _ & _ & HR & _); [done|].
  exists s. split; [exact HR|]. done.
Qed.
Theorem C66_ics23_deep_refuted sha key : (forall y, length (sha y) = 32%nat) -> key <> [] ->
  exists ops s v x, reached sha sha ops s /\ low ops <= v < versions ops /\
    contents_at (history ops) v !! sha key = Some x /\ x <> [] /\
    forall pre, exists p root, get_with_ics23_proof sha sha s pre key v = Ok (Some x, Exist p) /\ get_root_hash sha s v = Ok root /\
      verify_existence sha ics_spec p root key x = false.
Proof.
  intros Hsha Hne. destruct (twin_ok (sha key) (Hsha key)) as (HL & Hd & Ht).
  set (ws := [(sha key, Some va); (twin (sha key), Some va)] : list write).
  assert (wf_sets [ws]) as Hw by (repeat constructor; [apply Hsha|exact HL]).
  destruct (one_set sha sha ws Hw) as (s & HR & Hv). exists [OpPut [ws]], s, 0, va.
  assert (contents_at (history [OpPut [ws]]) 0 = <[twin (sha key) := va]> {[sha key := va]}) as Ec by reflexivity.
  assert (contents_at (history [OpPut [ws]]) 0 !! sha key = Some va) as Hx.
  { rewrite Ec, lookup_insert_ne by done. apply lookup_singleton. }
  split; [done|]. split; [done|]. split; [done|]. split; [discriminate|]. intros pre.
  destruct (C66_ics23_existence_partial sha _ s pre key 0 va Hsha HR Hv Hx) as (p & root & E & Er & Hiff).
  exists p, root. split; [done|]. split; [done|]. apply not_true_iff_false. intros (_ & _ & Hs)%Hiff.
  apply (Hs (twin (sha key))); [|done|done]. rewrite Ec, lookup_insert. eauto.
Qed.
(** An empty value is stored and proved, but no verifier takes it. *)
Theorem C66_ics23_empty_value_refuted sha key : (forall y, length (sha y) = 32%nat) ->
  exists ops s v, reached sha sha ops s /\ low ops <= v < versions ops /\
    contents_at (history ops) v !! sha key = Some [] /\
    forall pre, exists p root, get_with_ics23_proof sha sha s pre key v = Ok (Some [], Exist p) /\ get_root_hash sha s v = Ok root /\
      verify_existence sha ics_spec p root key [] = false.
Proof.
  intros Hsha. set (ws := [(sha key, Some [])] : list write).
  assert (wf_sets [ws]) as Hw by (repeat constructor; apply Hsha).
  destruct (one_set sha sha ws Hw) as (s & HR & Hv). exists [OpPut [ws]], s, 0.
  assert (contents_at (history [OpPut [ws]]) 0 !! sha key = Some []) as Hx.
  { change (contents_at (history [OpPut [ws]]) 0) with ({[sha key := []]} : gmap bytes bytes). apply lookup_singleton. }
  split; [done|]. split; [done|]. split; [done|]. intros pre.
  destruct (C66_ics23_existence_partial sha _ s pre key 0 [] Hsha HR Hv Hx) as (p & root & E & Er & Hiff).
  exists p, root. split; [done|]. split; [done|]. apply not_true_iff_false. by intros (_ & [] & _)%Hiff.
Qed.

(** * C67: the non-existence proof that [get_with_ics23_proof] makes for an
    absent key.  In full the property says that for an absent key of a tree
    that is not empty, the preimages of its keys being known, there is a proof
    and it verifies.  That is false, see the refutations; the theorem says when
    there is a proof and when it verifies. *)
Definition neighbour (m : gmap bytes bytes) (k r : bytes) : Prop := below m k r \/ above m k r.
Definition presentable (pre m : gmap bytes bytes) (r : bytes) : Prop :=
  exists p x, pre !! r = Some p /\ m !! r = Some x /\ p <> [] /\ x <> [] /\ shallow m r.

Lemma below_unique m k l l' : below m k l -> below m k l' -> l = l'.
Proof.
  intros (A & B & C) (A' & B' & C'). destruct (C l' A' B') as [->|H1]; [done|]. destruct (C' l A B) as [->|H2]; [done|].
  by apply klt_asym in H1.
Qed.
Lemma above_unique m k l l' : above m k l -> above m k l' -> l = l'.
Proof.
  intros (A & B & C) (A' & B' & C'). destruct (C l' A' B') as [->|H1]; [done|]. destruct (C' l A B) as [->|H2]; [done|].
  by apply klt_asym in H1.
Qed.

Lemma compared_key sha k : compared sha ics_spec k = sha k.
Proof. reflexivity. Qed.
Section Absent.
Context (sha : bytes -> bytes) (Hsha : forall x, length (sha x) = 32%nat).
Context (ops : list op) (s : store) (v : N) (HR : reached sha sha ops s) (Hv : low ops <= v < versions ops).
Context (pre : gmap bytes bytes) (Hpre : forall l p, pre !! l = Some p -> sha p = l).
Notation m := (contents_at (history ops) v).
Notation M := (hvm sha m).
Notation root := (smt_root sha sha m).
Notation isp := (sp_inner ics_spec).

Lemma m_wf k x : m !! k = Some x -> length k = 32%nat.
Proof. apply contents_wf, (si_wf _ _ _ _ _ (reached_inv _ _ _ _ HR)). Qed.
Lemma included l p : includes sha sha s v m l p -> exists x, m !! l = Some x /\ p = made_proof sha sha l m /\ trie_get s l v = Some x.
Proof.
  intros (x & Hx & E & _). exists x. split; [done|]. pose proof (reached_inv _ _ _ _ HR) as HS.
  rewrite (read_ok sha sha s _ _ l v HS Hv (m_wf _ _ Hx)) in E. injection E as _ <-. split; [done|].
  rewrite (trie_get_ok sha sha s _ _ l v HS), <-contents_value. done.
Qed.
Lemma neighbour_ok l p : includes sha sha s v m l p ->
  exists x, m !! l = Some x /\ p_leaf p = Some (l, sha x) /\ trie_get s l v = Some x /\
  (forall k, pre !! l = Some k -> ics_exist sha k x p = Ok (exist_of sha m k x)).
Proof.
  intros (x & Hx & -> & Ht)%included. exists x. split; [done|]. split; [apply (leaf_of sha m m_wf); exact Hx|]. split; [done|].
  intros k Hk. rewrite <-(Hpre _ _ Hk). by apply ics_exist_ok.
Qed.
Lemma ics_neighbour_cases l p : includes sha sha s v m l p ->
  (exists k x, pre !! l = Some k /\ m !! l = Some x /\ ics_neighbour sha s pre v p = Ok (exist_of sha m k x)) \/
  (pre !! l = None /\ ics_neighbour sha s pre v p = Err NoPreimage).
Proof.
  intros (x & Hx & HL & Ht & He)%neighbour_ok. unfold ics_neighbour, leaf_key. rewrite HL. cbn [rbind].
  rewrite Ht. cbn [some_or rbind]. destruct (pre !! l) as [k|] eqn:E; cbn [some_or rbind].
  - left. exists k, x. split; [done|]. split; [done|]. by apply He.
  - right. done.
Qed.
Lemma present_verify l k x : pre !! l = Some k -> m !! l = Some x ->
  verify_existence sha ics_spec (exist_of sha m k x) root k x = true <-> presentable pre m l.
Proof.
  intros Hk Hx. pose proof (Hpre _ _ Hk) as El. rewrite <-El in Hx. rewrite (exist_verify sha Hsha m m_wf k x Hx). rewrite El in *. split.
  - intros (A & B & C). by exists k, x.
  - intros (k' & x' & E & E' & A & B & C). rewrite Hk in E. injection E as <-. rewrite Hx in E'. by injection E' as <-.
Qed.
Lemma wfM : wfm M.
Proof. apply wfm_hvm. exact m_wf. Qed.
Lemma M_some l x : m !! l = Some x -> M !! l = Some (sha x).
Proof. intros H. unfold hvm. by rewrite lookup_fmap, H. Qed.
Lemma m_some l y : M !! l = Some y -> is_Some (m !! l).
Proof. unfold hvm. rewrite lookup_fmap. destruct (m !! l); [eauto|done]. Qed.

Lemma right_path l k x : pre !! l = Some k -> m !! l = Some x -> (forall j, is_Some (m !! j) -> ~ bytes_lt l j) ->
  right_most isp (ep_path (exist_of sha m k x)) = true.
Proof.
  intros Hk Hx Hno. cbn [exist_of ep_path]. rewrite (Hpre _ _ Hk).
  pose proof (tops_right sha Hsha M l 0 wfM (m_wf _ _ Hx)) as H. rewrite drop_0 in H. unfold right_most in *.
  rewrite forallb_forall in *. intros o Ho%in_rev. apply H; [|done]. intros j y Hj _. by apply Hno, (m_some j y).
Qed.
Lemma left_path l k x : pre !! l = Some k -> m !! l = Some x -> (forall j, is_Some (m !! j) -> ~ bytes_lt j l) ->
  left_most isp (ep_path (exist_of sha m k x)) = true.
Proof.
  intros Hk Hx Hno. cbn [exist_of ep_path]. rewrite (Hpre _ _ Hk).
  pose proof (tops_left sha Hsha M l 0 wfM (m_wf _ _ Hx)) as H. rewrite drop_0 in H. unfold left_most in *.
  rewrite forallb_forall in *. intros o Ho%in_rev. apply H; [|done]. intros j y Hj _. by apply Hno, (m_some j y).
Qed.
End Absent.

Theorem C67_ics23_nonexistence_partial sha ops s pre key v : (forall y, length (sha y) = 32%nat) ->
  reached sha sha ops s -> low ops <= v < versions ops ->
  (forall l p, pre !! l = Some p -> sha p = l) ->
  let m := contents_at (history ops) v in m !! sha key = None -> m <> ∅ ->
  (exists p root, get_with_ics23_proof sha sha s pre key v = Ok (None, Nonexist p) /\ get_root_hash sha s v = Ok root /\
     np_key p = key /\
     (verify_nonexistence sha ics_spec p root key = true <-> forall r, neighbour m (sha key) r -> presentable pre m r)) \/
  (get_with_ics23_proof sha sha s pre key v = Err NoPreimage /\ exists r, neighbour m (sha key) r /\ pre !! r = None) \/
  (exists q r, get_with_ics23_proof sha sha s pre key v = Err (TreeErr (MissingNode (v, q))) /\
     neighbour m (sha key) r /\ ~ written_at (history ops) v r).
Proof.
  intros Hsha HR Hv Hpre m Hno Hne. pose proof (reached_inv _ _ _ _ HR) as HS.
  pose proof (root_ok sha sha s _ _ v HS Hv) as Hroot. fold m in Hroot.
  pose proof (wfM sha ops s v HR) as Hw. fold m in Hw.
  destruct (C38_exclusion_partial sha sha ops s v (sha key) HR Hv (Hsha key) Hno Hne) as [(e & E & Hex)|(q & r & E & Hn & Hnw)].
  2: { right. right. exists q, r. unfold get_with_ics23_proof. rewrite E. done. }
  unfold get_with_ics23_proof. rewrite E. cbn [lift rbind]. fold m in Hex. destruct Hex as [r p Hb Ha Hi|l p Hb Ha Hi|l r pl pr Hb Ha Hl Hr].
  - (* nothing below *)
    destruct (neighbour_ok sha Hsha ops s v HR Hv pre Hpre r p Hi) as (x & Hx & HL & Ht & He). fold m in Hx.
    unfold ics_nonexist, leaf_key. rewrite HL. cbn [rbind]. destruct (pre !! r) as [k|] eqn:Ek; cbn [some_or rbind].
    + left. rewrite Ht. cbn [some_or rbind]. rewrite (He k eq_refl). cbn [rbind]. eexists _, _. split; [done|]. split; [exact Hroot|]. split; [done|].
      unfold verify_nonexistence. cbn [np_left np_right]. cbn [andb].
      rewrite (left_path sha Hsha ops s v HR pre Hpre r k x Ek Hx), andb_true_r.
      2: { intros j Hj Hlt. destruct (klt_total (sha key) j) as [H|[<-|H]].
           - destruct Ha as (_ & _ & Ha). destruct (Ha j Hj H) as [->|H']; [by apply klt_irrefl in Hlt|by apply klt_asym in H'].
           - fold m in Hj. rewrite Hno in Hj. by destruct Hj.
           - by apply (Hb j Hj). }
      rewrite andb_true_iff. fold m. rewrite !compared_key. change (ep_key (exist_of sha m k x)) with k. change (ep_value (exist_of sha m k x)) with x.
      rewrite bytes_ltb_lt, (Hpre _ _ Ek).
      pose proof (present_verify sha Hsha ops s v HR pre Hpre r k x Ek Hx) as HP. fold m in HP. rewrite HP. split.
      * intros [H _] r' [Hb'|Ha']; [by destruct (Hb r' (proj1 Hb') (proj1 (proj2 Hb')))|]. by rewrite (above_unique _ _ _ _ Ha' Ha).
      * intros H. split; [apply H; by right|]. apply Ha.
    + right. left. split; [done|]. exists r. split; [by right|done].
  - (* nothing above *)
    unfold ics_nonexist. destruct (ics_neighbour_cases sha Hsha ops s v HR Hv pre Hpre l p Hi) as [(k & x & Ek & Hx & En)|[Ek En]]; rewrite En; cbn [rbind].
    + left. fold m in Hx. eexists _, _. split; [done|]. split; [exact Hroot|]. split; [done|].
      unfold verify_nonexistence. cbn [np_left np_right]. rewrite andb_true_r.
      rewrite (right_path sha Hsha ops s v HR pre Hpre l k x Ek Hx), andb_true_r.
      2: { intros j Hj Hlt. destruct (klt_total j (sha key)) as [H|[->|H]].
           - destruct Hb as (_ & _ & Hb). destruct (Hb j Hj H) as [->|H']; [by apply klt_irrefl in Hlt|by apply klt_asym in H'].
           - fold m in Hj. rewrite Hno in Hj. by destruct Hj.
           - by apply (Ha j Hj). }
      rewrite andb_true_iff. fold m. rewrite !compared_key. change (ep_key (exist_of sha m k x)) with k. change (ep_value (exist_of sha m k x)) with x.
      rewrite bytes_ltb_lt, (Hpre _ _ Ek).
      pose proof (present_verify sha Hsha ops s v HR pre Hpre l k x Ek Hx) as HP. fold m in HP. rewrite HP. split.
      * intros [H _] r' [Hb'|Ha']; [|by destruct (Ha r' (proj1 Ha') (proj1 (proj2 Ha')))]. by rewrite (below_unique _ _ _ _ Hb' Hb).
      * intros H. split; [apply H; by left|]. apply Hb.
    + right. left. split; [done|]. exists l. split; [by left|done].
  - (* between two *)
    unfold ics_nonexist. destruct (ics_neighbour_cases sha Hsha ops s v HR Hv pre Hpre r pr Hr) as [(k' & x' & Ek' & Hx' & En')|[Ek' En']]; rewrite En'; cbn [rbind].
    2: { right. left. split; [done|]. exists r. split; [by right|done]. }
    destruct (ics_neighbour_cases sha Hsha ops s v HR Hv pre Hpre l pl Hl) as [(k & x & Ek & Hx & En)|[Ek En]]; rewrite En; cbn [rbind].
    2: { right. left. split; [done|]. exists l. split; [by left|done]. }
    left. fold m in Hx, Hx'. eexists _, _. split; [done|]. split; [exact Hroot|]. split; [done|].
    unfold verify_nonexistence. fold m. cbn [np_left np_right].
    assert (neighbours (sp_inner ics_spec) (rev (ep_path (exist_of sha m k x))) (rev (ep_path (exist_of sha m k' x'))) = true) as ->.
    { cbn [exist_of ep_path]. rewrite !rev_involutive, (Hpre _ _ Ek), (Hpre _ _ Ek').
      apply (tops_neighbours sha Hsha (hvm sha m) l r (sha x) (sha x') Hw);
        [by apply M_some|by apply M_some|apply (klt_trans _ (sha key)); [apply Hb|apply Ha]|].
      intros j z Hj H1 H2. apply m_some in Hj. destruct (klt_total j (sha key)) as [H|[->|H]].
      - destruct Hb as (_ & _ & Hb). destruct (Hb j Hj H) as [->|H']; [by apply klt_irrefl in H1|by apply klt_asym in H'].
      - fold m in Hj. rewrite Hno in Hj. by destruct Hj.
      - destruct Ha as (_ & _ & Ha). destruct (Ha j Hj H) as [->|H']; [by apply klt_irrefl in H2|by apply klt_asym in H']. }
    rewrite andb_true_r, !andb_true_iff.
    rewrite !compared_key. change (ep_key (exist_of sha m k x)) with k. change (ep_value (exist_of sha m k x)) with x.
    change (ep_key (exist_of sha m k' x')) with k'. change (ep_value (exist_of sha m k' x')) with x'.
    rewrite !bytes_ltb_lt, (Hpre _ _ Ek), (Hpre _ _ Ek').
    pose proof (present_verify sha Hsha ops s v HR pre Hpre l k x Ek Hx) as HP. pose proof (present_verify sha Hsha ops s v HR pre Hpre r k' x' Ek' Hx') as HP'.
    fold m in HP, HP'. rewrite HP, HP'. split.
    + intros [[H _] [H' _]] j [Hb'|Ha']; [by rewrite (below_unique _ _ _ _ Hb' Hb)|by rewrite (above_unique _ _ _ _ Ha' Ha)].
    + intros H. split; (split; [apply H; [by left] || (apply H; by right)|]); [apply Hb|apply Ha].
Qed.

(** * C68: without hash collisions, an existence proof that verifies against
    the root of a tree is for a pair of the tree, and it is the one that the
    tree makes. *)
Lemma starts_with_app pre x : starts_with pre x = true -> exists e, x = pre ++ e.
Proof.
  unfold starts_with. intros E%bool_decide_eq_true. exists (drop (length pre) x). rewrite <-E at 1. symmetry. apply take_drop.
Qed.
Lemma verified_path sha m p k x : (forall y, length (sha y) = 32%nat) -> (forall k x, m !! k = Some x -> length k = 32%nat) ->
  good_hash sha (ics_inputs sha p ++ tree_inputs sha sha m) ->
  verify_existence sha ics_spec p (smt_root sha sha m) k x = true ->
  hvm sha m !! sha k = Some (sha x) /\ p = exist_of sha m k x.
Proof.
  intros Hsha Hm Hg H. pose proof (wfm_hvm sha m Hm) as Hw. unfold verify_existence in H. rewrite !andb_true_iff, !bool_decide_eq_true in H.
  destruct H as [[[Hf Ek] Ex] Hr]. unfold proof_fits in Hf. rewrite !andb_true_iff in Hf. destruct Hf as [[Hl _] Hi].
  destruct p as [pk px [lh lk lv ll lp] path]. unfold ics_inputs in Hg. cbn [ep_key ep_value ep_leaf ep_path lo_hash lo_prehash_key lo_prehash_value lo_length lo_prefix] in *. subst pk px.
  unfold leaf_fits in Hl. cbn [ics_spec sp_leaf ics_leaf lo_hash lo_prehash_key lo_prehash_value lo_length lo_prefix] in Hl.
  rewrite !andb_true_iff, !bool_decide_eq_true in Hl. destruct Hl as [[[[-> ->] ->] ->] Hp].
  apply starts_with_app in Hp as [e ->]. cbn [do_hash] in Hg. unfold proof_root in Hr. cbn [ep_key ep_value ep_leaf ep_path] in Hr.
  unfold apply_leaf, leaf_data in Hr. cbn [lo_hash lo_prehash_key lo_prehash_value lo_length lo_prefix do_hash do_length] in Hr.
  assert (apply_path sha path (sha ((leaf_domain ++ e) ++ sha k ++ sha x)) = Some (smt_root sha sha m)) as Hr'.
  { revert Hr. generalize (smt_root sha sha m). intros root. destruct k; [done|]. destruct x; [done|]. done. }
  clear Hr. rewrite smt_root_hash in Hr'. rewrite <-app_assoc in Hr', Hg.
  destruct (path_sound sha Hsha (hvm sha m) e (sha k) (sha x) (rev path) Hw) with (B := @nil bool) as (A & B & _ & D).
  - intros j y. unfold hvm. rewrite lookup_fmap. destruct (m !! j); [|done]. intros E. injection E as <-. apply Hsha.
  - apply Hsha.
  - apply Hsha.
  - apply Forall_rev, Forall_forall. intros o Ho%elem_of_list_In. rewrite forallb_forall in Hi. by apply Hi.
  - rewrite rev_involutive. rewrite inputs_nil in Hg. exact Hg.
  - rewrite rev_involutive. exact Hr'.
  - rewrite A. split; [exact B|]. unfold exist_of. rewrite app_nil_r. f_equal. rewrite <-(rev_involutive path), D. reflexivity.
Qed.
Theorem C68_ics23_existence_sound sha m p k x : (forall k x, m !! k = Some x -> length k = 32%nat) ->
  good_hash sha (ics_inputs sha p ++ tree_inputs sha sha m) ->
  verify_existence sha ics_spec p (smt_root sha sha m) k x = true ->
  exists y, m !! sha k = Some y /\ sha y = sha x.
Proof.
  intros Hm Hg H. destruct (verified_path sha m p k x (proj1 Hg) Hm Hg H) as [A _]. unfold hvm in A. rewrite lookup_fmap in A.
  destruct (m !! sha k) as [y|]; [|done]. exists y. split; [done|]. by injection A as ->.
Qed.
Theorem C68_ics23_existence_unique sha m p p' k x : (forall k x, m !! k = Some x -> length k = 32%nat) ->
  good_hash sha (ics_inputs sha p ++ tree_inputs sha sha m) -> good_hash sha (ics_inputs sha p' ++ tree_inputs sha sha m) ->
  verify_existence sha ics_spec p (smt_root sha sha m) k x = true ->
  verify_existence sha ics_spec p' (smt_root sha sha m) k x = true -> p = p'.
Proof.
  intros Hm Hg Hg' H H'. destruct (verified_path sha m p k x (proj1 Hg) Hm Hg H) as [_ ->].
  by destruct (verified_path sha m p' k x (proj1 Hg) Hm Hg' H') as [_ ->].
Qed.

(** * C69: without hash collisions, a key with a non-existence proof that
    verifies against the root of a tree is absent from the tree. *)
Definition side_inputs (sha : bytes -> bytes) (p : option exist_proof) : list bytes :=
  match p with Some p => ics_inputs sha p | None => [] end.
Theorem C69_ics23_nonexistence_sound sha m p key : (forall k x, m !! k = Some x -> length k = 32%nat) ->
  good_hash sha (side_inputs sha (np_left p) ++ side_inputs sha (np_right p) ++ tree_inputs sha sha m) ->
  verify_nonexistence sha ics_spec p (smt_root sha sha m) key = true -> m !! sha key = None.
Proof.
  intros Hm Hg H. destruct (m !! sha key) as [z|] eqn:Ez; [exfalso|done]. pose proof (wfm_hvm sha m Hm) as Hw.
  pose proof (proj1 Hg) as Hsha.
  assert (forall a b c, good_hash sha (a ++ b ++ c) -> good_hash sha (a ++ c) /\ good_hash sha (b ++ c)) as Hsub.
  { clear. intros a b c (A & B & C). rewrite !Forall_app in C. destruct C as (C1 & C2 & C3).
    split; (split; [done|]; split; [intros y w Hy Hz; apply B; set_solver|rewrite Forall_app; done]). }
  apply Hsub in Hg as [Hgl Hgr].
  assert (forall B, hashB (sm_leaf sha) (sm_internal sha) placeholder B (hvm sha m) = placeholder -> cnt B (hvm sha m) = 0%nat) as Hph.
  { intros B. apply (noph_iff sha [] (hvm sha m) B); [|apply prefix_nil]. apply noph_tree; [done|].
    destruct Hgl as (_ & _ & C). rewrite Forall_app in C. apply C. }
  assert (hvm sha m !! sha key = Some (sha z)) as Hz by (unfold hvm; by rewrite lookup_fmap, Ez).
  unfold verify_nonexistence in H. rewrite !andb_true_iff in H. destruct H as [[HL HR] HN].
  destruct (np_left p) as [l|], (np_right p) as [r|]; [| | |done]; cbn [side_inputs] in *.
  - apply andb_prop in HL as [HL Hlt]. apply andb_prop in HR as [HR Hgt]. rewrite compared_key in Hlt, Hgt.
    destruct (verified_path sha m l _ _ Hsha Hm Hgl HL) as [A El]. destruct (verified_path sha m r _ _ Hsha Hm Hgr HR) as [B Er].
    rewrite El, Er in HN. cbn [exist_of ep_path] in HN. rewrite !rev_involutive in HN. rewrite compared_key, bytes_ltb_lt in Hlt, Hgt.
    exact (between_gap sha Hsha (hvm sha m) Hw Hph _ _ _ _ A B HN (sha key) (sha z) Hz Hlt Hgt).
  - apply andb_prop in HL as [HL Hlt]. rewrite !compared_key, bytes_ltb_lt in Hlt.
    destruct (verified_path sha m l _ _ Hsha Hm Hgl HL) as [A El]. rewrite El in HN. cbn [exist_of ep_path] in HN.
    apply (right_gap sha Hsha (hvm sha m) Hw Hph _ _ 0 A) with (l := sha key) (y := sha z); [|done|apply prefix_nil|done].
    rewrite drop_0. unfold right_most in *. rewrite forallb_forall in *. intros o Ho. apply HN. by apply -> in_rev.
  - apply andb_prop in HR as [HR Hgt]. rewrite !compared_key, bytes_ltb_lt in Hgt.
    destruct (verified_path sha m r _ _ Hsha Hm Hgr HR) as [A Er]. rewrite Er in HN. cbn [exist_of ep_path] in HN.
    apply (left_gap sha Hsha (hvm sha m) Hw Hph _ _ 0 A) with (l := sha key) (y := sha z); [|done|apply prefix_nil|done].
    rewrite drop_0. unfold left_most in *. rewrite forallb_forall in *. intros o Ho. apply HN. by apply -> in_rev.
Qed.

(** ** Examples, with the cheap hash [mix]: four keys, the first written again
    at version 1. *)
Definition ics_ops : list op :=
  [OpPut [[(mix [x61], Some [x01]); (mix [x62], Some [x02]); (mix [x65], Some [x03]); (mix [xc1], Some [x04])]];
   OpPut [[(mix [x61], Some [x05])]]].
Definition ics_store : store := match run mix mix ics_ops with Ok s => s | _ => empty_store end.
Definition ics_pre : gmap bytes bytes := list_to_map (map (fun k => (mix k, k)) [[x61]; [x62]; [x65]; [xc1]]).
Lemma ics_reached : reached mix mix ics_ops ics_store.
Proof.
  split; [split; [apply wf_setsb; vm_compute; reflexivity|vm_compute; discriminate]|].
  assert (H : (match run mix mix ics_ops with Ok _ => true | _ => false end) = true) by (vm_compute; reflexivity).
  unfold ics_store. revert H. destruct (run mix mix ics_ops); [reflexivity|discriminate..].
Qed.
Lemma ics_pre_ok l p : ics_pre !! l = Some p -> mix p = l.
Proof.
  unfold ics_pre. intros H%elem_of_list_to_map_2. apply elem_of_list_In, in_map_iff in H as (k & E & _). by injection E as <- <-.
Qed.
Definition ics_proof (k : bytes) (v : N) : exist_proof :=
  match get_with_ics23_proof mix mix ics_store ics_pre k v with Ok (_, Exist p) => p | _ => ExistProof [] [] ics_leaf [] end.
Definition ics_noproof (k : bytes) (v : N) : nonexist_proof :=
  match get_with_ics23_proof mix mix ics_store ics_pre k v with Ok (_, Nonexist p) => p | _ => NonexistProof [] None None end.
Definition ics_root (v : N) : bytes := match get_root_hash mix ics_store v with Ok r => r | _ => [] end.
(** The path of the second key has eight steps, four of them past empty
    subtrees. *)
Example C66_example : reached mix mix ics_ops ics_store /\ low ics_ops <= 1 < versions ics_ops /\
  contents_at (history ics_ops) 1 !! mix [x62] = Some [x02] /\
  length (ep_path (ics_proof [x62] 1)) = 8%nat /\ right_most (sp_inner ics_spec) (ep_path (ics_proof [x62] 1)) = false /\
  verify_existence mix ics_spec (ics_proof [x62] 1) (ics_root 1) [x62] [x02] = true /\
  verify_existence mix ics_spec (ics_proof [x62] 1) (ics_root 1) [x62] [x03] = false /\
  verify_existence mix ics_spec (ics_proof [x62] 1) (ics_root 0) [x62] [x02] = false.
Proof. split; [exact ics_reached|]. split; [vm_compute; split; [discriminate|reflexivity]|]. vm_compute. repeat split. Qed.
(** Another hasher [H]: the proof says SHA-256 all the same. *)
Definition other (x : bytes) : bytes := mix (x00 :: x).
Definition other_ops : list op := [OpPut [[(other [x61], Some [x01])]]].
Definition other_store : store := match run mix other other_ops with Ok s => s | _ => empty_store end.
Theorem C66_ics23_other_hasher_refuted : exists sha hv ops s v key x p root, (forall y, length (sha y) = 32%nat) /\ (forall y, length (hv y) = 32%nat) /\
  reached sha hv ops s /\ low ops <= v < versions ops /\ contents_at (history ops) v !! hv key = Some x /\
  key <> [] /\ x <> [] /\ shallow (contents_at (history ops) v) (hv key) /\
  get_with_ics23_proof sha hv s ∅ key v = Ok (Some x, Exist p) /\ get_root_hash sha s v = Ok root /\
  verify_existence sha ics_spec p root key x = false.
Proof.
  assert (HR : reached mix other other_ops other_store).
  { split; [split; [apply wf_setsb; vm_compute; reflexivity|vm_compute; discriminate]|].
    assert (H : (match run mix other other_ops with Ok _ => true | _ => false end) = true) by (vm_compute; reflexivity).
    unfold other_store. revert H. destruct (run mix other other_ops); [reflexivity|discriminate..]. }
  assert (H : match get_with_ics23_proof mix other other_store ∅ [x61] 0, get_root_hash mix other_store 0 with
      | Ok (Some x, Exist p), Ok root => bool_decide (x = [x01]) && negb (verify_existence mix ics_spec p root [x61] [x01])
      | _, _ => false end = true) by (vm_compute; reflexivity).
  destruct (get_with_ics23_proof mix other other_store ∅ [x61] 0) as [[[x|] [p|p]]| | |] eqn:E1; try discriminate H.
  destruct (get_root_hash mix other_store 0) as [root| | |] eqn:E2; try discriminate H.
  apply andb_prop in H as [H1%bool_decide_eq_true H2%negb_true_iff]. subst x.
  exists mix, other, other_ops, other_store, 0, [x61], [x01], p, root. split; [intros; apply mix_length|]. split; [intros; apply mix_length|].
  split; [exact HR|]. split; [vm_compute; split; [discriminate|reflexivity]|]. split; [vm_compute; reflexivity|].
  split; [discriminate|]. split; [discriminate|]. split; [|exact (conj E1 (conj E2 H2))].
  intros l [y Hl] Hne. exfalso. apply Hne.
  apply elem_of_map_to_list in Hl. assert (Em : map_to_list (contents_at (history other_ops) 0) = [(other [x61], [x01])]) by (vm_cast_no_check (@eq_refl _ [(other [x61], [x01])])).
  rewrite Em in Hl. apply elem_of_list_singleton in Hl. exact (f_equal fst Hl).
Qed.
Print Assumptions C66_ics23_existence_partial.
Print Assumptions C66_ics23_deep_refuted.
Print Assumptions C66_ics23_empty_value_refuted.
Print Assumptions C66_ics23_other_hasher_refuted.

(** Absent keys before, between and after the present ones. *)
Example C67_example : reached mix mix ics_ops ics_store /\ low ics_ops <= 0 < versions ics_ops /\
  (forall l p, ics_pre !! l = Some p -> mix p = l) /\
  Forall (fun k => contents_at (history ics_ops) 0 !! mix k = None) [[x60]; [x63]; [x70]; [xd0]] /\
  map (fun k => verify_nonexistence mix ics_spec (ics_noproof k 0) (ics_root 0) k) [[x60]; [x63]; [x70]; [xd0]] = [true; true; true; true] /\
  map (fun k => ((fun p => length (ep_path p)) <$> np_left (ics_noproof k 0), (fun p => length (ep_path p)) <$> np_right (ics_noproof k 0)))
    [[x60]; [x63]; [x70]; [xd0]] =
  [(None, Some 8%nat); (Some 8%nat, Some 4%nat); (Some 4%nat, Some 1%nat); (Some 1%nat, None)] /\
  map (fun k => verify_nonexistence mix ics_spec (ics_noproof [x63] 0) (ics_root 0) k) [[x60]; [x64]; [x65]; [x70]] = [false; true; false; false].
Proof.
  split; [exact ics_reached|]. split; [vm_compute; split; [discriminate|reflexivity]|]. split; [exact ics_pre_ok|].
  split; [repeat constructor; vm_compute; reflexivity|]. vm_compute. repeat split.
Qed.
(** No proof at version 1 for a key whose neighbours are older, though both are
    presentable. *)
Theorem C67_ics23_nonexistence_refuted : exists sha ops s pre key v, (forall y, length (sha y) = 32%nat) /\
  reached sha sha ops s /\ low ops <= v < versions ops /\ (forall l p, pre !! l = Some p -> sha p = l) /\
  contents_at (history ops) v !! sha key = None /\ contents_at (history ops) v <> ∅ /\
  (forall r, is_Some (contents_at (history ops) v !! r) -> presentable pre (contents_at (history ops) v) r) /\
  exists q, get_with_ics23_proof sha sha s pre key v = Err (TreeErr (MissingNode (v, q))).
Proof.
  exists mix, ics_ops, ics_store, ics_pre, [x70], 1. split; [exact mix_length|]. split; [exact ics_reached|].
  split; [vm_compute; split; [discriminate|reflexivity]|]. split; [exact ics_pre_ok|].
  split; [vm_compute; reflexivity|]. split; [intros H; apply (f_equal size) in H; vm_compute in H; discriminate H|]. split.
  - intros r [x Hr].
    assert (forallb (fun '(l, y) => match ics_pre !! l with Some (_ :: _) => match y with [] => false | _ => true end | _ => false end &&
      forallb (fun '(l', _) => bool_decide (l' = l) || negb (bool_decide (take 64 (key_bits l') = take 64 (key_bits l))))
        (map_to_list (contents_at (history ics_ops) 1))) (map_to_list (contents_at (history ics_ops) 1)) = true) as H by (vm_compute; reflexivity).
    rewrite forallb_forall in H. specialize (H (r, x)). rewrite <-elem_of_list_In, elem_of_map_to_list in H. specialize (H Hr).
    cbn beta iota in H. apply andb_prop in H as [H1 H2]. destruct (ics_pre !! r) as [[|c p]|] eqn:Ep; [discriminate H1| |discriminate H1].
    exists (c :: p), x. split; [exact Ep|]. split; [exact Hr|]. split; [intros Hc; discriminate Hc|]. split; [intros Hx; subst x; discriminate H1|].
    intros l [y Hl] Hne E. rewrite forallb_forall in H2. specialize (H2 (l, y)). rewrite <-elem_of_list_In, elem_of_map_to_list in H2. specialize (H2 Hl).
    cbn beta iota in H2. apply orb_prop in H2 as [H2%bool_decide_eq_true|H2%negb_true_iff%bool_decide_eq_false]; [exact (Hne H2)|exact (H2 E)].
  - eexists. vm_compute. reflexivity.
Qed.
Print Assumptions C67_ics23_nonexistence_partial.
Print Assumptions C67_ics23_nonexistence_refuted.

Definition ics_m : gmap bytes bytes := contents_at (history ics_ops) 1.
Lemma ics_m_wf k x : ics_m !! k = Some x -> length k = 32%nat.
Proof. apply (contents_32 mix mix ics_ops ics_store 1 k x ics_reached). Qed.
Example C68_example : (forall k x, ics_m !! k = Some x -> length k = 32%nat) /\
  good_hash mix (ics_inputs mix (ics_proof [x62] 1) ++ tree_inputs mix mix ics_m) /\
  verify_existence mix ics_spec (ics_proof [x62] 1) (smt_root mix mix ics_m) [x62] [x02] = true /\
  length (ics_inputs mix (ics_proof [x62] 1)) = 9%nat.
Proof. split; [exact ics_m_wf|]. split; [apply good_mixb; vm_compute; reflexivity|]. split; vm_compute; reflexivity. Qed.
Example C69_example : good_hash mix (side_inputs mix (np_left (ics_noproof [x63] 1)) ++ side_inputs mix (np_right (ics_noproof [x63] 1)) ++
    tree_inputs mix mix ics_m) /\
  verify_nonexistence mix ics_spec (ics_noproof [x63] 1) (smt_root mix mix ics_m) [x63] = true.
Proof. split; [apply good_mixb; vm_compute; reflexivity|vm_compute; reflexivity]. Qed.
Print Assumptions C68_ics23_existence_sound.
Print Assumptions C68_ics23_existence_unique.
Print Assumptions C69_ics23_nonexistence_sound.
