(** The restoration of a tree, from the first call to [finish]. *)
From Coq Require Import Sorting.Sorted.
From Verif Require Import Base JmtNibModel JmtNibProof JmtSpec JmtTraceSpec JmtNibSpec JmtModel JmtHashProof JmtAbsProof JmtCacheProof
  JmtInsertProof JmtPutProof JmtHistProof JmtRunSpec JmtValueProof JmtRunProof JmtReadProof JmtProofProof JmtPropProof JmtOrderProof
  JmtIterModel JmtIterProof JmtIterSpec JmtRestoreModel JmtRestoreProof JmtRestoreAddProof JmtRestoreVerifyProof JmtRestoreSpec
  JmtRestoreCheckProof JmtRestoreRunSpec JmtRestoreRunProof JmtRestoreFinishProof.
Local Open Scope nat_scope.

Lemma increasing_det prev c l l' : increasing_part prev c l -> increasing_part prev c l' -> l = l'.
Proof.
  intros H. revert l'. induction H as [prev|prev k x c l Hf H IH|prev k x c Hf]; intros l' H'.
  - by inversion H'.
  - inversion H' as [|? ? ? ? l2 Hf2 H2|? ? ? ? Hf2]; subst; [|done]. f_equal. by apply IH.
  - inversion H' as [|? ? ? ? l2 Hf2 H2|? ? ? ? Hf2]; subst; done.
Qed.
Lemma received_det cs l l' : received cs l -> received cs l' -> l = l'.
Proof.
  intros H. revert l'. induction H as [|cs l c l1 H IH H1]; intros l' H'.
  - inversion H' as [|cs2 l2 c2 l2' H2 H3 E1 E2]; [done|]. by destruct cs2.
  - inversion H' as [E1 E2|cs2 l2 c2 l2' H2 H3 E1 E2]; [by destruct cs|].
    apply app_inj_tail in E1 as [-> ->]. rewrite (IH _ H2) in *. f_equal. by eapply increasing_det.
Qed.

(** Ascending lists are increasing. *)
Lemma ascending_increasing l c : ascending (l ++ c) -> increasing_part (last_key l) c c.
Proof.
  revert l. induction c as [|[k x] c IH]; intros l H; [apply ip_nil|]. apply ip_cons.
  - unfold last_key. destruct (last l) as [[k0 x0]|] eqn:E; cbn; [|done]. apply last_Some in E as [l' ->].
    unfold ascending in H. rewrite <-app_assoc in H. clear IH.
    induction l' as [|a l' IHl]; cbn [app] in H; inversion H as [|? ? H1 H2]; subst; [|by apply IHl].
    apply Forall_cons in H2 as [? _]. done.
  - rewrite <-(last_key_snoc l k x). apply IH. by rewrite <-app_assoc.
Qed.
Lemma ascending_NoDup l : ascending l -> NoDup (l.*1).
Proof.
  induction 1 as [|[k x] l H IH Hf]; cbn; constructor; [|done]. intros ([k' x'] & E & Hin)%elem_of_list_fmap. cbn in E. subst k'.
  rewrite Forall_forall in Hf. specialize (Hf _ Hin). cbn in Hf. by apply klt_irrefl in Hf.
Qed.
Lemma ascending_app_l l1 l2 : ascending (l1 ++ l2) -> ascending l1.
Proof.
  unfold ascending. induction l1 as [|a l1 IH]; cbn [app]; intros H; constructor; inversion H as [|? ? H1 H2]; subst.
  - by apply IH.
  - by apply Forall_app in H2 as [? _].
Qed.
Lemma ascending_split l1 l2 a b : ascending (l1 ++ l2) -> a ∈ l1 -> b ∈ l2 -> bytes_lt (fst a) (fst b).
Proof.
  unfold ascending. intros H Ha Hb. induction l1 as [|c l1 IH]; [by apply elem_of_nil in Ha|].
  cbn [app] in H. inversion H as [|? ? H1 H2]; subst. apply elem_of_cons in Ha as [->|Ha]; [|by apply IH].
  rewrite Forall_forall in H2. apply H2. apply elem_of_app. by right.
Qed.

Section Props.
Context (sha hv : bytes -> bytes).
Notation hvm := (hvm hv).
Notation smt_root := (smt_root sha hv).
Notation bpath := (bpath sha).
Notation no_empty m := (Forall (fun x => sha x <> spec_empty_hash) (tree_inputs sha hv m)).

Lemma range_proof_ok ops s u k x : reached sha hv ops s -> (low ops <= u < versions ops)%N -> length k = 32 ->
  contents_at (history ops) u !! k = Some x ->
  get_range_proof sha s k u =
    Ok (rev (pick false (snd (bpath (hvm (contents_at (history ops) u)) [] (key_bits k))) (key_bits k))).
Proof.
  intros HR Hu Hk Hx. pose proof (reached_inv _ _ _ _ HR) as HS. unfold get_range_proof.
  rewrite (read_ok sha hv s _ _ k u HS Hu Hk). cbn [rbind]. rewrite Hx. unfold made_proof, proof_of.
  destruct (bpath _ _ _) as [l sb]. cbn [snd p_siblings]. rewrite rev_involutive, iter_bits_key by done.
  by rewrite right_siblings_pick.
Qed.
Lemma inputs_nil m : tree_inputs sha hv m =
  smt_inputs sha (256 - length (@nil bool)) (length (@nil bool)) (map_to_list (subm [] (hvm m))).
Proof. rewrite subm_nil. change (length (@nil bool)) with 0. by rewrite <-tree_inputs_eq. Qed.
Lemma noph_tree m : wfm (hvm m) -> no_empty m -> noph sha [] (hvm m).
Proof. intros Hw Hn. apply noph_good; [done|]. rewrite inputs_nil in Hn. exact Hn. Qed.

Section One.
Context (t : store) (v : N) (root : bytes) (lo : gmap bytes bytes).
Hypothesis Hfresh : fresh t v.
Notation RI := (RI sha hv t v root lo).

Lemma accept_complete st st1 Wr Pd c m k x : add_pairs sha hv st c = Ok (st1, true) -> c <> [] -> RI st1 Wr Pd ->
  last (Wr ++ Pd) = Some (k, x) -> (forall k' y, m !! k' = Some y -> length k' = 32) -> root = smt_root m -> no_empty m ->
  (forall k' y, (k', y) ∈ Wr ++ Pd <-> m !! k' = Some y /\ key_le k' k) ->
  exists st', add_chunk sha hv st c (rev (pick false (snd (bpath (hvm m) [] (key_bits k))) (key_bits k))) = RDone st' None /\
    RI st' (Wr ++ Pd) [].
Proof.
  intros E1 Hne H1 El Hm Hroot Hn Hiff. set (right := rev _).
  pose proof (ri_tree _ _ _ _ _ _ _ _ _ H1) as Ht. pose proof (ri_prev _ _ _ _ _ _ _ _ _ H1) as Hp.
  pose proof (ri_dup _ _ _ _ _ _ _ _ _ H1) as Hd. rewrite El in Ht, Hp. destruct Ht as [p HP].
  assert (to_map (Wr ++ Pd) !! k = Some x) as Hk.
  { apply to_map_elem; [done|]. apply last_Some in El as [l' ->]. apply elem_of_app. right. by left. }
  assert (wfm (hvm m)) as Hw0 by by apply wfm_hvm.
  assert (rs_verify sha st1 right = Ok tt) as EV.
  { apply (verify_complete sha v (hvm (to_map (Wr ++ Pd))) (hvm m) k Hw0) with (p := p) (vh := hv x).
    - apply (Hm k x). apply Hiff. by apply to_map_elem.
    - intros l y. unfold JmtPutProof.hvm. rewrite !lookup_fmap, !fmap_Some. split.
      + intros (z & Hz & ->). apply to_map_elem in Hz; [|done]. apply Hiff in Hz as [Hz Hle]. eauto.
      + intros [(z & Hz & ->) Hle]. exists z. split; [|done]. apply to_map_elem; [done|]. by apply Hiff.
    - apply (pd_wf _ _ _ _ _ _ _ _ HP).
    - exact HP.
    - exact Hp.
    - unfold JmtPutProof.hvm. by rewrite lookup_fmap, Hk.
    - rewrite (ri_root _ _ _ _ _ _ _ _ _ H1), Hroot. apply smt_root_hash.
    - by apply noph_tree. }
  destruct (RI_hist_ok sha hv t v root lo Hfresh st1 Wr Pd H1) as (h & Eh & Hh).
  destruct (RI_accept sha hv t v root lo st1 Wr Pd h H1) as (s & Es & H2); [intros E; by rewrite E in El|done..|].
  unfold add_chunk. destruct c as [|kx c]; [done|]. rewrite E1, EV, Es. eauto.
Qed.

Lemma chunk_complete st Wr Pd c m k x : RI st Wr Pd -> wf_chunk c -> increasing_part (last_key (Wr ++ Pd)) c c ->
  last c = Some (k, x) -> (forall k' y, m !! k' = Some y -> length k' = 32) -> root = smt_root m -> no_empty m ->
  (forall k' y, (k', y) ∈ (Wr ++ Pd) ++ c <-> m !! k' = Some y /\ key_le k' k) ->
  exists st', add_chunk sha hv st c (rev (pick false (snd (bpath (hvm m) [] (key_bits k))) (key_bits k))) = RDone st' None /\
    RI st' ((Wr ++ Pd) ++ c) [].
Proof.
  intros H Hc Hi Hl Hm Hroot Hn Hiff. assert (c <> []) as Hne by (by destruct c).
  destruct (add_pairs_ok sha hv t v root lo Hfresh c st Wr Pd H Hc) as (st1 & l & b & E1 & Hil & H1 & Hb).
  assert (l = c) as -> by by eapply increasing_det. rewrite (proj2 Hb eq_refl) in E1.
  setoid_rewrite <-app_assoc in Hiff. rewrite <-app_assoc. apply (accept_complete st st1 Wr (Pd ++ c) c m k x); try done.
  apply last_Some in Hl as [c' ->]. by rewrite !app_assoc, last_snoc.
Qed.

Lemma chunk_sound st Wr Pd c right st' m : RI st Wr Pd -> wf_chunk c -> add_chunk sha hv st c right = RDone st' None ->
  Forall (fun s : bytes => length s = 32) right -> (forall k' y, m !! k' = Some y -> length k' = 32) -> root = smt_root m ->
  forall l k x, increasing_part (last_key (Wr ++ Pd)) c l -> last ((Wr ++ Pd) ++ l) = Some (k, x) ->
  good_hash sha (range_inputs sha hv (to_map ((Wr ++ Pd) ++ l)) k x right ++ tree_inputs sha hv (to_map ((Wr ++ Pd) ++ l)) ++ tree_inputs sha hv m) ->
  forall k' h, (exists y, (k', y) ∈ (Wr ++ Pd) ++ l /\ hv y = h) <-> (exists y, m !! k' = Some y /\ hv y = h) /\ key_le k' k.
Proof.
  intros H Hc E Hr32 Hm Hroot l k x Hil Hlast Hg.
  destruct (add_chunk_ok sha hv t v root lo Hfresh st Wr Pd c right H Hc) as (st2 & e & Wr' & Pd' & l2 & E2 & H' & Hil2 & Eq & He & Hpd & Hst).
  rewrite E in E2. injection E2 as <- <-. assert (l2 = l) as -> by by eapply increasing_det.
  destruct He as [He _]. destruct (He eq_refl) as (Hne & -> & st1 & E1 & EV). destruct (Hst Hne eq_refl) as (st3 & E3 & H1).
  rewrite E1 in E3. injection E3 as <-. rewrite <-app_assoc in Hlast, Hg.
  pose proof (ri_tree _ _ _ _ _ _ _ _ _ H1) as Ht. pose proof (ri_prev _ _ _ _ _ _ _ _ _ H1) as Hp.
  pose proof (ri_dup _ _ _ _ _ _ _ _ _ H1) as Hd. rewrite Hlast in Ht, Hp. destruct Ht as [p HP].
  assert (to_map (Wr ++ Pd ++ c) !! k = Some x) as Hk.
  { apply to_map_elem; [done|]. apply last_Some in Hlast as [l' ->]. apply elem_of_app. right. by left. }
  assert (wfm (hvm m)) as Hw0 by by apply wfm_hvm.
  assert (forall l y, hvm (to_map (Wr ++ Pd ++ c)) !! l = Some y <-> hvm m !! l = Some y /\ key_le l k) as Hiff.
  { apply (verify_sound sha v st1 _ _ k p (hv x) right HP Hp).
    - unfold JmtPutProof.hvm. by rewrite lookup_fmap, Hk.
    - done.
    - rewrite (ri_root _ _ _ _ _ _ _ _ _ H1), Hroot. apply smt_root_hash.
    - done.
    - rewrite <-!inputs_nil. exact Hg.
    - done. }
  intros k' h. specialize (Hiff k' h). rewrite <-app_assoc. unfold JmtPutProof.hvm in Hiff. rewrite !lookup_fmap, !fmap_Some in Hiff.
  split.
  - intros (y & Hy & Ey). destruct Hiff as [Hiff _]. destruct Hiff as [(z & Hz & Ez) Hle].
    + exists y. split; [|done]. by apply to_map_elem.
    + split; [|done]. by exists z.
  - intros [(y & Hy & Ey) Hle]. destruct Hiff as [_ Hiff]. destruct Hiff as (z & Hz & Ez).
    + split; [|done]. by exists y.
    + exists z. split; [|done]. by apply to_map_elem.
Qed.

(** All chunks of a tree, in order, with its range proofs. *)
Lemma feed_all_ok ops s u : reached sha hv ops s -> (low ops <= u < versions ops)%N ->
  let m := contents_at (history ops) u in root = smt_root m -> no_empty m ->
  forall rest cs st Wr, RI st Wr [] -> ascending (Wr ++ concat (map fst cs) ++ rest) ->
  (forall k y, (k, y) ∈ Wr ++ concat (map fst cs) ++ rest <-> m !! k = Some y) ->
  Forall (fun c : sent => exists k x, last (fst c) = Some (k, x) /\ get_range_proof sha s k u = Ok (snd c)) cs ->
  exists st', feed_all sha hv st cs = Some st' /\ RI st' (Wr ++ concat (map fst cs)) [].
Proof.
  intros HR Hu m Hroot Hn.
  assert (forall k' y, m !! k' = Some y -> length k' = 32) as Hm.
  { intros k y. apply contents_wf. apply (si_wf _ _ _ _ _ (reached_inv _ _ _ _ HR)). }
  intros rest. induction cs as [|[c right] cs IH]; intros st Wr H Ha Hiff Hcs.
  { exists st. cbn [map concat feed_all]. by rewrite app_nil_r. }
  apply Forall_cons in Hcs as [(k & x & Hl & Hrp) Hcs]. cbn [fst snd] in Hl, Hrp. cbn [map concat fst] in Ha, Hiff |- *.
  rewrite <-app_assoc, app_assoc in Ha. rewrite <-app_assoc in Hiff.
  assert ((k, x) ∈ c) as Hkc by (apply last_Some in Hl as [c' ->]; apply elem_of_app; right; by left).
  assert (m !! k = Some x) as Hk by (apply Hiff; set_solver).
  rewrite (range_proof_ok _ _ _ _ _ HR Hu (Hm _ _ Hk) Hk) in Hrp. injection Hrp as <-. fold m.
  destruct (chunk_complete st Wr [] c m k x H) as (st' & E & H').
  - apply Forall_forall. intros [k' y] Hin. cbn. apply (Hm k' y). apply Hiff. set_solver.
  - rewrite app_nil_r. apply ascending_increasing. by eapply ascending_app_l.
  - done.
  - done.
  - done.
  - done.
  - intros k' y. rewrite app_nil_r. split.
    + intros Hin. split; [apply Hiff; set_solver|]. apply ascending_app_l in Ha. apply last_Some in Hl as [c' Ec].
      rewrite Ec, app_assoc in Ha, Hin. apply elem_of_app in Hin as [Hin|Hin].
      * right. apply (ascending_split _ _ _ (k, x) Ha Hin). by left.
      * apply elem_of_list_singleton in Hin. injection Hin as -> ->. by left.
    + intros [Hy Hle]. apply Hiff in Hy. rewrite app_assoc in Hy. apply elem_of_app in Hy as [Hy|Hy]; [done|exfalso].
      assert (bytes_lt k k') as Hlt.
      { apply (ascending_split _ _ (k, x) (k', y) Ha); [apply elem_of_app; by right|done]. }
      destruct Hle as [->|Hle]; [by apply klt_irrefl in Hlt|]. by apply (klt_irrefl k), (klt_trans _ k').
  - cbn [feed_all]. rewrite E. rewrite app_nil_r in H'.
    destruct (IH st' (Wr ++ c) H') as (st2 & E2 & H2); [done| |done|].
    + intros k' y. rewrite <-app_assoc. apply Hiff.
    + exists st2. by rewrite <-app_assoc in H2.
Qed.
End One.

Section Start.
Context (t : store) (v : N) (root : bytes).
Hypothesis Hfresh : fresh t v.
Notation RI := (RI sha hv t v root ∅).

Lemma feed_start cs l st : Forall (fun c : sent => wf_chunk (fst c)) cs -> feed sha hv (new_overwrite t v root) cs = Some st ->
  received (map fst cs) l -> exists Wr Pd, RI st Wr Pd /\ Wr ++ Pd = l.
Proof.
  intros Hc E Hl. destruct (feed_ok sha hv t v root ∅ Hfresh cs _ [] [] (RI_new sha hv t v root Hfresh) Hc [] rc_nil)
    as (st' & Wr & Pd & E' & H & Hr). rewrite E in E'. injection E' as <-. exists Wr, Pd. split; [done|].
  cbn [app] in Hr. by eapply received_det.
Qed.
Lemma feed_total cs : Forall (fun c : sent => wf_chunk (fst c)) cs ->
  exists st Wr Pd, feed sha hv (new_overwrite t v root) cs = Some st /\ RI st Wr Pd /\ received (map fst cs) (Wr ++ Pd).
Proof. intros Hc. apply (feed_ok sha hv t v root ∅ Hfresh cs _ [] [] (RI_new sha hv t v root Hfresh) Hc [] rc_nil). Qed.
End Start.
End Props.
