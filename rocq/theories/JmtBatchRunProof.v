(** A batch call and a call of [put_value_sets] agree. *)
From Verif Require Import Base JmtNibModel JmtSpec JmtNibSpec JmtNibProof JmtNibMoreProof JmtModel JmtHashProof
  JmtAbsProof JmtCacheProof JmtInsertProof JmtPutProof JmtHistProof JmtValueProof JmtBatchModel
  JmtBatchListProof JmtBatchProof.
Local Open Scope nat_scope.

Section Run.
Context (sha hv : bytes -> bytes).
Notation sm_leaf := (sm_leaf sha).
Notation sm_internal := (sm_internal sha).
Notation hashP := (hashB sm_leaf sm_internal placeholder).
Notation phash p M := (hashP (path_bits p) M).
Notation node_of := (node_of sha).
Notation tr := (tr sha).
Notation PInv := (PInv sha).
Notation hvm := (hvm hv).

(** ** One write after the other, on versions *)
Definition setver (v : N) (ks : list bytes) (M : pairs) (ver : path -> N) (q : path) : N :=
  if decide (Exists (fun k => q `prefix_of` nibs k) ks) then v
  else if decide (live [] M q) then ver q else v.

Lemma live_insert k x M q : live [] M q -> live [] (<[k := x]> M) q.
Proof.
  assert (forall p, pcnt p M <= pcnt p (<[k := x]> M)) as Hg.
  { intros p. apply (grow M (<[k := x]> M) [(k, x)]).
    - intros y ->%elem_of_list_singleton. apply lookup_insert.
    - intros k' H. rewrite lookup_insert_ne; [done|]. intros ->. apply (H x). left. }
  intros (H1 & H2 & H3). split_and!; [done| |].
  - pose proof (Hg q). lia.
  - destruct H3 as [H3|H3]; [by left|right]. pose proof (Hg (removelast q)). lia.
Qed.
Lemma put_set_ver v old kvs : forall tc m ver,
  Forall (fun x : kv => length (fst x) = 32) kvs -> PInv v old tc (hvm m) ver ->
  exists tc' ver', put_set sha hv v (somes kvs) tc = Ok tc' /\
    PInv v old tc' (hvm (apply_set m (somes kvs))) ver' /\ frame' tc tc' /\
    tc_values tc' = set_values v (somes kvs) (tc_values tc) /\
    forall q, live [] (hvm (apply_set m (somes kvs))) q -> ver' q = setver v (map fst kvs) (hvm m) ver q.
Proof.
  induction kvs as [|[k x] kvs IH]; intros tc m ver Hwf HP.
  - exists tc, ver. split_and!; try done. intros q Hq. unfold setver. rewrite decide_False by (cbn; by intros ?%Exists_nil).
    by rewrite decide_True.
  - inversion Hwf as [|? ? Hk Hwf']; subst. cbn [somes map fst snd put_set]. fold (somes kvs). unfold put_one.
    pose proof (PInv_put_value sha v old tc (hvm m) ver v k (Some x) HP) as HP1.
    destruct (put_ok sha hv v old _ (hvm m) ver k (Some (hv x)) HP1 Hk) as (tc1 & ver1 & E1 & HP2 & Hfr1 & Hv1 & _ & _ & Hn1).
    rewrite E1. cbn [rbind]. pose proof (upd_apply hv k (Some x) m) as Eu. cbn [hv_opt] in Eu. rewrite Eu in HP2.
    destruct (IH tc1 (apply_write m (k, Some x)) ver1 Hwf' HP2) as (tc2 & ver2 & E2 & HP3 & Hfr2 & Hv2 & Hn2).
    exists tc2, ver2. split_and!; [done|done| | |].
    + eapply frame'_trans; [|exact Hfr2]. eapply frame'_trans; [|exact Hfr1]. done.
    + rewrite Hv2, Hv1. done.
    + intros q Hq. rewrite (Hn2 q Hq). unfold setver.
      destruct (decide (Exists (fun k => q `prefix_of` nibs k) (map fst kvs))) as [He|He].
      { rewrite decide_True; [done|]. by apply Exists_cons_tl. }
      rewrite (Hn1 _ eq_refl q). unfold newver.
      destruct (decide (q `prefix_of` nibs k)) as [Hqk|Hqk].
      { rewrite (decide_True (P := Exists _ (k :: _))) by by apply Exists_cons_hd. by case_decide. }
      rewrite (decide_False (P := Exists _ (k :: _))) by (intros [?|?]%Exists_cons; done).
      destruct (decide (live [] (hvm m) q)) as [Hl|Hl]; [|by case_decide].
      rewrite decide_True; [done|]. rewrite <-Eu. by apply live_insert.
Qed.

(** ** A state of the cache is determined by the tree *)
Lemma cache_eq v old tc1 tc2 f g : St v old tc1 f -> St v old tc2 g -> (forall q, f q = g q) ->
  frame' tc1 tc2 -> tc_values tc1 = tc_values tc2 -> tc_root tc1 = tc_root tc2 -> tc1 = tc2.
Proof.
  intros H1 H2 E (F1 & F2 & F3 & F4 & F5 & F6 & F7) Ev Er.
  assert (tc_nodes tc1 = tc_nodes tc2) as En.
  { apply map_eq. intros [w q]. rewrite (st_nc _ _ _ _ H1), (st_nc _ _ _ _ H2). by rewrite E. }
  assert (tc_stale tc1 = tc_stale tc2) as Es.
  { apply set_eq. intros [w q]. rewrite (st_st _ _ _ _ H1), (st_st _ _ _ _ H2). by rewrite E. }
  pose proof (st_nl _ _ _ _ H1) as L1. pose proof (st_nl _ _ _ _ H2) as L2.
  pose proof (st_sl _ _ _ _ H1) as L3. pose proof (st_sl _ _ _ _ H2) as L4.
  rewrite En in L1. rewrite Es in L3. rewrite <-L2 in L1. rewrite <-L4 in L3.
  destruct tc1, tc2. cbn in *. congruence.
Qed.

(** ** The values *)
Definition put_values (v : N) (l : list kv) (tc : cache) : cache :=
  fold_left (fun tc x => tc_put_value tc v (fst x) (Some (snd x))) l tc.
Lemma put_values_ok v old M ver l : forall tc, PInv v old tc M ver ->
  PInv v old (put_values v l tc) M ver /\ frame' tc (put_values v l tc) /\
  tc_root (put_values v l tc) = tc_root tc /\ tc_nodes (put_values v l tc) = tc_nodes tc /\
  tc_values (put_values v l tc) = set_values v (somes l) (tc_values tc).
Proof.
  induction l as [|[k x] l IH]; intros tc HP; [done|]. unfold put_values in *. cbn [fold_left fst snd].
  destruct (IH _ (PInv_put_value sha v old tc M ver v k (Some x) HP)) as (H1 & H2 & H3 & H4 & H5).
  split_and!; [done| |done|done|done]. eapply frame'_trans; [|exact H2]. done.
Qed.

(** ** One value set *)
Lemma batch_set_ok v old tc m ver kvs hc :
  PInv v old tc (hvm m) ver -> (hvm m = ∅ -> is_Some (tc_get_option tc (tc_root tc))) ->
  kvs <> [] -> Forall (fun x : kv => length (fst x) = 32) kvs ->
  (forall c tc1 ver1, hc = Some c -> put_set sha hv v (somes kvs) tc = Ok tc1 ->
     PInv v old tc1 (hvm (apply_set m (somes kvs))) ver1 ->
     forall q, q <> [] -> live [] (hvm (apply_set m (somes kvs))) q -> ver1 q = v ->
       c !! q = Some (phash q (hvm (apply_set m (somes kvs))))) ->
  batch_set sha hv v kvs hc tc = put_set sha hv v (somes kvs) tc.
Proof.
  intros HP Hroot Hne Hwf Hhc.
  destruct (put_set_ver v old kvs tc m ver Hwf HP) as (tc1 & ver1 & E1 & HP1 & Hfr1 & Hv1 & Hver1).
  rewrite E1. set (M := hvm m) in *. set (M' := hvm (apply_set m (somes kvs))) in *.
  pose proof (pi_wf _ _ _ _ _ _ HP) as Hw. pose proof (pi_wf _ _ _ _ _ _ HP1) as Hw'.
  destruct (bt_collect_ok kvs) as [Hasc Hbt].
  set (K := map (fun x : kv => (fst x, hv (snd x))) (bt_collect kvs)).
  set (ver' := setver v (map fst kvs) M ver) in *.
  assert (forall k y, (k, y) ∈ K <-> exists x, y = hv x /\ last_write_in k (somes kvs) = Some (Some x)) as HKe.
  { intros k y. unfold K. rewrite elem_of_list_fmap. split.
    - intros ([k' x] & E & Hx). cbn in E. injection E as -> ->. exists x. split; [done|]. by apply Hbt.
    - intros (x & -> & Hx). exists (k, x). split; [done|]. by apply Hbt. }
  assert (forall k, last_write_in k (somes kvs) = None \/ exists x, last_write_in k (somes kvs) = Some (Some x)) as Hlw.
  { intros k. destruct (last_write_in k (somes kvs)) as [[x|]|] eqn:E; [right; by exists x| |by left].
    apply last_write_in_elem in E. apply elem_of_list_fmap in E as ([c d] & E & _). cbn in E. congruence. }
  assert (forall k, k ∈ map fst kvs <-> exists y, (k, y) ∈ K) as Hkeys.
  { intros k. split.
    - intros Hk. destruct (Hlw k) as [Hn|[x Hx]]; [exfalso|exists (hv x); apply HKe; by exists x].
      revert Hk Hn. clear. induction kvs as [|[a b] l IH]; cbn [map fst somes last_write_in snd]; [by intros ?%elem_of_nil|].
      fold (somes l). intros Hk Hn. destruct (last_write_in k (somes l)) as [z|]; [done|]. case_decide as Hak; [done|].
      apply elem_of_cons in Hk as [->|Hk]; [done|]. by apply IH.
    - intros (y & Hy). apply HKe in Hy as (x & _ & Hx). apply last_write_in_elem in Hx.
      apply elem_of_list_fmap in Hx as ([c d] & E & Hx). cbn in E. injection E as -> ->.
      apply elem_of_list_fmap. by exists (c, d). }
  assert (forall q, touched K q <-> Exists (fun k => q `prefix_of` nibs k) (map fst kvs)) as Htch.
  { intros q. rewrite Exists_exists. split.
    - intros ([k y] & Hk & Hq). exists k. split; [apply Hkeys; by exists y|done].
    - intros (k & Hk & Hq). apply Hkeys in Hk as [y Hy]. by exists (k, y). }
  assert (forall x, x ∈ K -> M' !! fst x = Some (snd x)) as HK.
  { intros [k y] Hk. apply HKe in Hk as (x & -> & Hx). cbn [fst snd]. unfold M', JmtPutProof.hvm.
    rewrite lookup_fmap, apply_set_lookup, Hx. done. }
  assert (forall k, (forall y, (k, y) ∉ K) -> M' !! k = M !! k) as HO.
  { intros k Hk. unfold M', M, JmtPutProof.hvm. rewrite !lookup_fmap, apply_set_lookup.
    destruct (Hlw k) as [->|[x Hx]]; [done|]. exfalso. apply (Hk (hv x)), HKe. by exists x. }
  assert (forall q, touched K q -> ver' q = v) as Hvt.
  { intros q Hq. unfold ver', setver. by rewrite decide_True by by apply Htch. }
  assert (forall q, ~ touched K q -> live [] M q -> ver' q = ver q) as Hvl.
  { intros q Hq Hl. unfold ver', setver. rewrite decide_False by by rewrite <-Htch. by rewrite decide_True. }
  assert (forall q, ~ live [] M q -> ver' q = v) as Hvd.
  { intros q Hl. unfold ver', setver. case_decide; [done|]. by rewrite decide_False. }
  assert (forall c, hc = Some c -> forall q, q <> [] -> live [] M' q -> ver' q = v -> c !! q = Some (phash q M')) as Hhc'.
  { intros c Ec q Hq Hl Hvq. apply (Hhc c tc1 ver1); [done|done|done|done|done|]. by rewrite Hver1. }
  assert (exists k y, (k, y) ∈ K) as (k1 & y1 & Hk1).
  { destruct kvs as [|[k x] l]; [done|]. exists k. apply Hkeys. left. }
  assert (at_ K [] K) as Hat.
  { split_and!; [intros X; rewrite X in Hk1; by apply elem_of_nil in Hk1| |].
    - apply sorted_map, asc_sorted, Hasc.
    - intros x. split; [|tauto]. intros Hx. split; [done|apply prefix_nil]. }
  assert (touched K []) as Ht0 by by eapply at_touched.
  assert (M' <> ∅) as HM'.
  { intros X. pose proof (HK _ Hk1) as Y. rewrite X in Y. cbn in Y. by rewrite lookup_empty in Y. }
  destruct (put_values_ok v old M ver (bt_collect kvs) tc HP) as (HP0 & Hfr0 & Hr0 & Hn0 & Hv0).
  set (tc0 := put_values v (bt_collect kvs) tc) in *.
  assert (batch_set sha hv v kvs hc tc = rbind (batch_insert_at sha 64 (tc_root tc0) v K 0 hc tc0)
     (fun '(nk, _, tc) => Ok (tc_set_root tc nk))) as ->.
  { unfold batch_set. destruct kvs; done. }
  assert (tc_values tc0 = tc_values tc1) as Hvals.
  { rewrite Hv0, Hv1. apply map_eq. intros [w k]. rewrite !set_values_lookup. by rewrite last_write_in_sorted. }
  destruct (pi_state _ _ _ _ _ _ HP1) as [(_ & HS1 & Hroot1)|(X & _)]; [|done].
  assert (live [] M' []) as Hl0 by by apply live_self, pcnt_nil_pos.
  assert (tc_root tc1 = (v, [])) as Hrt1 by by rewrite Hroot1, (Hver1 [] Hl0), Hvt.
  (* once the tree is built, the caches are equal *)
  assert (forall tcb tc2 f2, frame' tc0 tcb -> tc_values tcb = tc_values tc0 -> frame tcb tc2 -> St v old tc2 f2 ->
      (forall q, [] `prefix_of` q -> f2 q = tr [] M' ver' q) -> tc_set_root tc2 (v, []) = tc1) as Hend.
  { intros tcb tc2 f2 Hfb Hvb Hfr HS2 Hf2.
    apply (cache_eq v old _ _ f2 (tr [] M' ver1)).
    - by apply St_set_root.
    - done.
    - intros q. rewrite Hf2 by apply prefix_nil. apply tr_ext; [done| |apply prefix_nil].
      intros r Hr. by rewrite Hver1.
    - pose proof (frame_frame' _ _ Hfr) as F. clear -F Hfb Hfr0 Hfr1. unfold frame' in *. cbn. destruct_and!.
      split_and!; congruence.
    - cbn. destruct Hfr as (_ & _ & -> & _). congruence.
    - cbn. by rewrite Hrt1. }
  rewrite Hr0. destruct (pi_state _ _ _ _ _ _ HP0) as [(HM & HS0 & Hrt0)|(HM & HS0 & Hnc & Hmiss)].
  - rewrite <-Hr0, Hrt0.
    destruct (insert_ok sha v old M M' ver ver' K hc Hw Hw' HK HO Hvt Hvl Hvd Hhc' 64 [] K tc0 (tr [] M ver))
      as (tc2 & f2 & E2 & Hfr2 & HS2 & Hin2 & _).
    { done. } { done. } { by apply live_self, pcnt_nil_pos. } { done. } { done. }
    cbn [length] in E2. rewrite E2. cbn [rbind]. f_equal. by eapply (Hend tc0).
  - assert (tc_get tc0 (tc_root tc) = Ok NNull /\
      (if (fst (tc_root tc) =? v)%N then tc_delete tc0 (tc_root tc) false else Ok tc0) = Ok (clear tc0)) as [Eg Ed].
    { rewrite Hr0 in *. destruct Hnc as [Hnc|[Hnc Hrv]].
      - assert (tc_get_option tc0 (tc_root tc) = onodes tc0 !! tc_root tc) as Eo.
        { by rewrite tc_get_option_alt, Hnc, (left_id_L ∅ (∪)). }
        destruct (Hroot HM) as [nd Hnd].
        assert (onodes tc0 !! tc_root tc = Some nd) as Hon.
        { rewrite (frame'_onodes _ _ Hfr0). rewrite tc_get_option_alt, <-Hn0, Hnc, (left_id_L ∅ (∪)) in Hnd. done. }
        pose proof (pi_fresh _ _ _ _ _ _ HP0 _ _ Hon) as Hlt.
        assert (fst (tc_root tc) <> v) as Hneq by lia. split.
        + unfold tc_get. rewrite Eo, (Hmiss Hneq). done.
        + rewrite (proj2 (N.eqb_neq _ _) Hneq). f_equal. destruct tc0. cbn in Hnc. unfold clear. cbn. by rewrite Hnc.
      - rewrite Hrv. cbn [fst]. rewrite N.eqb_refl. split.
        + unfold tc_get. rewrite tc_get_option_alt. erewrite lookup_union_l'; [done|]. by rewrite Hnc, lookup_singleton.
        + unfold tc_delete. rewrite Hnc, lookup_singleton. cbn [andb]. unfold clear. by rewrite delete_singleton. }
    assert (snd (tc_root tc) = []) as Hsnd by (rewrite <-Hr0; apply (pi_path _ _ _ _ _ _ HP0)).
    destruct (create_ok sha v old M M' ver ver' K hc Hw' HK HO Hvt Hvl Hvd Hhc' 64 [] K (clear tc0) none_fn)
      as (tc2 & f2 & E2 & Hfr2 & HS2 & Hin2 & _).
    { done. } { done. } { by apply pcnt_nil_0. } { done. } { done. }
    assert (batch_insert_at sha 64 (tc_root tc) v K 0 hc tc0 = batch_create sha 64 (v, []) v K 0 hc (clear tc0)) as ->.
    { change 64 with (S 63) at 1. cbn [batch_insert_at]. rewrite Eg. cbn [rbind]. rewrite Hsnd, Ed. cbn [rbind].
      destruct K; [by destruct Hat|done]. }
    cbn [length] in E2. rewrite E2. cbn [rbind]. f_equal. by eapply (Hend (clear tc0)).
Qed.

(** ** The loop over the value sets *)
Lemma put_sets_keep sets : forall v old tc m ver tcF,
  Forall (Forall (fun w : write => length (fst w) = 32)) sets -> (v + N.of_nat (length sets) <= u64_max)%N ->
  PInv v old tc (hvm m) ver -> put_sets sha hv v sets tc = Ok tcF ->
  forall nk nd, fz_nodes tc !! nk = Some nd -> (fst nk < v)%N -> fz_nodes tcF !! nk = Some nd.
Proof.
  induction sets as [|kvs sets IH]; intros v old tc m ver tcF Hwf Hmax HP E nk nd Hnk Hlt; cbn [put_sets] in E.
  - by injection E as <-.
  - inversion Hwf as [|? ? Hk Hwf']; subst. cbn [length] in Hmax.
    replace (u64_max <? v)%N with false in E by (symmetry; apply N.ltb_ge; lia).
    destruct (put_set_ok sha hv v old kvs tc m ver Hk HP) as (tc1 & ver1 & E1 & HP1 & Hfr & _).
    destruct (freeze_ok sha v old tc1 _ ver1 HP1 ltac:(lia)) as (tc2 & new & E2 & HF).
    rewrite E1 in E. cbn [rbind] in E. rewrite E2 in E. cbn [rbind] in E.
    eapply (IH (v + 1)%N); [done|lia|apply (fr_inv _ _ _ _ _ _ _ _ HF)|exact E| |lia].
    rewrite (fr_nodes _ _ _ _ _ _ _ _ HF). destruct Hfr as (_ & F & _). rewrite F.
    rewrite lookup_union_r; [done|]. destruct (new !! nk) as [x|] eqn:Ex; [|done].
    apply (fr_new _ _ _ _ _ _ _ _ HF) in Ex. lia.
Qed.

Lemma put_sets_ok sets : forall v old tc m ver,
  Forall (Forall (fun w : write => length (fst w) = 32)) sets -> (v + N.of_nat (length sets) <= u64_max)%N ->
  PInv v old tc (hvm m) ver -> exists tcF, put_sets sha hv v sets tc = Ok tcF.
Proof.
  induction sets as [|kvs sets IH]; intros v old tc m ver Hwf Hmax HP; cbn [put_sets]; [by eexists|].
  inversion Hwf as [|? ? Hk Hwf']; subst. cbn [length] in Hmax.
  replace (u64_max <? v)%N with false by (symmetry; apply N.ltb_ge; lia).
  destruct (put_set_ok sha hv v old kvs tc m ver Hk HP) as (tc1 & ver1 & E1 & HP1 & _).
  destruct (freeze_ok sha v old tc1 _ ver1 HP1 ltac:(lia)) as (tc2 & new & E2 & HF).
  rewrite E1. cbn [rbind]. rewrite E2. cbn [rbind].
  eapply (IH (v + 1)%N); [done|lia|apply (fr_inv _ _ _ _ _ _ _ _ HF)].
Qed.

Definition hash_ok (v : N) (tcF : cache) (hcs : list (option (gmap path bytes))) : Prop :=
  forall i c, hcs !! i = Some (Some c) -> forall q nd h, q <> [] ->
    fz_nodes tcF !! ((v + N.of_nat i)%N, q) = Some nd -> node_hash sha nd = Ok h -> c !! q = Some h.

Lemma batch_sets_ok sets : forall hcs v old tc m ver,
  PInv v old tc (hvm m) ver -> (hvm m = ∅ -> is_Some (tc_get_option tc (tc_root tc))) ->
  length hcs = length sets -> Forall (fun kvs => kvs <> []) sets ->
  Forall (Forall (fun x : kv => length (fst x) = 32)) sets ->
  (Forall (fun hc => hc = None) hcs \/
   ((v + N.of_nat (length sets) <= u64_max)%N /\
    forall tcF, put_sets sha hv v (map somes sets) tc = Ok tcF -> hash_ok v tcF hcs)) ->
  batch_sets sha hv v sets hcs tc = put_sets sha hv v (map somes sets) tc.
Proof.
  induction sets as [|kvs sets IH]; intros [|hc hcs] v old tc m ver HP Hroot Hlen Hne Hwf Hh; try done.
  inversion Hne as [|? ? Hne1 Hne2]; subst. inversion Hwf as [|? ? Hk Hwf']; subst.
  assert (Forall (fun w : write => length (fst w) = 32) (somes kvs)) as Hk'.
  { apply Forall_map. eapply Forall_impl; [exact Hk|]. done. }
  assert (Forall (Forall (fun w : write => length (fst w) = 32)) (map somes sets)) as Hwf2.
  { apply Forall_map. eapply Forall_impl; [exact Hwf'|]. intros l Hl. cbn. apply Forall_map.
    eapply Forall_impl; [exact Hl|]. done. }
  cbn [map batch_sets put_sets]. destruct (u64_max <? v)%N eqn:Hmax; [done|]. apply N.ltb_ge in Hmax.
  set (M' := hvm (apply_set m (somes kvs))).
  destruct (put_set_ok sha hv v old (somes kvs) tc m ver Hk' HP) as (tc1 & ver1 & E1 & HP1 & Hfr1 & _).
  assert (batch_set sha hv v kvs hc tc = put_set sha hv v (somes kvs) tc) as ->.
  { eapply batch_set_ok; [exact HP|done|done|done|].
    intros c tc1' ver1' -> E1' HP1' q Hq Hl Hvq. rewrite E1 in E1'. injection E1' as <-.
    destruct Hh as [Hh|[Hv Hh]]; [by inversion Hh|]. cbn [length] in Hv.
    destruct (freeze_ok sha v old tc1 _ ver1' HP1' ltac:(lia)) as (tc2 & new & E2 & HF).
    assert (fz_nodes tc2 !! (v, q) = Some (node_of M' ver1' q)) as Hnd.
    { pose proof (h_live _ _ _ _ _ (fr_holds _ _ _ _ _ _ _ _ HF) q Hq Hl) as X. rewrite Hvq in X.
      unfold onodes in X. apply lookup_union_Some_raw in X as [X|[_ X]]; [done|exfalso].
      destruct (onodes tc1 !! (v, q)) as [y|] eqn:Ey.
      - apply (pi_fresh _ _ _ _ _ _ HP1) in Ey. cbn in Ey. lia.
      - unfold onodes in Ey. apply lookup_union_None in Ey as [_ Ey].
        rewrite (fr_store _ _ _ _ _ _ _ _ HF) in X. congruence. }
    assert (put_sets sha hv v (somes kvs :: map somes sets) tc = put_sets sha hv (v + 1) (map somes sets) tc2) as Es.
    { cbn [put_sets]. replace (u64_max <? v)%N with false by (symmetry; apply N.ltb_ge; lia).
      rewrite E1. cbn [rbind]. rewrite E2. done. }
    cbn [map] in Hh. rewrite Es in Hh.
    destruct (put_sets_ok (map somes sets) (v + 1)%N _ tc2 _ ver1' Hwf2 ltac:(rewrite map_length; lia)
      (fr_inv _ _ _ _ _ _ _ _ HF)) as [tcF EF].
    rewrite EF in Hh. apply (Hh tcF eq_refl 0 c eq_refl q (node_of M' ver1' q)); [done| |].
      + replace (v + N.of_nat 0)%N with v by lia.
        eapply (put_sets_keep (map somes sets) (v + 1)%N); [done|rewrite map_length; lia|apply (fr_inv _ _ _ _ _ _ _ _ HF)|exact EF|done|].
        cbn. lia.
      + apply node_of_hash. apply (pi_wf _ _ _ _ _ _ HP1). }
  rewrite E1. cbn [rbind]. destruct (decide (v < u64_max)%N) as [Hv|Hv].
  - destruct (freeze_ok sha v old tc1 _ ver1 HP1 Hv) as (tc2 & new & E2 & HF).
    rewrite E2. cbn [rbind]. eapply IH; [apply (fr_inv _ _ _ _ _ _ _ _ HF)| | |done|done|].
    + intros X. exfalso. destruct kvs as [|[k x] l]; [done|].
      assert (is_Some (last_write_in k (somes ((k, x) :: l)))) as [y Hy].
      { cbn [somes map fst snd last_write_in]. fold (somes l). destruct (last_write_in k (somes l)); [by eexists|].
        rewrite decide_True by done. by eexists. }
      assert (exists z, y = Some z) as [z ->].
      { apply last_write_in_elem, elem_of_list_fmap in Hy as ([c d] & E & _). cbn in E. exists d. congruence. }
      assert (hvm (apply_set m (somes ((k, x) :: l))) !! k = Some (hv z)) as Y.
      { unfold JmtPutProof.hvm. rewrite lookup_fmap, apply_set_lookup, Hy. done. }
      rewrite X, lookup_empty in Y. done.
    + cbn in Hlen. lia.
    + destruct Hh as [Hh|[Hm Hh]]; [left; by inversion Hh|right]. cbn [length] in Hm. split; [lia|].
      intros tcF EF i c Hc q nd h Hq Hn Hnh. apply (Hh tcF) with (i := S i) (q := q) (nd := nd); [|done|done| |done].
      * cbn [map put_sets]. replace (u64_max <? v)%N with false by (symmetry; apply N.ltb_ge; lia).
        rewrite E1. cbn [rbind]. rewrite E2. done.
      * replace (v + N.of_nat (S i))%N with (v + 1 + N.of_nat i)%N by lia. done.
  - destruct (tc_freeze sha tc1) as [tc2| | |]; cbn [rbind]; [|done..].
    cbn in Hlen. destruct sets as [|a sets], hcs as [|b hcs]; try done. cbn [batch_sets map put_sets].
    replace (u64_max <? v + 1)%N with true by (symmetry; apply N.ltb_lt; lia). done.
Qed.
End Run.
