(** One value set: [put], then [freeze]. *)
From Verif Require Import Base JmtNibModel JmtSpec JmtNibProof JmtModel JmtHashProof JmtAbsProof
  JmtCacheProof JmtInsertProof.
Local Open Scope nat_scope.

Section Put.
Context (sha hv : bytes -> bytes).
Notation sm_leaf := (sm_leaf sha).
Notation sm_internal := (sm_internal sha).
Notation hashP := (hashB sm_leaf sm_internal placeholder).
Notation phash p M := (hashP (path_bits p) M).
Notation node_of := (node_of sha).
Notation children_of := (children_of sha).
Notation child_of := (child_of sha).
Notation tr := (tr sha).

(** Nodes frozen in this call or stored. *)
Definition onodes (tc : cache) : gmap nkey node := fz_nodes tc ∪ st_nodes (tc_store tc).
Definition clear (tc : cache) : cache :=
  Cache (tc_root tc) (tc_next tc) ∅ (tc_values tc) (tc_new_leaves tc) (tc_stale tc)
    (tc_stale_leaves tc) (fz_nodes tc) (fz_values tc) (fz_stale tc) (fz_stats tc)
    (fz_roots tc) (tc_store tc).
Definition none_fn : tree_fn := fun _ => None.

Lemma tc_get_option_alt tc nk : tc_get_option tc nk = (tc_nodes tc ∪ onodes tc) !! nk.
Proof.
  unfold tc_get_option, onodes. rewrite !lookup_union.
  destruct (tc_nodes tc !! nk), (fz_nodes tc !! nk), (st_nodes (tc_store tc) !! nk); done.
Qed.

Definition dirty_or_clean (v : N) (tc : cache) : Prop :=
  fst (tc_root tc) = v \/ (tc_nodes tc = ∅ /\ tc_stale tc = ∅).

Record PInv (v : N) (old : gmap nkey node) (tc : cache) (M : pairs) (ver : path -> N) : Prop := {
  pi_wf : wfm M;
  pi_next : tc_next tc = v;
  pi_lt : forall nk nd, old !! nk = Some nd -> (fst nk < v)%N;
  pi_fresh : forall nk nd, onodes tc !! nk = Some nd -> (fst nk < v)%N;
  pi_touch : dirty_or_clean v tc;
  pi_path : snd (tc_root tc) = [];
  pi_state :
    (M <> ∅ /\ St v old tc (tr [] M ver) /\ tc_root tc = (ver [], [])) \/
    (M = ∅ /\ St v old (clear tc) none_fn /\
     (tc_nodes tc = ∅ \/ (tc_nodes tc = {[ (v, []) := NNull ]} /\ tc_root tc = (v, []))) /\
     (fst (tc_root tc) <> v -> onodes tc !! tc_root tc = Some NNull))
}.

(** Parts of the cache a put never touches. *)
Definition frame' (tc tc' : cache) : Prop :=
  tc_next tc' = tc_next tc /\ fz_nodes tc' = fz_nodes tc /\ fz_values tc' = fz_values tc /\
  fz_stale tc' = fz_stale tc /\ fz_stats tc' = fz_stats tc /\ fz_roots tc' = fz_roots tc /\
  tc_store tc' = tc_store tc.
Lemma frame'_refl tc : frame' tc tc.
Proof. done. Qed.
Lemma frame'_trans a b c : frame' a b -> frame' b c -> frame' a c.
Proof. unfold frame'. intros; destruct_and!; split_and!; congruence. Qed.
Lemma frame_frame' a b : frame a b -> frame' a b.
Proof. unfold frame, frame'. intros; destruct_and!; split_and!; congruence. Qed.
Lemma frame'_onodes a b : frame' a b -> onodes b = onodes a.
Proof. unfold frame', onodes. intros; destruct_and!; congruence. Qed.

Lemma pcnt_nil M : pcnt [] M = size M.
Proof. unfold cnt. change (path_bits []) with ([] : list bool). by rewrite subm_nil. Qed.
Lemma pcnt_nil_0 M : pcnt [] M = 0 <-> M = ∅.
Proof. rewrite pcnt_nil. apply map_size_empty_iff. Qed.
Lemma pcnt_nil_pos M : M <> ∅ -> 0 < pcnt [] M.
Proof. rewrite <-pcnt_nil_0. lia. Qed.
Lemma tr_empty ver q : tr [] ∅ ver q = None.
Proof. apply tr_zero; [by apply pcnt_nil_0|apply prefix_nil]. Qed.
Lemma tr_one k x ver q :
  tr [] {[k := x]} ver q = if decide (q = []) then Some (ver [], NLeaf k x) else None.
Proof.
  assert (subm (path_bits []) {[k := x]} = ({[k := x]} : gmap bytes bytes)) as E
    by (change (path_bits []) with ([] : list bool); apply subm_nil).
  pose proof (cnt_single _ _ _ _ E) as H1. case_decide as Hq.
  - subst q. rewrite tr_self by lia. by rewrite (node_of_leaf _ _ _ _ _ _ E).
  - destruct (ext_cases [] q (prefix_nil q)) as [?|[i Hi]]; [done|].
    apply (tr_small sha [] _ _ i); [lia|done].
Qed.

Lemma St_set_root v old tc f nk : St v old tc f -> St v old (tc_set_root tc nk) f.
Proof. intros [H1 H2 H3 H4 H5 H6]. by split. Qed.
Lemma St_put_value v old tc f w k x : St v old tc f -> St v old (tc_put_value tc w k x) f.
Proof. intros [H1 H2 H3 H4 H5 H6]. by split. Qed.
Lemma St_clear v old tc f : St v old tc f -> (forall q, f q = None) -> St v old (clear tc) none_fn /\ tc_nodes tc = ∅.
Proof.
  intros HS Hf. assert (tc_nodes tc = ∅) as Hn.
  { apply map_empty. intros [w q]. by rewrite (st_nc _ _ _ _ HS), Hf. }
  split; [|done]. apply (St_ext v old _ f); [done|].
  replace (clear tc) with tc; [done|]. destruct tc; cbn in *. unfold clear. cbn. by rewrite Hn.
Qed.

(** A node that is not new was there before, and no key under it is in [K]. *)
Definition kept (v : N) (K : bytes -> Prop) (M : pairs) (ver : path -> N) (M' : pairs) (ver' : path -> N) : Prop :=
  forall q k0 x0, q <> [] -> live [] M' q -> subm (path_bits q) M' !! k0 = Some x0 ->
    ver' q = v \/ (~ K k0 /\ live [] M q /\ subm (path_bits q) M !! k0 = Some x0 /\ ver' q = ver q).
Lemma kept_newver v k value M ver : kept v (fun k0 => k0 = k) M ver (upd k value M) (newver v k M ver).
Proof.
  intros q k0 x0 Hq Hl E. unfold newver. case_decide as Hnp; [by left|]. case_decide as Hlm; [right|by left].
  rewrite upd_out in E by done. split_and!; [|done|done|done]. intros ->. apply Hnp.
  by apply psub_Some in E as [_ ?].
Qed.
Lemma kept_empty v K M ver M' ver' : M' = ∅ -> kept v K M ver M' ver'.
Proof.
  intros -> q k0 x0 Hq Hl E.
  apply subm_Some in E as [E _]. by rewrite lookup_empty in E.
Qed.
Lemma put_ok v old tc M ver k value :
  PInv v old tc M ver -> length k = 32 ->
  exists tc' ver', put sha k value v tc = Ok tc' /\ PInv v old tc' (upd k value M) ver' /\
    frame' tc tc' /\ tc_values tc' = tc_values tc /\
    (value = None -> M !! k = None -> tc_stale tc' = tc_stale tc) /\
    kept v (fun k0 => k0 = k) M ver (upd k value M) ver' /\
    (forall x, value = Some x -> forall q, ver' q = newver v k M ver q).
Proof.
  intros HP Hk. pose proof (pi_wf _ _ _ _ _ HP) as Hw.
  pose proof (upd_wfm k value M Hk Hw) as Hw'.
  unfold put. destruct (pi_state _ _ _ _ _ HP) as [(HM & HS & Hroot)|(HM & HS & Hnc & Hmiss)].
  - destruct (insert_at_ok sha v old (nibs k) [] k value M ver tc (tr [] M ver)) as (r & tc1 & E & Hfr & HW).
    { done. } { done. } { done. } { apply live_self. by apply pcnt_nil_pos. } { done. } { done. }
    rewrite Hroot, E. cbn [rbind].
    destruct HW as [(-> & HMk & -> & ->)|(Hch & -> & f' & HS' & Hf' & _)].
    { exists tc, ver. cbn [upd]. rewrite delete_notin by done. split_and!; try done.
      intros q k0 x0 Hq Hl E0. right. split_and!; [|done..]. intros ->.
      apply psub_Some in E0 as [Hs _]. congruence. }
    pose proof (frame_frame' _ _ Hfr) as Hfr'. pose proof (frame'_onodes _ _ Hfr') as Hon.
    assert (tc_values tc1 = tc_values tc) as Hval by (unfold frame in Hfr; tauto).
    assert (tc_next tc1 = v) as Hnx.
    { destruct Hfr' as [-> _]. apply (pi_next _ _ _ _ _ HP). }
    unfold result. case_decide as Hz.
    + apply pcnt_nil_0 in Hz. set (M' := upd k value M) in *.
      assert (forall q, f' q = None) as Hn.
      { intros q. rewrite Hf' by apply prefix_nil. rewrite Hz. apply tr_empty. }
      destruct (St_clear v old tc1 f' HS' Hn) as [HSc Hnc].
      unfold tc_put. cbn [tc_nodes tc_set_root]. rewrite Hnc, lookup_empty.
      rewrite insert_empty. eexists _, ver. split; [done|]. split; [|split; [exact Hfr'|split; [exact Hval|split; [by intros ? ?; destruct Hch|split; [by apply kept_empty|]]]]].
      2: { intros x Hx. exfalso. apply (insert_non_empty M k x). rewrite <-Hz. unfold M'. by rewrite Hx. }
      split; cbn; try done.
      * intros nk nd. apply (pi_lt _ _ _ _ _ HP).
      * intros nk nd Hx. apply (pi_fresh _ _ _ _ _ HP nk nd). rewrite <-Hon. exact Hx.
      * by left.
      * right. split_and!; [done| |by right|done].
        unfold clear in HSc |- *. cbn.
        destruct HSc as [H1 H2 H3 H4 H5 H6]. split; done.
    + exists (tc_set_root tc1 (v, [])), (newver v k M ver).
      split; [done|]. split; [|split; [exact Hfr'|split; [exact Hval|split; [by intros ? ?; destruct Hch|split; [apply kept_newver|done]]]]]. split; cbn; try done.
      * intros nk nd. apply (pi_lt _ _ _ _ _ HP).
      * intros nk nd Hx. apply (pi_fresh _ _ _ _ _ HP nk nd). rewrite <-Hon. exact Hx.
      * by left.
      * left. split_and!.
        -- intros HM'. apply pcnt_nil_0 in HM'. done.
        -- apply St_set_root. apply (St_ext _ _ _ f'); [|done]. intros q. apply Hf'. apply prefix_nil.
        -- by rewrite newver_key by apply prefix_nil.
  - subst M. destruct (tc_root tc) as [w rp] eqn:Hroot.
    pose proof (pi_path _ _ _ _ _ HP) as Hp. rewrite Hroot in Hp. cbn in Hp. subst rp.
    (* the node found is null, and after the optional delete the cache is clear *)
    assert (exists found, (match tc_get_option tc (w, []) with Some nd => (nd, true) | None => (NNull, false) end)
        = (NNull, found) /\
      (if (w =? v)%N && found then tc_delete tc (w, []) false else Ok tc) = Ok (clear tc)) as (found & Efound & Edel).
    { rewrite tc_get_option_alt.
      destruct Hnc as [Hnc|[Hnc Hr]].
      - rewrite Hnc, (left_id_L ∅ (∪)).
        assert (clear tc = tc) as Hcl by (destruct tc; cbn in *; unfold clear; cbn; by rewrite Hnc).
        destruct (N.eqb_spec w v) as [->|Hwv].
        + destruct (onodes tc !! (v, [])) as [nd|] eqn:Ho.
          { apply (pi_fresh _ _ _ _ _ HP) in Ho. cbn in Ho. lia. }
          exists false. by rewrite Hcl.
        + cbn in Hmiss. rewrite Hmiss by done. exists true. by rewrite Hcl.
      - simplify_eq. rewrite lookup_union, Hnc, lookup_singleton. exists true.
        split; [by destruct (onodes tc !! _)|].
        rewrite N.eqb_refl. cbn [andb]. unfold tc_delete. rewrite Hnc, lookup_singleton. cbn [andb].
        rewrite delete_singleton. done. }
    assert (insert_at sha (nibs k) (w, []) v [] value tc =
      match value with
      | Some vh => rbind (create_leaf (v, []) [] (nibs k) vh (clear tc))
                    (fun '(nk', nd, tc) => Ok (Updated nk' nd, tc))
      | None => Ok (NotChanged, clear tc)
      end) as Eins.
    { destruct (nibs k) as [|i rest] eqn:Enk; cbn [insert_at]; rewrite Efound; cbn [snd fst]; by rewrite Edel. }
    rewrite Eins. destruct value as [vh|].
    + rewrite (create_leaf_ok k) by done.
      destruct (St_put v old (clear tc) none_fn [] (NLeaf k vh) HS) as (tc2 & Ep & HS2 & Hfr2); [done|].
      rewrite Ep. cbn [rbind].
      pose proof (frame_frame' _ _ Hfr2) as Hfr'. pose proof (frame'_onodes _ _ Hfr') as Hon.
      exists (tc_set_root tc2 (v, [])), (fun _ => v). split; [done|]. split.
      * split; cbn; try done.
        -- destruct Hfr' as [-> _]. apply (pi_next _ _ _ _ _ HP).
        -- intros nk nd. apply (pi_lt _ _ _ _ _ HP).
        -- intros nk nd Hx. apply (pi_fresh _ _ _ _ _ HP nk nd). 
           change (onodes (clear tc) !! nk = Some nd). rewrite <-Hon. exact Hx.
        -- by left.
        -- left. split_and!; [apply insert_non_empty| |done].
           apply St_set_root. apply (St_ext _ _ _ (fset none_fn [] (Some (v, NLeaf k vh)))); [|done].
           intros q. cbn [upd]. rewrite insert_empty, tr_one. unfold fset.
           destruct (decide (q = [])) as [->|Hq]; by case_decide.
      * split; [exact Hfr'|]. destruct Hfr2 as (_ & _ & Hv2 & _). split; [exact Hv2|]. split; [done|]. split; [by left|].
        intros x _ q. unfold newver. case_decide; [done|]. rewrite decide_False; [done|].
        intros Hl. apply live_pos in Hl. rewrite (proj2 (cnt_0 _ ∅)) in Hl; [lia|]. apply map_empty. intros k'.
        apply eq_None_not_Some. intros [y Hy]. apply psub_Some in Hy as [Hy _]. by rewrite lookup_empty in Hy.
    + cbn [rbind]. exists (clear tc), ver. split; [done|]. split; [|split; [done|split; [done|split; [done|]]]; split; [apply kept_empty; apply delete_empty|done]].
      cbn [upd]. rewrite delete_empty. split; cbn.
      * done.
      * apply (pi_next _ _ _ _ _ HP).
      * intros nk nd. apply (pi_lt _ _ _ _ _ HP).
      * intros nk nd. apply (pi_fresh _ _ _ _ _ HP).
      * destruct (pi_touch _ _ _ _ _ HP) as [Ht|[Ht1 Ht2]]; [by left|by right].
      * by rewrite Hroot.
      * right. split_and!; [done|done|by left|]. rewrite Hroot. apply Hmiss.
Qed.

Definition hv_opt (x : option bytes) : option bytes :=
  match x with Some y => Some (hv y) | None => None end.
Lemma PInv_put_value v old tc M ver w k x : PInv v old tc M ver -> PInv v old (tc_put_value tc w k x) M ver.
Proof.
  intros [H1 H2 H3 H4 H5 H6 H7]. split; try done.
  destruct H7 as [(A & B & C)|(A & B & C & D)].
  - left. split_and!; [done|by apply St_put_value|done].
  - right. split_and!; [done| |done|done].
    change (St v old (tc_put_value (clear tc) w k x) none_fn). by apply St_put_value.
Qed.
(** The contents, hashed. *)
Definition hvm (m : gmap bytes bytes) : pairs := hv <$> m.
Lemma upd_apply k x m : upd k (hv_opt x) (hvm m) = hvm (apply_write m (k, x)).
Proof. unfold hvm, apply_write. destruct x; cbn; [by rewrite fmap_insert|by rewrite fmap_delete]. Qed.

Definition set_values (v : N) (kvs : list write) (m : gmap (N * bytes) (option bytes)) :=
  fold_left (fun m (w : write) => <[(v, fst w) := snd w]> m) kvs m.
Lemma put_set_ok v old kvs : forall tc m ver,
  Forall (fun w : write => length (fst w) = 32) kvs ->
  PInv v old tc (hvm m) ver ->
  exists tc' ver', put_set sha hv v kvs tc = Ok tc' /\ PInv v old tc' (hvm (apply_set m kvs)) ver' /\
    frame' tc tc' /\ tc_values tc' = set_values v kvs (tc_values tc) /\
    kept v (fun k => is_Some (last_write_in k kvs)) (hvm m) ver (hvm (apply_set m kvs)) ver'.
Proof.
  induction kvs as [|[k x] kvs IH]; intros tc m ver Hwf HP.
  - exists tc, ver. split_and!; try done. intros q k0 x0 Hq Hl E. right. split_and!; try done. by intros [??].
  - inversion Hwf as [|? ? Hk Hwf']; subst. cbn [put_set]. unfold put_one. fold (hv_opt x).
    pose proof (PInv_put_value v old tc (hvm m) ver v k x HP) as HP1.
    destruct (put_ok v old _ (hvm m) ver k (hv_opt x) HP1 Hk) as (tc1 & ver1 & E1 & HP2 & Hfr1 & Hv1 & _ & Hk1 & _).
    rewrite E1. cbn [rbind]. rewrite upd_apply in HP2, Hk1.
    destruct (IH tc1 (apply_write m (k, x)) ver1 Hwf' HP2) as (tc2 & ver2 & E2 & HP3 & Hfr2 & Hv2 & Hk2).
    exists tc2, ver2. split_and!; [done|done| | |].
    + eapply frame'_trans; [|exact Hfr2]. eapply frame'_trans; [|exact Hfr1]. done.
    + rewrite Hv2, Hv1. done.
    + intros q k0 x0 Hq Hl E. destruct (Hk2 q k0 x0 Hq Hl E) as [->|(A & B & C & D)]; [by left|].
      destruct (Hk1 q k0 x0 Hq B C) as [F|(F & G & H & J)]; [left; congruence|right].
      split_and!; [|done|done|congruence]. cbn [last_write_in]. intros [y Hy].
      destruct (last_write_in k0 kvs); [apply A; by eexists|]. cbn [fst] in Hy. case_decide; [|done]. subst. done.
Qed.

(** ** Freezing *)

(** Version [u] can be read from [S]: the root is at [(u, [])]. *)
Record Holds (S : gmap nkey node) (u : N) (M : pairs) (ver : path -> N) : Prop := {
  h_wf : wfm M;
  h_root : S !! (u, []) = Some (node_of M ver []);
  h_live : forall q, q <> [] -> live [] M q -> S !! (ver q, q) = Some (node_of M ver q);
  h_le : forall q, q <> [] -> live [] M q -> (ver q <= u)%N
}.
(** The nodes live in the tree of [M], as a map. *)
Definition treemap (S : gmap nkey node) (M : pairs) (ver : path -> N) : gmap nkey node :=
  filter (fun kv : nkey * node => tr [] M ver (snd (fst kv)) = Some (fst (fst kv), snd kv)) S.
Lemma treemap_Some S M ver w q nd :
  treemap S M ver !! (w, q) = Some nd <-> S !! (w, q) = Some nd /\ tr [] M ver q = Some (w, nd).
Proof. unfold treemap. rewrite map_filter_lookup_Some. done. Qed.

Lemma St_versions v old tc M ver : (forall nk nd, old !! nk = Some nd -> (fst nk < v)%N) ->
  St v old tc (tr [] M ver) -> forall q w nd, tr [] M ver q = Some (w, nd) -> (w <= v)%N.
Proof.
  intros Hlt HS q w nd Hq. destruct (decide (w = v)) as [->|Hw]; [lia|].
  pose proof (st_in _ _ _ _ HS _ _ _ Hq Hw) as Ho. apply Hlt in Ho. cbn in Ho. lia.
Qed.

Definition stats_of (tc : cache) : stats :=
  Stats (N.of_nat (size (tc_nodes tc))) (tc_new_leaves tc)
    (N.of_nat (size (tc_stale tc))) (tc_stale_leaves tc).

Record Frozen (v : N) (old : gmap nkey node) (tc : cache) (M : pairs) (ver : path -> N) (tc' : cache)
    (new : gmap nkey node) : Prop := {
  fr_nodes : fz_nodes tc' = new ∪ fz_nodes tc;
  fr_new : forall nk nd, new !! nk = Some nd -> fst nk = v;
  fr_new_live : forall q nd, new !! (v, q) = Some nd ->
    nd = node_of M ver q /\ (q = [] \/ (live [] M q /\ ver q = v));
  fr_values : fz_values tc' = tc_values tc ∪ fz_values tc;
  fr_stale : fz_stale tc' = set_map (fun nk => (v, nk)) (tc_stale tc) ∪ fz_stale tc;
  fr_stale_old : forall nk, nk ∈ tc_stale tc <->
     is_Some (old !! nk) /\ treemap (onodes tc') M ver !! nk = None;
  fr_roots : fz_roots tc' = fz_roots tc ++ [phash [] M];
  fr_stats : fz_stats tc' = fz_stats tc ++
    [Stats (N.of_nat (size new)) (N.of_nat (size (filter leaf_entry new)))
       (N.of_nat (size (tc_stale tc))) (N.of_nat (size (filter (stale_leaf old) (tc_stale tc))))];
  fr_store : tc_store tc' = tc_store tc;
  fr_cur : tc_values tc' = ∅;
  fr_holds : Holds (onodes tc') v M ver;
  fr_tree : forall nk nd, treemap (onodes tc') M ver !! nk = Some nd ->
     new !! nk = Some nd \/ old !! nk = Some nd;
  fr_inv : PInv (v + 1) (treemap (onodes tc') M ver) tc' M ver;
  fr_clean : tc_nodes tc' = ∅ /\ tc_stale tc' = ∅
}.

Lemma lookup_union_l' {A} (m1 m2 : gmap nkey A) i x : m1 !! i = Some x -> (m1 ∪ m2) !! i = Some x.
Proof. apply lookup_union_Some_l. Qed.
Lemma freeze_ok v old tc M ver : PInv v old tc M ver -> (v < u64_max)%N ->
  exists tc' new, tc_freeze sha tc = Ok tc' /\ Frozen v old tc M ver tc' new.
Proof.
  intros HP Hv. pose proof (pi_wf _ _ _ _ _ HP) as Hw. pose proof (pi_next _ _ _ _ _ HP) as Hnx.
  pose proof (pi_fresh _ _ _ _ _ HP) as Hfresh. pose proof (pi_lt _ _ _ _ _ HP) as Hlt.
  (* the nodes written, the copied root included *)
  assert (exists nd root_nd tc1 tc2,
    (match tc_get_option tc (tc_root tc) with
     | Some nd => Ok (nd, tc)
     | None => rbind (tc_put tc (tc_root tc) NNull) (fun tc => Ok (NNull, tc))
     end) = Ok (root_nd, tc1) /\ node_hash sha root_nd = Ok (phash [] M) /\
    (if (0 <? tc_next tc1)%N && bool_decide (tc_nodes tc1 = ∅) && bool_decide (tc_stale tc1 = ∅)
     then rbind (tc_get tc1 (tc_root tc1)) (fun nd =>
            tc_put tc1 (tc_next tc1, snd (tc_root tc1)) nd)
     else Ok tc1) = Ok tc2 /\
    frame tc tc2 /\ tc_stale tc2 = tc_stale tc /\ tc_stale_leaves tc2 = tc_stale_leaves tc /\
    tc_next tc1 = v /\
    tc_new_leaves tc2 = N.of_nat (size (filter leaf_entry (tc_nodes tc2))) /\
    nd = node_of M ver [] /\
    tc_nodes tc2 !! (v, []) = Some nd /\
    (forall w q, (w, q) <> (v, []) -> tc_nodes tc2 !! (w, q) = tc_nodes tc !! (w, q)) /\
    (M = ∅ \/ fst (tc_root tc) = v -> tc_nodes tc !! (v, []) = Some nd \/ M = ∅)) as
    (nd & root_nd & tc1 & tc2 & E1 & Eh & E2 & Hfr & Hst & Hsl & Hnx1 & Hnl & Hnd & Hroot & Hnc & Hmore).
  { destruct (pi_state _ _ _ _ _ HP) as [(HM & HS & Hr)|(HM & HS & Hn & Hmiss)].
    - assert (tr [] M ver [] = Some (ver [], node_of M ver [])) as Hf by (apply tr_self; by apply pcnt_nil_pos).
      rewrite Hr, (St_get _ _ _ _ _ _ _ HS Hf).
      destruct (decide (ver [] = v)) as [Hvv|Hvv].
      + assert (tc_nodes tc !! (v, []) = Some (node_of M ver [])) as Hnn.
        { rewrite (st_nc _ _ _ _ HS), Hf, Hvv. by rewrite decide_True. }
        exists (node_of M ver []), (node_of M ver []), tc, tc. split_and!; try done.
        * by apply node_of_hash.
        * rewrite bool_decide_false; [by rewrite andb_false_r|].
          intros E. by rewrite E, lookup_empty in Hnn.
        * apply (st_nl _ _ _ _ HS).
        * by left.
      + destruct (pi_touch _ _ _ _ _ HP) as [Ht|[Ht1 Ht2]]; [rewrite Hr in Ht; done|].
        assert (tc_nodes tc !! (v, []) = None) as Hnn by by rewrite Ht1.
        eexists (node_of M ver []), (node_of M ver []), tc, _. split_and!; [done|by apply node_of_hash|..].
        * rewrite !bool_decide_true by done. rewrite Hnx.
          pose proof (St_versions v old tc M ver Hlt HS _ _ _ Hf).
          replace (0 <? v)%N with true by (symmetry; apply N.ltb_lt; lia). cbn [andb].
          rewrite Hr. unfold tc_get. rewrite (St_get _ _ _ _ _ _ _ HS Hf). cbn [rbind snd].
          unfold tc_put. rewrite Hnn. done.
        * done.
        * done.
        * done.
        * done.
        * cbn. rewrite Ht1, insert_empty. pose proof (st_nl _ _ _ _ HS) as Hnl. rewrite Ht1 in Hnl.
          rewrite map_filter_empty in Hnl. rewrite Hnl. 
          destruct (is_leaf (node_of M ver [])) eqn:Hlf.
          -- rewrite map_filter_singleton_True by done. by rewrite map_size_singleton.
          -- rewrite map_filter_singleton_False by (unfold leaf_entry; cbn; congruence). done.
        * done.
        * cbn. by rewrite lookup_insert.
        * intros w q Hne. cbn. by rewrite lookup_insert_ne.
        * cbn. intros [?|?]; [by right|done].
    - subst M. pose proof (pi_path _ _ _ _ _ HP) as Hp. destruct (tc_root tc) as [w rp] eqn:Hr. cbn in Hp. subst rp.
      assert (node_of ∅ ver [] = NNull) as Hnull by (apply node_of_null; by apply pcnt_nil_0).
      assert (node_hash sha NNull = Ok (phash [] ∅)) as Hh.
      { rewrite <-Hnull. by apply node_of_hash. }
      destruct Hn as [Hn|[Hn Hwv]].
      + destruct (decide (w = v)) as [->|Hwv].
        * assert (tc_get_option tc (v, []) = None) as Hg.
          { rewrite tc_get_option_alt, Hn, (left_id_L ∅ (∪)).
            destruct (onodes tc !! (v, [])) as [x|] eqn:Ex; [|done]. apply Hfresh in Ex. cbn in Ex. lia. }
          rewrite Hg. eexists NNull, NNull, _, _. split_and!.
          -- unfold tc_put. rewrite Hn, lookup_empty. cbn [rbind]. done.
          -- done.
          -- cbn. rewrite (bool_decide_false (<[_ := _]> _ = _)) by apply insert_non_empty. by rewrite andb_false_r.
          -- done.
          -- done.
          -- done.
          -- cbn. done.
          -- cbn. pose proof (st_nl _ _ _ _ HS) as Hnl. cbn in Hnl. rewrite Hnl.
             rewrite insert_empty, map_filter_singleton_False, map_filter_empty by (unfold leaf_entry; cbn; done). done.
          -- done.
          -- cbn. by rewrite lookup_insert.
          -- intros w q Hne. cbn. rewrite lookup_insert_ne by done. by rewrite Hn.
          -- by right.
        * assert (tc_get_option tc (w, []) = Some NNull) as Hg.
          { rewrite tc_get_option_alt, Hn, (left_id_L ∅ (∪)). by apply Hmiss. }
          rewrite Hg. destruct (pi_touch _ _ _ _ _ HP) as [Ht|[Ht1 Ht2]]; [rewrite Hr in Ht; done|].
          eexists NNull, NNull, tc, _. split_and!; [done|done|..].
          -- rewrite !bool_decide_true by done. rewrite Hnx. pose proof (Hmiss Hwv) as Hm. apply Hfresh in Hm. cbn in Hm.
                          replace (0 <? v)%N with true by (symmetry; apply N.ltb_lt; lia). cbn [andb].
             rewrite Hr. unfold tc_get. rewrite Hg. cbn [rbind snd]. unfold tc_put. rewrite Hn, lookup_empty. done.
          -- done.
          -- done.
          -- done.
          -- done.
          -- cbn. pose proof (st_nl _ _ _ _ HS) as Hnl. cbn in Hnl. rewrite Hnl.
             rewrite insert_empty, map_filter_singleton_False, map_filter_empty by (unfold leaf_entry; cbn; done). done.
          -- done.
          -- cbn. by rewrite lookup_insert.
          -- intros w' q Hne. cbn. rewrite lookup_insert_ne by done. by rewrite Hn.
          -- by right.
      + injection Hwv as ->. assert (tc_get_option tc (v, []) = Some NNull) as Hg.
        { rewrite tc_get_option_alt. apply lookup_union_l'. by rewrite Hn, lookup_singleton. }
        rewrite Hg. exists NNull, NNull, tc, tc. split_and!; try done.
        * rewrite (bool_decide_false (tc_nodes tc = ∅)); [by rewrite andb_false_r|].
          rewrite Hn. apply map_non_empty_singleton.
        * pose proof (st_nl _ _ _ _ HS) as Hnl. cbn in Hnl. rewrite Hnl, Hn.
          rewrite map_filter_singleton_False, map_filter_empty by (unfold leaf_entry; cbn; done). done.
        * by rewrite Hn, lookup_singleton.
        * by right. }
  destruct Hfr as (Fr1 & Fr2 & Fr3 & Fr4 & Fr5 & Fr6 & Fr7 & Fr8 & Fr9).
  unfold tc_freeze. rewrite E1. cbn [rbind]. rewrite Eh. cbn [rbind]. rewrite E2. cbn [rbind].
  rewrite Fr2, Hnx. replace (v =? u64_max)%N with false by (symmetry; apply N.eqb_neq; lia).
  eexists _, (tc_nodes tc2). split; [done|].
  set (tc' := Cache _ _ _ _ _ _ _ _ _ _ _ _ _).
  assert (onodes tc' = tc_nodes tc2 ∪ onodes tc) as Hon.
  { unfold onodes. cbn. by rewrite Fr4, Fr9, (assoc_L (∪)). }
  assert (forall q x, tc_nodes tc2 !! (v, q) = Some x ->
     x = node_of M ver q /\ (q = [] \/ (live [] M q /\ ver q = v))) as Hnew_live.
  { intros q x Hx. destruct (decide (q = [])) as [->|Hq]; [split; [congruence|by left]|].
    rewrite Hnc in Hx by congruence.
    destruct (pi_state _ _ _ _ _ HP) as [(HM & HS & Hr)|(HM & HS & Hn & Hmiss)].
    - rewrite (st_nc _ _ _ _ HS) in Hx. unfold JmtCacheProof.tr in Hx.
      destruct (decide (live [] M q)) as [Hl|Hl]; [|done].
      case_decide as Hvv; [|done]. simplify_eq. split; [done|]. right. tauto.
    - destruct Hn as [Hn|[Hn _]]; rewrite Hn in Hx; [done|].
      by rewrite lookup_singleton_ne in Hx by congruence. }
  assert (forall nk x, tc_nodes tc2 !! nk = Some x -> fst nk = v) as Hnew_v.
  { intros [w q] x Hx. destruct (decide (w = v)) as [|Hwv]; [done|exfalso].
    rewrite Hnc in Hx by congruence.
    destruct (pi_state _ _ _ _ _ HP) as [(HM & HS & Hr)|(HM & HS & Hn & Hmiss)].
    - rewrite (st_nc _ _ _ _ HS) in Hx. destruct (tr [] M ver q) as [[w' x']|]; [|done].
      case_decide; [|done]. tauto.
    - destruct Hn as [Hn|[Hn _]]; rewrite Hn in Hx; [done|].
      by rewrite lookup_singleton_ne in Hx by congruence. }
  (* every live node is present *)
  assert (forall q w x, tr [] M ver q = Some (w, x) -> onodes tc' !! (w, q) = Some x /\
            (tc_nodes tc2 !! (w, q) = Some x \/ old !! (w, q) = Some x) /\
            x = node_of M ver q /\ w = ver q /\ (w <= v)%N) as Hlive.
  { intros q w x Hq.
    destruct (pi_state _ _ _ _ _ HP) as [(HM & HS & Hr)|(HM & HS & Hn & Hmiss)].
    2: { subst M. by rewrite tr_empty in Hq. }
    assert (x = node_of M ver q /\ w = ver q) as [Hx Hwv].
    { unfold JmtCacheProof.tr in Hq. case_decide; [|done]. by simplify_eq. }
    pose proof (St_versions v old tc M ver Hlt HS _ _ _ Hq) as Hle. rewrite Hon.
    destruct (decide (w = v)) as [Ew|Hne].
    - assert (tc_nodes tc2 !! (w, q) = Some x) as Hin.
      { destruct (decide (q = [])) as [->|Hq0]; [rewrite Ew; congruence|].
        rewrite Hnc by congruence. rewrite (st_nc _ _ _ _ HS), Hq. by rewrite decide_True. }
      split_and!; [by apply lookup_union_l'|by left|done..].
    - pose proof (st_in _ _ _ _ HS _ _ _ Hq Hne) as Ho.
      pose proof (st_sub _ _ _ _ HS _ _ Ho) as [_ Ho2].
      split_and!; [|by right|done..]. rewrite lookup_union_r; [exact Ho2|].
      destruct (tc_nodes tc2 !! (w, q)) as [y|] eqn:Ey; [|done]. apply Hnew_v in Ey. done. }
  assert (forall w q x, treemap (onodes tc') M ver !! (w, q) = Some x <-> tr [] M ver q = Some (w, x)) as Htm.
  { intros w q x. rewrite treemap_Some. split; [tauto|]. intros Hq. split; [|done]. by apply Hlive in Hq as [? _]. }
  split.
  - unfold tc'. cbn [tc_root tc_next tc_nodes tc_values tc_new_leaves tc_stale tc_stale_leaves fz_nodes fz_values fz_stale fz_stats fz_roots tc_store]. by rewrite Fr4.
  - done.
  - done.
  - unfold tc'. cbn [tc_root tc_next tc_nodes tc_values tc_new_leaves tc_stale tc_stale_leaves fz_nodes fz_values fz_stale fz_stats fz_roots tc_store]. by rewrite Fr3, Fr5.
  - unfold tc'. cbn [tc_root tc_next tc_nodes tc_values tc_new_leaves tc_stale tc_stale_leaves fz_nodes fz_values fz_stale fz_stats fz_roots tc_store]. by rewrite Hst, Fr6.
  - intros [w q]. destruct (pi_state _ _ _ _ _ HP) as [(HM & HS & Hr)|(HM & HS & Hn & Hmiss)].
    + rewrite (st_st _ _ _ _ HS). split; intros [Ho Hx]; (split; [done|]).
      * apply eq_None_not_Some. intros [x Hy]. apply Hx. exists x. by apply Htm.
      * intros [x Hy]. apply Htm in Hy. congruence.
    + pose proof (st_st _ _ _ _ HS w q) as Hs. cbn in Hs. rewrite Hs. subst M.
      split; intros [Ho Hx]; (split; [done|]); [|by intros [??]].
      apply eq_None_not_Some. intros [x Hy]. apply Htm in Hy. by rewrite tr_empty in Hy.
  - unfold tc'. cbn [fz_roots]. by rewrite Fr8.
  - unfold tc'. cbn [fz_stats]. rewrite Fr7, Hst, Hsl, Hnl. do 3 f_equal.
    destruct (pi_state _ _ _ _ _ HP) as [(HM & HS & Hr)|(HM & HS & Hn & Hmiss)].
    + apply (st_sl _ _ _ _ HS).
    + apply (st_sl _ _ _ _ HS).
  - unfold tc'. cbn [tc_root tc_next tc_nodes tc_values tc_new_leaves tc_stale tc_stale_leaves fz_nodes fz_values fz_stale fz_stats fz_roots tc_store]. by rewrite Fr9.
  - done.
  - split; [done|..].
    + rewrite Hon. apply lookup_union_l'. congruence.
    + intros q Hq Hl. apply (Hlive q). unfold JmtCacheProof.tr. by rewrite decide_True.
    + intros q Hq Hl. destruct (Hlive q (ver q) (node_of M ver q)) as (_ & _ & _ & _ & ?); [|done].
      unfold JmtCacheProof.tr. by rewrite decide_True.
  - intros [w q] x Hx. apply Htm in Hx. by apply Hlive in Hx as (_ & ? & _).
  - split.
    + reflexivity || done.
    + reflexivity || done.
    + intros [w q] x Hx. apply Htm, Hlive in Hx. cbn. lia.
    + intros nk x Hx. rewrite Hon in Hx. apply lookup_union_Some_raw in Hx as [Hx|[_ Hx]].
      * apply Hnew_v in Hx. lia.
      * apply Hfresh in Hx. lia.
    + by right.
    + change (snd (tc_root tc2) = []). rewrite Fr1. apply (pi_path _ _ _ _ _ HP).
    + destruct (pi_state _ _ _ _ _ HP) as [(HM & HS & Hr)|(HM & HS & Hn & Hmiss)].
      * left. split_and!; [done| |change (tc_root tc2 = (ver [], [])); by rewrite Fr1]. split; unfold tc' at 1; cbn [tc_nodes tc_new_leaves tc_stale tc_stale_leaves fz_nodes tc_store].
        -- intros w q. rewrite lookup_empty. destruct (tr [] M ver q) as [[w' x]|] eqn:Hq; [|done].
           apply Hlive in Hq. rewrite decide_False; [done|]. lia.
        -- intros w q. split; [intros []%elem_of_empty|]. intros [[x Hx] Hy]. exfalso. apply Hy.
           exists x. by apply Htm.
        -- intros q w x Hq _. by apply Htm.
        -- intros [w q] x Hx. split; [apply Htm, Hlive in Hx; cbn; lia|].
           apply treemap_Some in Hx as [Hx _]. exact Hx.
        -- unfold tc'. cbn [tc_new_leaves tc_nodes]. by rewrite map_filter_empty.
        -- unfold tc'. cbn [tc_stale_leaves tc_stale]. rewrite (filter_empty_L (C := gset nkey)), size_empty by apply _. reflexivity.
      * right. subst M. split_and!; [done| |by left|].
        -- assert (treemap (onodes tc') ∅ ver = ∅) as Ht.
           { apply map_empty. intros [w q]. apply eq_None_not_Some. intros [x Hx]. apply Htm in Hx. by rewrite tr_empty in Hx. }
           rewrite Ht. split; cbn.
           ++ done.
           ++ intros w q. rewrite lookup_empty. split; [intros []%elem_of_empty|]. intros [[? ?] _]. done.
           ++ done.
           ++ done.
           ++ by rewrite map_filter_empty.
           ++ rewrite (filter_empty_L (C := gset nkey)), size_empty by apply _. reflexivity.
        -- intros _. change (tc_root tc') with (tc_root tc2). rewrite Fr1. pose proof (pi_path _ _ _ _ _ HP) as Hp.
           destruct (tc_root tc) as [w rp] eqn:Er. cbn in Hp. subst rp.
           assert (node_of ∅ ver [] = NNull) as Hnull by (apply node_of_null; by apply pcnt_nil_0).
           rewrite Hon. destruct (decide (w = v)) as [->|Hwv].
           ++ apply lookup_union_l'. congruence.
           ++ rewrite lookup_union_r; [by apply Hmiss|].
              destruct (tc_nodes tc2 !! (w, [])) as [y|] eqn:Ey; [|done]. apply Hnew_v in Ey. done.
  - done.
Qed.
End Put.
