(** Executions: calls, batches applied to the store, pruning. *)
From Verif Require Import Base JmtNibModel JmtSpec JmtNibProof JmtModel JmtHashProof JmtAbsProof
  JmtCacheProof JmtInsertProof JmtPutProof JmtHistProof JmtValueProof JmtRunSpec.
Local Open Scope N_scope.

Lemma size_pairs (v : N) (X : gset nkey) : size (set_map (D := gset (N * nkey)) (fun nk => (v, nk)) X) = size X.
Proof.
  unfold set_map. rewrite size_list_to_set.
  - rewrite fmap_length. done.
  - apply NoDup_fmap_2_strong; [by intros ?? _ _ [= ->]|apply NoDup_elements].
Qed.
Lemma size_snd (X : gset (N * nkey)) : (forall t t' nk, (t, nk) ∈ X -> (t', nk) ∈ X -> t = t') ->
  size (set_map (C := gset (N * nkey)) (D := gset nkey) snd X) = size X.
Proof.
  intros H. unfold set_map. rewrite size_list_to_set.
  - rewrite fmap_length. done.
  - apply NoDup_fmap_2_strong; [|apply NoDup_elements].
    intros [t nk] [t' nk'] Hx%elem_of_elements Hy%elem_of_elements [= ->]. by rewrite (H t t' nk').
Qed.

Section Run.
Context (sha hv : bytes -> bytes).
Notation sm_leaf := (sm_leaf sha).
Notation sm_internal := (sm_internal sha).
Notation hashP := (hashB sm_leaf sm_internal placeholder).
Notation phash p M := (hashP (path_bits p) M).
Notation node_of := (node_of sha).
Notation tr := (tr sha).
Notation Holds := (Holds sha).
Notation PInv := (PInv sha).
Notation treemap := (treemap sha).
Notation HInv := (HInv sha).
Notation Cur := (Cur sha).
Notation hvm := (hvm hv).

Definition cs_of (hist : list (list write)) (u : N) : pairs := hvm (contents_at hist u).

(** Key [k] is written at version [u]. *)
Definition wr_of (hist : list (list write)) (u : N) (k : bytes) : Prop :=
  exists kvs, hist !! N.to_nat u = Some kvs /\ is_Some (last_write_in k kvs).
Lemma wr_of_app hist sets u k : u < N.of_nat (length hist) -> wr_of (hist ++ sets) u k <-> wr_of hist u k.
Proof. intros Hu. unfold wr_of. rewrite lookup_app_l by lia. done. Qed.

Lemma contents_at_app hist sets u : u < N.of_nat (length hist) ->
  contents_at (hist ++ sets) u = contents_at hist u.
Proof. intros Hu. unfold contents_at. rewrite take_app_le by lia. done. Qed.

Lemma HInv_ext cs cs' (wr wr' : N -> bytes -> Prop) S R n lo vs : (forall u, u < n -> cs u = cs' u) ->
  (forall u k, u < n -> wr' u k -> wr u k) ->
  HInv cs wr S R n lo vs -> HInv cs' wr' S R n lo vs.
Proof.
  intros E Ew [H1 H2 H3 H4 H5 H6 H7 H8 H9 H10 H11]. split; try done.
  - intros u Hu. rewrite <-E by lia. by apply H1.
  - intros t nk u Hin Hu Hl. apply (H5 t nk u Hin Hu). unfold live_at in *. by rewrite E by lia.
  - intros t nk Hin Hq Hlt. pose proof (H3 t nk Hin) as (_ & Htn & _).
    specialize (H6 t nk Hin Hq Hlt). unfold live_at in *. by rewrite <-E by lia.
  - intros nk nd Hnk Hq. destruct (H7 nk nd Hnk Hq) as [[Hn Hl]|?]; [left|by right].
    split; [done|]. unfold live_at in *. by rewrite <-E by lia.
  - intros u q k x t Hu Hq Hl Hs Ht Hw. rewrite <-E in Hl, Hs by lia.
    apply (H9 u q k x t Hu Hq Hl Hs Ht). apply Ew; [lia|done].
  - intros u w nk Hu Hw Hl Hge.
    assert (live_at cs vs u nk) as Hl' by (unfold live_at in *; by rewrite E by lia).
    pose proof (H10 u w nk Hu Hw Hl' Hge) as Hb. unfold live_at in *. by rewrite <-E by lia.
  - intros u q i Hu Hq Hl. rewrite <-E in Hl by lia. by apply H11.
Qed.

(** ** One call *)
Record Loop (cs : N -> pairs) (wr : N -> bytes -> Prop) (s : store) (first lo : N) (m0 : gmap bytes bytes)
    (ws : list (list write)) (tc : cache) : Prop := {
  lp_cur : exists old ver vs,
    HInv cs wr (onodes tc) (records tc) (first + N.of_nat (length ws)) lo vs /\
    Cur cs (first + N.of_nat (length ws)) tc old (hvm (fold_left apply_set ws m0)) ver vs (records tc);
  lp_store : tc_store tc = s;
  lp_nodes : forall nk nd, fz_nodes tc !! nk = Some nd -> first <= fst nk < first + N.of_nat (length ws);
  lp_vals : forall w k, fz_values tc !! (w, k) =
    if decide (first <= w)
    then match ws !! N.to_nat (w - first) with Some kvs => last_write_in k kvs | None => None end
    else None;
  lp_stale : forall t nk, (t, nk) ∈ fz_stale tc -> first <= t < first + N.of_nat (length ws);
  lp_roots_len : length (fz_roots tc) = length ws;
  lp_roots : forall i r, fz_roots tc !! i = Some r -> r = phash [] (cs (first + N.of_nat i));
  lp_stats_len : length (fz_stats tc) = length ws;
  lp_stats : forall i st, fz_stats tc !! i = Some st ->
    st = counted (onodes tc) (fz_nodes tc) (fz_stale tc) (first + N.of_nat i)
}.

Lemma counted_ext all all' new new' st st' u :
  (forall nk nd, fst nk = u -> new !! nk = Some nd <-> new' !! nk = Some nd) ->
  (forall nk, (u, nk) ∈ st <-> (u, nk) ∈ st') ->
  (forall nk, (u, nk) ∈ st -> all !! nk = all' !! nk) ->
  counted all new st u = counted all' new' st' u.
Proof.
  intros Hn Hs Ha. unfold counted. f_equal; f_equal; f_equal.
  - apply map_eq. intros nk. apply option_eq. intros nd. rewrite !map_filter_lookup_Some.
    unfold is_ver. cbn. split; intros [A B]; (split; [|done]); by apply (Hn nk nd B).
  - apply map_eq. intros nk. apply option_eq. intros nd. rewrite !map_filter_lookup_Some.
    unfold is_ver_leaf. cbn. split; intros [A [B C]]; (split; [|done]); by apply (Hn nk nd B).
  - apply set_eq. intros [t nk]. rewrite !elem_of_filter. unfold is_rec. cbn.
    split; intros [-> B]; (split; [done|]); by apply Hs.
  - apply set_eq. intros [t nk]. rewrite !elem_of_filter. unfold is_rec_leaf. cbn.
    split; intros [[-> C] B]; (split; [split; [done|]|by apply Hs]).
    + by rewrite <-Ha.
    + rewrite Ha; [done|]. by apply Hs.
Qed.

Lemma loop_step cs (wr : N -> bytes -> Prop) s first lo m0 ws kvs tc :
  (0 < first -> lo < first) -> (first = 0 -> lo = 0) ->
  first + N.of_nat (length ws) < u64_max ->
  Loop cs wr s first lo m0 ws tc ->
  Forall (fun w : write => length (fst w) = 32%nat) kvs ->
  cs (first + N.of_nat (length ws)) = hvm (fold_left apply_set (ws ++ [kvs]) m0) ->
  (forall k, wr (first + N.of_nat (length ws)) k -> is_Some (last_write_in k kvs)) ->
  exists tc1 tc', put_set sha hv (first + N.of_nat (length ws)) kvs tc = Ok tc1 /\
    tc_freeze sha tc1 = Ok tc' /\ Loop cs wr s first lo m0 (ws ++ [kvs]) tc'.
Proof.
  intros Hlo Hlo0 Hv HL Hwf Hcs Hwr. destruct (lp_cur _ _ _ _ _ _ _ _ HL) as (old & ver & vs & HH & HC).
  rewrite fold_left_app in Hcs. cbn [fold_left] in Hcs.
  set (v := first + N.of_nat (length ws)) in *.
  destruct (step_ok sha hv cs wr v lo (fold_left apply_set ws m0) kvs tc old ver vs)
    as (tc1 & tc' & new & ver' & vs' & E1 & E2 & _ & _ & HH' & HC' & HS & Hst & Hnew & Hstats & Hst1); try done.
  { intros Hv0. destruct (decide (first = 0)) as [E|E]; [rewrite (Hlo0 E); lia|]. unfold v. assert (lo < first) by (apply Hlo; lia). lia. }
  exists tc1, tc'. split_and!; [done|done|].
  assert (first + N.of_nat (length (ws ++ [kvs])) = v + 1) as Ev by (rewrite app_length; cbn; lia).
  assert (forall nk nd, onodes tc !! nk = Some nd -> onodes tc' !! nk = Some nd) as Hmono.
  { intros nk nd Hnk. unfold onodes in *. rewrite (sp_nodes _ _ _ _ _ _ _ _ HS), (sp_store _ _ _ _ _ _ _ _ HS).
    rewrite <-(assoc_L (∪)). rewrite lookup_union_r; [done|]. destruct (new !! nk) eqn:E; [|done].
    apply (sp_new _ _ _ _ _ _ _ _ HS) in E. apply (hi_fresh _ _ _ _ _ _ _ _ HH) in Hnk. lia. }
  assert (forall nk, is_Some (old !! nk) -> exists nd, old !! nk = Some nd /\ onodes tc !! nk = Some nd) as Hold_in.
  { intros nk [nd Ho]. exists nd. split; [done|]. pose proof (cu_inv _ _ _ _ _ _ _ _ _ HC) as HP0.
    destruct (pi_state _ _ _ _ _ _ HP0) as [(_ & HSt & _)|(HM & HSt & _)].
    - by apply (st_sub _ _ _ _ HSt).
    - by apply (st_sub _ _ _ _ HSt) in Ho as [_ Ho]. }
  split.
  - exists (treemap (onodes tc') (cs v) ver'), ver', vs'. rewrite Ev, fold_left_app. cbn [fold_left]. split; done.
  - rewrite (sp_store _ _ _ _ _ _ _ _ HS). apply (lp_store _ _ _ _ _ _ _ _ HL).
  - rewrite Ev. intros nk nd Hnk. rewrite (sp_nodes _ _ _ _ _ _ _ _ HS) in Hnk.
    apply lookup_union_Some_raw in Hnk as [Hnk|[_ Hnk]].
    + apply (sp_new _ _ _ _ _ _ _ _ HS) in Hnk. unfold v in *. lia.
    + apply (lp_nodes _ _ _ _ _ _ _ _ HL) in Hnk. unfold v in *. lia.
  - intros w k. rewrite (sp_values _ _ _ _ _ _ _ _ HS), (lp_vals _ _ _ _ _ _ _ _ HL).
    destruct (decide (w = v)) as [->|Hne].
    + rewrite decide_True by (unfold v; lia).
      replace (N.to_nat (v - first)) with (length ws) by (unfold v; lia).
      rewrite lookup_ge_None_2 by lia. rewrite (lookup_app_r ws) by lia. rewrite Nat.sub_diag. cbn.
      rewrite decide_True by (unfold v; lia). by destruct (last_write_in k kvs).
    + case_decide as Hle; [|done]. destruct (decide (w < v)) as [Hlt|Hlt].
      * rewrite (lookup_app_l ws) by (unfold v in *; lia). done.
      * rewrite (lookup_ge_None_2 ws) by (unfold v in *; lia).
        rewrite lookup_ge_None_2; [done|]. rewrite app_length. cbn. unfold v in *. lia.
  - rewrite Ev. intros t nk Hin. apply (sp_stale _ _ _ _ _ _ _ _ HS) in Hin as [Hin|[-> _]].
    + apply (lp_stale _ _ _ _ _ _ _ _ HL) in Hin. unfold v. lia.
    + unfold v. lia.
  - rewrite (sp_roots _ _ _ _ _ _ _ _ HS), !app_length, (lp_roots_len _ _ _ _ _ _ _ _ HL). done.
  - intros i r Hi. rewrite (sp_roots _ _ _ _ _ _ _ _ HS) in Hi.
    apply lookup_app_Some in Hi as [Hi|[Hi1 Hi2]].
    + by apply (lp_roots _ _ _ _ _ _ _ _ HL).
    + rewrite (lp_roots_len _ _ _ _ _ _ _ _ HL) in Hi1, Hi2. apply list_lookup_singleton_Some in Hi2 as [Hi2 <-].
      replace (first + N.of_nat i) with v by (unfold v; lia). by rewrite Hcs.
  - rewrite Hstats, !app_length, (lp_stats_len _ _ _ _ _ _ _ _ HL). done.
  - intros i st Hi. rewrite Hstats in Hi. apply lookup_app_Some in Hi as [Hi|[Hi1 Hi2]].
    + pose proof Hi as Hi'. apply lookup_lt_Some in Hi'. rewrite (lp_stats_len _ _ _ _ _ _ _ _ HL) in Hi'.
      rewrite (lp_stats _ _ _ _ _ _ _ _ HL i st Hi). apply counted_ext.
      * intros nk nd Hnk. rewrite (sp_nodes _ _ _ _ _ _ _ _ HS), lookup_union_r; [done|].
        destruct (new !! nk) eqn:E; [|done]. apply (sp_new _ _ _ _ _ _ _ _ HS) in E. unfold v in *. lia.
      * intros nk. rewrite (sp_stale _ _ _ _ _ _ _ _ HS). split; [tauto|]. intros [?|[E _]]; [done|]. unfold v in *. lia.
      * intros nk Hin. destruct (hi_rec _ _ _ _ _ _ _ _ HH (first + N.of_nat i) nk) as (_ & _ & [nd Hnd]).
        { unfold records. apply elem_of_union. by left. }
        rewrite Hnd. symmetry. by apply Hmono.
    + rewrite (lp_stats_len _ _ _ _ _ _ _ _ HL) in Hi1, Hi2. apply list_lookup_singleton_Some in Hi2 as [Hi2 <-].
      replace (first + N.of_nat i) with v by (unfold v; lia).
      assert (filter (is_ver v) (fz_nodes tc') = new) as En.
      { apply map_eq. intros nk. apply option_eq. intros nd. rewrite map_filter_lookup_Some.
        rewrite (sp_nodes _ _ _ _ _ _ _ _ HS). unfold is_ver. cbn. split.
        - intros [A B]. apply lookup_union_Some_raw in A as [A|[_ A]]; [done|].
          apply (lp_nodes _ _ _ _ _ _ _ _ HL) in A. unfold v in *. lia.
        - intros A. split; [by apply lookup_union_Some_l|]. by apply (sp_new _ _ _ _ _ _ _ _ HS) in A. }
      assert (filter (is_ver_leaf v) (fz_nodes tc') = filter leaf_entry new) as Enl.
      { rewrite <-En. apply map_eq. intros nk. apply option_eq. intros nd. rewrite !map_filter_lookup_Some.
        unfold is_ver, is_ver_leaf, leaf_entry. cbn. tauto. }
      assert (filter (is_rec v) (fz_stale tc') = set_map (fun nk => (v, nk)) (tc_stale tc1)) as Es.
      { apply set_eq. intros [t nk]. rewrite elem_of_filter, elem_of_map. unfold is_rec. cbn. split.
        - intros [-> Hin]. exists nk. split; [done|]. by apply Hst1.
        - intros (nk' & [= -> ->] & Hin). split; [done|]. by apply Hst1. }
      assert (filter (is_rec_leaf (onodes tc') v) (fz_stale tc')
        = set_map (fun nk => (v, nk)) (filter (stale_leaf old) (tc_stale tc1))) as Esl.
      { apply set_eq. intros [t nk]. rewrite elem_of_filter, elem_of_map. unfold is_rec_leaf. cbn [fst snd].
        assert (nk ∈ tc_stale tc1 -> onodes tc' !! nk = old !! nk) as Hon.
        { intros Hin. apply Hst1, Hst in Hin as [Ho _]. apply Hold_in in Ho as (nd & Ho & Hn). rewrite Ho. by apply Hmono. }
        split.
        - intros [[-> Hl] Hin]. exists nk. split; [done|]. apply Hst1 in Hin. apply elem_of_filter. split; [|done].
          unfold stale_leaf. by rewrite Hon in Hl.
        - intros (nk' & [= -> ->] & Hin). apply elem_of_filter in Hin as [Hl Hin].
          split; [|by apply Hst1]. split; [done|]. unfold stale_leaf in Hl. by rewrite Hon. }
      unfold counted. rewrite En, Enl, Es, Esl, !size_pairs. done.
Qed.

Lemma loop_sets cs (wr : N -> bytes -> Prop) s first lo m0 sets : forall ws tc,
  (0 < first -> lo < first) -> (first = 0 -> lo = 0) ->
  first + N.of_nat (length (ws ++ sets)) <= u64_max ->
  Loop cs wr s first lo m0 ws tc ->
  Forall (Forall (fun w : write => length (fst w) = 32%nat)) sets ->
  (forall i, (length ws <= i < length (ws ++ sets))%nat ->
     cs (first + N.of_nat i) = hvm (fold_left apply_set (take (S i) (ws ++ sets)) m0)) ->
  (forall i k, (length ws <= i < length (ws ++ sets))%nat -> wr (first + N.of_nat i) k ->
     exists kvs, (ws ++ sets) !! i = Some kvs /\ is_Some (last_write_in k kvs)) ->
  exists tc', put_sets sha hv (first + N.of_nat (length ws)) sets tc = Ok tc' /\
    Loop cs wr s first lo m0 (ws ++ sets) tc'.
Proof.
  induction sets as [|kvs sets IH]; intros ws tc Hlo Hlo0 Hv HL Hwf Hcs Hwr.
  - exists tc. by rewrite app_nil_r.
  - inversion Hwf as [|? ? Hk Hwf']; subst. rewrite app_length in Hv. cbn in Hv.
    destruct (loop_step cs wr s first lo m0 ws kvs tc) as (tc1 & tc' & E1 & E2 & HL'); try done.
    { lia. }
    { rewrite (Hcs (length ws)) by (rewrite app_length; cbn; lia).
      do 2 f_equal. change (kvs :: sets) with ([kvs] ++ sets). rewrite (assoc_L (++)).
      rewrite take_app_alt; [done|]. rewrite app_length. cbn. lia. }
    { intros k Hk0. destruct (Hwr (length ws) k) as (kvs' & A & B); [rewrite app_length; cbn; lia|done|].
      rewrite lookup_app_r, Nat.sub_diag in A by lia. cbn in A. by injection A as <-. }
    assert ((ws ++ [kvs]) ++ sets = ws ++ kvs :: sets) as Ea by by rewrite <-app_assoc.
    destruct (IH (ws ++ [kvs]) tc') as (tc2 & E3 & HL2); try done.
    { rewrite Ea, app_length. cbn. lia. }
    { rewrite Ea. intros i Hi. apply Hcs. rewrite app_length in Hi. cbn in Hi. lia. }
    { rewrite Ea. intros i k Hi. apply Hwr. rewrite app_length in Hi. cbn in Hi. lia. }
    exists tc2. rewrite Ea in HL2. split; [|done]. cbn [put_sets].
    replace (u64_max <? _) with false by (symmetry; apply N.ltb_ge; lia).
    rewrite E1. cbn [rbind]. rewrite E2. cbn [rbind]. rewrite <-E3. f_equal. rewrite app_length. cbn. lia.
Qed.

(** ** The store between calls *)
Record SInv (s : store) (hist : list (list write)) (lo : N) : Prop := {
  si_hist : exists vs, HInv (cs_of hist) (wr_of hist) (st_nodes s) (st_stale s) (N.of_nat (length hist)) lo vs;
  si_wf : wf_sets hist;
  si_max : N.of_nat (length hist) <= u64_max;
  si_lo : 0 < N.of_nat (length hist) -> lo < N.of_nat (length hist);
  si_lo0 : N.of_nat (length hist) = 0 -> lo = 0;
  si_vals : hist_ok s hist
}.

Lemma SInv_empty : SInv empty_store [] 0.
Proof.
  split; cbn; try done; try lia.
  - exists (fun _ _ => 0). split; cbn; try done; try lia.
    all: try (intros t nk []%elem_of_empty). all: try (intros t t' nk []%elem_of_empty).
    all: try (intros t nk u []%elem_of_empty).
  - constructor.
Qed.

Lemma contents_last hist : (0 < length hist)%nat ->
  contents_at hist (N.of_nat (length hist) - 1) = fold_left apply_set hist ∅.
Proof. intros H. unfold contents_at. rewrite take_ge by lia. done. Qed.

Lemma start_ok s hist lo sets : SInv s hist lo ->
  Loop (cs_of (hist ++ sets)) (wr_of (hist ++ sets)) s (N.of_nat (length hist)) lo (fold_left apply_set hist ∅) []
    (cache_new s (N.of_nat (length hist))).
Proof.
  intros HS. destruct (si_hist _ _ _ HS) as [vs HH0].
  set (n := N.of_nat (length hist)) in *.
  assert (HInv (cs_of (hist ++ sets)) (wr_of (hist ++ sets)) (st_nodes s) (st_stale s) n lo vs) as HH.
  { eapply HInv_ext; [..|exact HH0].
    - intros u Hu. unfold cs_of. by rewrite contents_at_app.
    - intros u k Hu. by rewrite wr_of_app. }
  assert (tc_store (cache_new s n) = s /\ fz_nodes (cache_new s n) = ∅ /\ fz_values (cache_new s n) = ∅ /\
    fz_stale (cache_new s n) = ∅ /\ fz_roots (cache_new s n) = [] /\ fz_stats (cache_new s n) = [] /\
    tc_values (cache_new s n) = ∅ /\ tc_next (cache_new s n) = n) as (F1 & F2 & F3 & F4 & F5 & F6 & F7 & F8).
  { unfold cache_new. destruct (n =? 0); [destruct (st_nodes s !! _)|]; done. }
  assert (onodes (cache_new s n) = st_nodes s) as Hon by (unfold onodes; by rewrite F1, F2, (left_id_L ∅ (∪))).
  assert (records (cache_new s n) = st_stale s) as Hrc by (unfold records; by rewrite F1, F4, (left_id_L ∅ (∪))).
  split.
  - cbn [length fold_left]. replace (n + N.of_nat 0) with n by lia. rewrite Hon, Hrc.
    destruct (decide (n = 0)) as [En|En].
    + (* the very first call *)
      assert (hist = []) as Eh by (destruct hist; [done|]; unfold n in En; cbn in En; lia).
      exists ∅, (fun _ => 0), vs. split; [done|].
      assert (st_nodes s = ∅) as Hs0.
      { apply map_empty. intros nk. apply eq_None_not_Some. intros [nd Hnd]. apply (hi_fresh _ _ _ _ _ _ _ _ HH) in Hnd. lia. }
      assert (cache_new s n = Cache (0, []) n {[ (0, []) := NNull ]} ∅ 0 ∅ 0 ∅ ∅ ∅ [] [] s) as Ec.
      { unfold cache_new. rewrite En. cbn [N.eqb]. by rewrite Hs0, lookup_empty. }
      assert (hvm (fold_left apply_set hist ∅) = ∅) as Em by (subst hist; apply fmap_empty).
      rewrite Em. split.
      * split.
        -- intros k x Hk. by rewrite lookup_empty in Hk.
        -- done.
        -- intros nk nd Hn. by rewrite lookup_empty in Hn.
        -- rewrite Hon, Hs0. intros nk nd Hn. by rewrite lookup_empty in Hn.
        -- left. rewrite Ec, En. done.
        -- by rewrite Ec.
        -- right. rewrite Ec, En. split_and!; [done| |by right|done].
           split; cbn [clear tc_nodes tc_stale tc_new_leaves tc_stale_leaves].
           ++ intros w q. apply lookup_empty.
           ++ intros w q. rewrite lookup_empty. split; [intros []%elem_of_empty|intros [[? ?] _]; done].
           ++ done.
           ++ intros nk nd Hn. by rewrite lookup_empty in Hn.
           ++ by rewrite map_filter_empty.
           ++ rewrite (filter_empty_L (C := gset nkey)), size_empty by apply _. reflexivity.
      * left. done.
      * intros w q nd. rewrite lookup_empty, tr_empty. done.
      * intros t nk _. apply lookup_empty.
      * done.
    + (* a tree is there *)
      set (M := hvm (fold_left apply_set hist ∅)).
      assert (cs_of (hist ++ sets) (n - 1) = M) as EM.
      { unfold cs_of, M. rewrite contents_at_app by (unfold n in *; lia). unfold n. rewrite contents_last; [done|].
        unfold n in En. lia. }
      assert (lo < n) as Hlo by (apply (si_lo _ _ _ HS); fold n; lia).
      pose proof (hi_holds _ _ _ _ _ _ _ _ HH (n - 1) ltac:(lia)) as HHo. rewrite EM in HHo.
      set (ver := fun q : path => if decide (q = []) then n - 1 else vs (n - 1) q).
      assert (forall q, q <> [] -> vs (n - 1) q = ver q) as Hver by (intros q Hq; unfold ver; by rewrite decide_False).
      apply (Holds_ext_ver sha _ _ _ _ ver Hver) in HHo.
      set (old := treemap (st_nodes s) M ver).
      assert (forall w q nd, old !! (w, q) = Some nd <-> tr [] M ver q = Some (w, nd)) as Hold.
      { intros w q nd. unfold old. rewrite treemap_Some. split; [tauto|]. intros Hq. split; [|done].
        unfold JmtCacheProof.tr in Hq. case_decide as Hl; [|done]. injection Hq as <- <-.
        destruct (decide (q = [])) as [->|Hq0].
        - unfold ver at 1. rewrite decide_True by done. apply (h_root _ _ _ _ _ HHo).
        - by apply (h_live _ _ _ _ _ HHo). }
      assert (cache_new s n = Cache (n - 1, []) n ∅ ∅ 0 ∅ 0 ∅ ∅ ∅ [] [] s) as Ec.
      { unfold cache_new. replace (n =? 0) with false by (symmetry; apply N.eqb_neq; lia). done. }
      assert (forall nk nd, old !! nk = Some nd -> fst nk < n /\ st_nodes s !! nk = Some nd) as Holt.
      { intros [w q] nd Ho. apply treemap_Some in Ho as [Ho _]. split; [|done].
        by apply (hi_fresh _ _ _ _ _ _ _ _ HH) in Ho. }
      exists old, ver, vs. split; [done|]. split.
      * split.
        -- apply (h_wf _ _ _ _ _ HHo).
        -- done.
        -- intros nk nd Ho. by apply Holt in Ho as [? _].
        -- rewrite Hon. intros nk nd Hn. by apply (hi_fresh _ _ _ _ _ _ _ _ HH) in Hn.
        -- right. by rewrite Ec.
        -- by rewrite Ec.
        -- destruct (decide (M = ∅)) as [E0|E0].
           ++ right. assert (old = ∅) as Eo.
              { apply map_empty. intros [w q]. apply eq_None_not_Some. intros [nd Hx]. apply Hold in Hx.
                rewrite E0, tr_empty in Hx. done. }
              rewrite Eo. split_and!; [done| | |].
              ** rewrite Ec. split; cbn [clear tc_nodes tc_stale tc_new_leaves tc_stale_leaves].
                 --- intros w q. apply lookup_empty.
                 --- intros w q. rewrite lookup_empty. split; [intros []%elem_of_empty|intros [[? ?] _]; done].
                 --- done.
                 --- intros nk nd Hn. by rewrite lookup_empty in Hn.
                 --- by rewrite map_filter_empty.
                 --- rewrite (filter_empty_L (C := gset nkey)), size_empty by apply _. reflexivity.
              ** left. by rewrite Ec.
              ** intros _. rewrite Hon, Ec. cbn [tc_root]. rewrite (h_root _ _ _ _ _ HHo).
                 f_equal. rewrite E0. apply node_of_null. by apply pcnt_nil_0.
           ++ left. split_and!; [done| |].
              ** rewrite Ec. split; cbn [tc_nodes tc_stale tc_new_leaves tc_stale_leaves fz_nodes tc_store].
                 --- intros w q. rewrite lookup_empty. destruct (tr [] M ver q) as [[w' x]|] eqn:Hq; [|done].
                     apply Hold, Holt in Hq as [Hq _]. cbn in Hq. rewrite decide_False; [done|]. lia.
                 --- intros w q. split; [intros []%elem_of_empty|]. intros [[x Hx] Hy]. exfalso. apply Hy.
                     exists x. by apply Hold.
                 --- intros q w x Hq _. by apply Hold.
                 --- intros nk x Hx. apply Holt in Hx as [Hx1 Hx2]. split; [lia|].
                     by rewrite (left_id_L ∅ (∪)).
                 --- by rewrite map_filter_empty.
                 --- rewrite (filter_empty_L (C := gset nkey)), size_empty by apply _. reflexivity.
              ** rewrite Ec. cbn [tc_root]. unfold ver. by rewrite decide_True.
      * right. split_and!; [lia|by rewrite EM|]. intros q Hq. symmetry. by apply Hver.
      * done.
      * intros t [w q] Hin. destruct (old !! (w, q)) as [nd|] eqn:Ho; [exfalso|done].
        pose proof (hi_rec _ _ _ _ _ _ _ _ HH t (w, q) Hin) as (A & B & _). cbn in A.
        apply Hold in Ho. unfold JmtCacheProof.tr in Ho. case_decide as Hl; [|done]. injection Ho as <- <-.
        destruct (decide (q = [])) as [->|Hq].
        -- unfold ver in A. rewrite decide_True in A by done. lia.
        -- assert (n - 1 < t); [|lia]. apply (hi_safe _ _ _ _ _ _ _ _ HH t (ver q, q) (n - 1) Hin); [lia|].
           split_and!; [done| |]; cbn; [by rewrite EM|by apply Hver].
      * done.
  - done.
  - rewrite F2. intros nk nd Hn. by rewrite lookup_empty in Hn.
  - rewrite F3. intros w k. rewrite lookup_empty. by case_decide.
  - rewrite F4. intros t nk []%elem_of_empty.
  - by rewrite F5.
  - rewrite F5. done.
  - by rewrite F6.
  - rewrite F6. done.
Qed.

(** What one call returns. *)
Record Called (s : store) (hist sets : list (list write)) (roots : list bytes) (b : batch) : Prop := {
  ca_len : length roots = length sets;
  ca_roots : forall i r, roots !! i = Some r ->
    r = phash [] (cs_of (hist ++ sets) (N.of_nat (length hist + i)));
  ca_fresh : forall nk nd, b_nodes b !! nk = Some nd -> N.of_nat (length hist) <= fst nk;
  ca_stale : forall t nk, (t, nk) ∈ b_stale b -> N.of_nat (length hist) <= t;
  ca_stats_len : length (b_stats b) = length sets;
  ca_stats : forall i st, b_stats b !! i = Some st ->
    st = counted (b_nodes b ∪ st_nodes s) (b_nodes b) (b_stale b) (N.of_nat (length hist + i))
}.

Lemma call_ok s hist lo sets : SInv s hist lo -> wf_sets sets ->
  N.of_nat (length (hist ++ sets)) <= u64_max ->
  exists roots b s', put_value_sets sha hv s sets (N.of_nat (length hist)) = Ok (roots, b) /\
    write_batch s b = Ok s' /\ SInv s' (hist ++ sets) lo /\ Called s hist sets roots b /\
    st_nodes s' = b_nodes b ∪ st_nodes s /\ st_stale s' = b_stale b ∪ st_stale s /\
    b_nodes b ##ₘ st_nodes s /\ b_stale b ## st_stale s.
Proof.
  intros HS Hwf Hmax. pose proof (start_ok s hist lo sets HS) as HL0.
  set (n := N.of_nat (length hist)) in *.
  rewrite app_length in Hmax.
  destruct (loop_sets (cs_of (hist ++ sets)) (wr_of (hist ++ sets)) s n lo (fold_left apply_set hist ∅) sets [] (cache_new s n))
    as (tc & E & HL); try done.
  { apply (si_lo _ _ _ HS). } { apply (si_lo0 _ _ _ HS). }
  { cbn [app]. unfold n. lia. }
  { cbn [app length]. intros i [_ Hi]. unfold cs_of, contents_at. f_equal.
    replace (S (N.to_nat (n + N.of_nat i))) with (length hist + S i)%nat by (unfold n; lia).
    rewrite firstn_app_2. by rewrite fold_left_app. }
  { cbn [app length]. intros i k [_ Hi] (kvs & A & B). exists kvs. split; [|done].
    replace (N.to_nat (n + N.of_nat i)) with (length hist + i)%nat in A by (unfold n; lia).
    by rewrite lookup_app_r, Nat.add_comm, Nat.add_sub in A by lia. }
  cbn [app length] in HL, E. replace (n + N.of_nat 0) with n in E by lia.
  destruct (lp_cur _ _ _ _ _ _ _ _ HL) as (old & ver & vs & HH & HC).
  pose proof (lp_store _ _ _ _ _ _ _ _ HL) as Hst.
  destruct (si_hist _ _ _ HS) as [vs0 HH0].
  assert (fz_nodes tc ##ₘ st_nodes s) as Hdn.
  { apply map_disjoint_spec. intros nk x y Hx Hy. apply (lp_nodes _ _ _ _ _ _ _ _ HL) in Hx.
    apply (hi_fresh _ _ _ _ _ _ _ _ HH0) in Hy. fold n in Hy. lia. }
  assert (fz_stale tc ## st_stale s) as Hds.
  { intros [t nk] Hx Hy. apply (lp_stale _ _ _ _ _ _ _ _ HL) in Hx.
    apply (hi_rec _ _ _ _ _ _ _ _ HH0) in Hy as (_ & Hy & _). fold n in Hy. lia. }
  destruct (write_values_ok s hist sets (fz_values tc) (si_vals _ _ _ HS)) as (h' & Eh & Hh').
  { apply (lp_vals _ _ _ _ _ _ _ _ HL). }
  exists (fz_roots tc), (Batch (fz_nodes tc) (fz_values tc) (fz_stale tc) (fz_stats tc)),
    (Store (fz_nodes tc ∪ st_nodes s) (fz_stale tc ∪ st_stale s) h' (st_overwrite s)).
  split_and!; try done.
  - unfold put_value_sets. rewrite E. done.
  - unfold write_batch, write_node_batch. cbn [b_nodes b_values b_stale].
    rewrite (bool_decide_true (fz_nodes tc ##ₘ st_nodes s)) by done. rewrite andb_false_r.
    rewrite Eh. cbn [rbind st_stale st_nodes st_hist st_overwrite]. by rewrite bool_decide_true.
  - split; cbn [st_nodes st_stale].
    + exists vs. rewrite app_length. replace (N.of_nat (length hist + length sets)) with (n + N.of_nat (length sets)) by (unfold n; lia).
      unfold onodes, records in HH. by rewrite Hst in HH.
    + by apply Forall_app; split; [apply (si_wf _ _ _ HS)|].
    + rewrite app_length. lia.
    + rewrite app_length. intros H. destruct (decide (n = 0)) as [E0|E0].
      * rewrite (si_lo0 _ _ _ HS E0). lia.
      * pose proof (si_lo _ _ _ HS ltac:(fold n; lia)). lia.
    + rewrite app_length. intros H. apply (si_lo0 _ _ _ HS). lia.
    + done.
  - split; cbn [b_nodes b_stale b_stats].
    + apply (lp_roots_len _ _ _ _ _ _ _ _ HL).
    + intros i r Hi. rewrite (lp_roots _ _ _ _ _ _ _ _ HL i r Hi). replace (N.of_nat (length hist + i)) with (n + N.of_nat i) by (unfold n; lia). reflexivity.
    + intros nk nd Hn. apply (lp_nodes _ _ _ _ _ _ _ _ HL) in Hn. fold n. lia.
    + intros t nk Hn. apply (lp_stale _ _ _ _ _ _ _ _ HL) in Hn. fold n. lia.
    + apply (lp_stats_len _ _ _ _ _ _ _ _ HL).
    + intros i st Hi. rewrite (lp_stats _ _ _ _ _ _ _ _ HL i st Hi). unfold onodes. rewrite Hst.
      replace (N.of_nat (length hist + i)) with (n + N.of_nat i) by (unfold n; lia). reflexivity.
Qed.

(** ** Pruning *)
Lemma purge_ok s hist lo least : SInv s hist lo ->
  exists s', purge s least = Ok s' /\
    SInv s' hist (op_low (N.of_nat (length hist)) lo (OpPurge least)) /\
    st_hist s' = st_hist s /\
    (forall nk nd, st_nodes s' !! nk = Some nd <->
       st_nodes s !! nk = Some nd /\ forall t, (t, nk) ∈ st_stale s -> least < t) /\
    (forall t nk, (t, nk) ∈ st_stale s' <-> (t, nk) ∈ st_stale s /\ least < t).
Proof.
  intros HS. destruct (si_hist _ _ _ HS) as [vs HH]. set (n := N.of_nat (length hist)) in *.
  set (logs := filter (fun l : N * nkey => fst l <= least) (st_stale s)).
  assert (forall t nk, (t, nk) ∈ logs <-> t <= least /\ (t, nk) ∈ st_stale s) as Hlogs.
  { intros t nk. unfold logs. rewrite elem_of_filter. done. }
  unfold purge. fold logs. rewrite bool_decide_true.
  2: { intros [t nk] Hin. apply Hlogs in Hin as [_ Hin]. by apply (hi_rec _ _ _ _ _ _ _ _ HH) in Hin as (_ & _ & ?). }
  rewrite size_snd, Nat.eqb_refl.
  2: { intros t t' nk Ha Hb. apply Hlogs in Ha as [_ Ha], Hb as [_ Hb]. by apply (hi_uniq _ _ _ _ _ _ _ _ HH t t' nk). }
  cbn [andb]. eexists. split; [reflexivity|].
  set (nodes' := filter _ (st_nodes s)).
  assert (forall nk nd, nodes' !! nk = Some nd <->
       st_nodes s !! nk = Some nd /\ forall t, (t, nk) ∈ st_stale s -> least < t) as Hn.
  { intros nk nd. unfold nodes'. rewrite map_filter_lookup_Some. cbn [fst].
    assert (nk ∉ set_map (C := gset (N * nkey)) (D := gset nkey) snd logs <-> forall t, (t, nk) ∈ st_stale s -> least < t) as Hx.
    { rewrite elem_of_map. split.
      - intros Hno t Hin. destruct (decide (least < t)) as [|Hge]; [done|]. exfalso. apply Hno.
        exists (t, nk). split; [done|]. apply Hlogs. split; [lia|done].
      - intros Hall ([t nk'] & Hk & Hin). cbn in Hk. subst nk'. apply Hlogs in Hin as [Hle Hin].
        apply Hall in Hin. lia. }
    by rewrite Hx. }
  assert (forall t nk, (t, nk) ∈ st_stale s ∖ logs <-> (t, nk) ∈ st_stale s /\ least < t) as Hst.
  { intros t nk. rewrite elem_of_difference, Hlogs. split.
    - intros [A B]. split; [done|]. destruct (decide (least < t)); [done|]. exfalso. apply B. split; [lia|done].
    - intros [A B]. split; [done|]. intros [C _]. lia. }
  split_and!; try done. cbn [op_low].
  split; cbn [st_nodes st_stale].
  - exists vs. fold n. split.
    + intros u Hu. pose proof (hi_holds _ _ _ _ _ _ _ _ HH u ltac:(lia)) as HHo. split.
      * apply (h_wf _ _ _ _ _ HHo).
      * apply Hn. split; [apply (h_root _ _ _ _ _ HHo)|]. intros t Hin.
        apply (hi_rec _ _ _ _ _ _ _ _ HH) in Hin as (A & B & _). cbn in A. lia.
      * intros q Hq Hl. apply Hn. split; [by apply (h_live _ _ _ _ _ HHo)|]. intros t Hin.
        assert (u < t) as Hut.
        { apply (hi_safe _ _ _ _ _ _ _ _ HH t (vs u q, q) u Hin); [lia|]. split_and!; done. }
        apply (hi_rec _ _ _ _ _ _ _ _ HH) in Hin as (_ & B & _). lia.
      * apply (h_le _ _ _ _ _ HHo).
    + intros nk nd Hx. apply Hn in Hx as [Hx _]. by apply (hi_fresh _ _ _ _ _ _ _ _ HH) in Hx.
    + intros t nk Hin. apply Hst in Hin as [Hin Hlt]. pose proof (hi_rec _ _ _ _ _ _ _ _ HH t nk Hin) as (A & B & [nd C]).
      split_and!; [done..|]. exists nd. apply Hn. split; [done|]. intros t' Hin'.
      by rewrite (hi_uniq _ _ _ _ _ _ _ _ HH t' t nk Hin' Hin).
    + intros t t' nk Ha Hb. apply Hst in Ha as [Ha _], Hb as [Hb _]. by apply (hi_uniq _ _ _ _ _ _ _ _ HH t t' nk).
    + intros t nk u Hin Hu Hl. apply Hst in Hin as [Hin _]. apply (hi_safe _ _ _ _ _ _ _ _ HH t nk u Hin); [lia|done].
    + intros t nk Hin Hq Hlt. apply Hst in Hin as [Hin _]. apply (hi_was _ _ _ _ _ _ _ _ HH t nk Hin Hq). lia.
    + intros nk nd Hx Hq. apply Hn in Hx as [Hx Hall].
      destruct (hi_comp _ _ _ _ _ _ _ _ HH nk nd Hx Hq) as [?|[t Ht]]; [by left|right].
      exists t. apply Hst. split; [done|]. by apply Hall.
    + intros t nk Hin. apply Hst in Hin as [Hin Hlt]. pose proof (hi_lo _ _ _ _ _ _ _ _ HH t nk Hin). lia.
    + intros u q k x t Hu. apply (hi_val _ _ _ _ _ _ _ _ HH u q k x t). lia.
    + intros u w nk Hu Hw Hl Hge. apply (hi_born _ _ _ _ _ _ _ _ HH u w nk); [lia|lia|done|done].
    + intros u q i Hu. apply (hi_mono _ _ _ _ _ _ _ _ HH u q i). lia.
  - apply (si_wf _ _ _ HS).
  - apply (si_max _ _ _ HS).
  - intros H. pose proof (si_lo _ _ _ HS H). lia.
  - intros H. pose proof (si_lo0 _ _ _ HS H). lia.
  - apply (si_vals _ _ _ HS).
Qed.

(** ** Executions *)
Lemma run_from_ok ops : forall s hist lo, SInv s hist lo ->
  wf_sets (history ops) -> N.of_nat (length hist + length (history ops)) <= u64_max ->
  exists s', run_from sha hv s (N.of_nat (length hist)) ops = Ok s' /\
    SInv s' (hist ++ history ops) (low_from (N.of_nat (length hist)) lo ops).
Proof.
  induction ops as [|o ops IH]; intros s hist lo HS Hwf Hmax.
  - exists s. cbn. by rewrite app_nil_r.
  - cbn [history flat_map] in *. fold (history ops) in *.
    apply Forall_app in Hwf as [Hw1 Hw2]. rewrite app_length in Hmax.
    assert (exists s1, run_op sha hv s (N.of_nat (length hist)) o = Ok s1 /\
      SInv s1 (hist ++ op_sets o) (op_low (N.of_nat (length hist)) lo o)) as (s1 & E1 & HS1).
    { destruct o as [sets|least]; cbn [op_sets run_op op_low] in *.
      - destruct (call_ok s hist lo sets HS Hw1) as (roots & b & s1 & E1 & E2 & HS1 & _).
        { rewrite app_length. lia. }
        exists s1. rewrite E1. cbn [rbind]. done.
      - destruct (purge_ok s hist lo least HS) as (s1 & E1 & HS1 & _). exists s1.
        rewrite app_nil_r. done. }
    destruct (IH s1 (hist ++ op_sets o) (op_low (N.of_nat (length hist)) lo o) HS1 Hw2) as (s' & E' & HS').
    { rewrite app_length. lia. }
    exists s'. cbn [run_from low_from]. rewrite E1. cbn [rbind].
    replace (N.of_nat (length hist) + N.of_nat (length (op_sets o))) with (N.of_nat (length (hist ++ op_sets o)))
      by (rewrite app_length; lia).
    by rewrite E', (assoc_L (++)).
Qed.
Lemma run_ok ops : wf_ops ops -> exists s, run sha hv ops = Ok s /\ SInv s (history ops) (low ops).
Proof.
  intros [Hw Hm]. destruct (run_from_ok ops empty_store [] 0 SInv_empty Hw Hm) as (s & E & HS).
  exists s. done.
Qed.
Lemma run_inv ops s : wf_ops ops -> run sha hv ops = Ok s -> SInv s (history ops) (low ops).
Proof. intros Hw E. destruct (run_ok ops Hw) as (s' & E' & HS). congruence. Qed.
End Run.
