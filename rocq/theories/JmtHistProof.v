(** Histories: many value sets, stale records, pruning. *)
From Verif Require Import Base JmtNibModel JmtSpec JmtNibProof JmtModel JmtHashProof JmtAbsProof
  JmtCacheProof JmtInsertProof JmtPutProof.
Local Open Scope N_scope.

Section Hist.
Context (sha hv : bytes -> bytes).
Notation sm_leaf := (sm_leaf sha).
Notation sm_internal := (sm_internal sha).
Notation hashP := (hashB sm_leaf sm_internal placeholder).
Notation phash p M := (hashP (path_bits p) M).
Notation node_of := (node_of sha).
Notation tr := (tr sha).
Notation Holds := (Holds sha).
Notation PInv := (PInv sha).
Notation treemap := (treemap sha).

(** ** Hashed contents and versions of every set written so far *)
Section Inv.
Context (cs : N -> pairs) (wr : N -> bytes -> Prop).

(** [(w, q)] is a node of the tree of version [u]. *)
Definition live_at (vs : N -> path -> N) (u : N) (nk : nkey) : Prop :=
  snd nk <> [] /\ live [] (cs u) (snd nk) /\ vs u (snd nk) = fst nk.

Record HInv (S : gmap nkey node) (R : gset (N * nkey)) (n lo : N) (vs : N -> path -> N) : Prop := {
  hi_holds : forall u, lo <= u < n -> Holds S u (cs u) (vs u);
  hi_fresh : forall nk nd, S !! nk = Some nd -> fst nk < n;
  hi_rec : forall t nk, (t, nk) ∈ R -> fst nk < t /\ t < n /\ is_Some (S !! nk);
  hi_uniq : forall t t' nk, (t, nk) ∈ R -> (t', nk) ∈ R -> t = t';
  hi_safe : forall t nk u, (t, nk) ∈ R -> lo <= u < n -> live_at vs u nk -> u < t;
  hi_was : forall t nk, (t, nk) ∈ R -> snd nk <> [] -> lo < t -> live_at vs (t - 1) nk;
  hi_comp : forall nk nd, S !! nk = Some nd -> snd nk <> [] ->
    (0 < n /\ live_at vs (n - 1) nk) \/ exists t, (t, nk) ∈ R;
  hi_lo : forall t nk, (t, nk) ∈ R -> lo < t;
  hi_val : forall u q k x t, lo <= u < n -> q <> [] -> live [] (cs u) q -> subm (path_bits q) (cs u) !! k = Some x ->
    vs u q < t <= u -> ~ wr t k;
  hi_born : forall u w nk, u < n -> lo <= w <= u -> live_at vs u nk -> fst nk <= w -> live_at vs w nk;
  hi_mono : forall u q i, lo <= u < n -> q <> [] -> live [] (cs u) (q ++ [i]) -> vs u (q ++ [i]) <= vs u q
}.

Lemma live_up M q i : live [] M (q ++ [i]) -> live [] M q /\ (2 <= pcnt q M)%nat.
Proof.
  intros (_ & Hp & [E|H2]); [by destruct q|]. rewrite removelast_last in H2. split; [|done].
  split; [apply prefix_nil|]. split; [lia|]. destruct q as [|j q _] using rev_ind; [by left|right].
  rewrite removelast_last. pose proof (pcnt_mono q (q ++ [j]) M (prefix_app_r _ _ _ (reflexivity _))). lia.
Qed.
Lemma same_child M ver M' ver' q i : node_of M ver q = node_of M' ver' q -> live [] M (q ++ [i]) ->
  live [] M' (q ++ [i]) /\ ver (q ++ [i]) = ver' (q ++ [i]).
Proof.
  intros E Hli. destruct (live_up _ _ _ Hli) as [_ H2]. rewrite (node_of_internal sha M ver q H2) in E.
  destruct (decide (2 <= pcnt q M')%nat) as [H2'|H2'].
  - rewrite (node_of_internal sha M' ver' q H2') in E. injection E as Ec _.
    assert (children_of sha M ver q !! i = children_of sha M' ver' q !! i) as Ei by by rewrite Ec.
    rewrite !children_of_lookup in Ei. pose proof (live_pos _ _ _ Hli) as Hpos. rewrite decide_False in Ei by lia.
    destruct (decide (pcnt (q ++ [i]) M' = 0)%nat) as [H0|H0]; [done|]. injection Ei as _ Ev _. split; [|done].
    split; [apply prefix_nil|]. split; [lia|right]. by rewrite removelast_last.
  - exfalso. destruct (decide (pcnt q M' = 0)%nat) as [H0|H0]; [by rewrite node_of_null in E|].
    destruct (cnt_1 (path_bits q) M') as (k & x & Ek); [unfold pcnt in *; lia|]. by rewrite (node_of_leaf sha _ _ _ _ _ Ek) in E.
Qed.

(** The cache before a set is written. *)
Record Cur (v : N) (tc : cache) (old : gmap nkey node) (M : pairs) (ver : path -> N)
    (vs : N -> path -> N) (R : gset (N * nkey)) : Prop := {
  cu_inv : PInv v old tc M ver;
  cu_prev : (v = 0 /\ M = ∅) \/
            (0 < v /\ M = cs (v - 1) /\ forall q, q <> [] -> ver q = vs (v - 1) q);
  cu_old : forall w q nd, old !! (w, q) = Some nd <-> tr [] M ver q = Some (w, nd);
  cu_rec : forall t nk, (t, nk) ∈ R -> old !! nk = None;
  cu_vals : tc_values tc = ∅
}.

Lemma Holds_ext_ver S u M ver ver' : (forall q, q <> [] -> ver q = ver' q) -> Holds S u M ver -> Holds S u M ver'.
Proof.
  intros E [H1 H2 H3 H4].
  assert (forall q, node_of M ver q = node_of M ver' q) as En.
  { intros q. apply node_of_ext; [done|]. intros i _ _. apply E. by destruct q. }
  split; [done|by rewrite <-En|..]; intros q Hq Hl; rewrite <-?E, <-?En by done; auto.
Qed.
Lemma Holds_mono S S' u M ver : (forall nk nd, S !! nk = Some nd -> S' !! nk = Some nd) ->
  Holds S u M ver -> Holds S' u M ver.
Proof. intros E [H1 H2 H3 H4]. split; [done|by apply E| |done]. intros q Hq Hl. by apply E, H3. Qed.

Definition records (tc : cache) : gset (N * nkey) := fz_stale tc ∪ st_stale (tc_store tc).

Lemma set_values_lookup v kvs m w k :
  set_values v kvs m !! (w, k) =
  if decide (w = v) then match last_write_in k kvs with Some x => Some x | None => m !! (w, k) end
  else m !! (w, k).
Proof.
  unfold set_values. revert m. induction kvs as [|[k' x] kvs IH]; intros m; cbn [fold_left last_write_in].
  - by case_decide.
  - rewrite IH. case_decide as Hw.
    + subst w. destruct (last_write_in k kvs); [done|]. cbn [fst snd]. case_decide as Hk.
      * subst. by rewrite lookup_insert.
      * by rewrite lookup_insert_ne by congruence.
    + cbn [fst snd]. by rewrite lookup_insert_ne by congruence.
Qed.

Record Step (v : N) (m : gmap bytes bytes) (kvs : list write) (tc tc' : cache) (new : gmap nkey node) : Prop := {
  sp_nodes : fz_nodes tc' = new ∪ fz_nodes tc;
  sp_new : forall nk nd, new !! nk = Some nd -> fst nk = v;
  sp_values : forall w k, fz_values tc' !! (w, k) =
    if decide (w = v) then match last_write_in k kvs with Some x => Some x | None => fz_values tc !! (w, k) end
    else fz_values tc !! (w, k);
  sp_stale : forall t nk, (t, nk) ∈ fz_stale tc' <-> (t, nk) ∈ fz_stale tc \/ (t = v /\ (t, nk) ∈ fz_stale tc');
  sp_roots : fz_roots tc' = fz_roots tc ++ [phash [] (hvm hv (apply_set m kvs))];
  sp_store : tc_store tc' = tc_store tc
}.

Lemma step_ok v lo m kvs tc old ver vs :
  v < u64_max -> (0 < v -> lo < v) ->
  HInv (onodes tc) (records tc) v lo vs ->
  Cur v tc old (hvm hv m) ver vs (records tc) ->
  Forall (fun w : write => length (fst w) = 32%nat) kvs ->
  cs v = hvm hv (apply_set m kvs) ->
  (forall k, wr v k -> is_Some (last_write_in k kvs)) ->
  exists tc1 tc' new ver' vs', put_set sha hv v kvs tc = Ok tc1 /\ tc_freeze sha tc1 = Ok tc' /\
    (forall u, u < v -> vs' u = vs u) /\ vs' v = ver' /\
    HInv (onodes tc') (records tc') (v + 1) lo vs' /\
    Cur (v + 1) tc' (treemap (onodes tc') (cs v) ver') (hvm hv (apply_set m kvs)) ver' vs' (records tc') /\
    Step v m kvs tc tc' new /\
    (forall nk, (v, nk) ∈ fz_stale tc' <->
       is_Some (old !! nk) /\ treemap (onodes tc') (cs v) ver' !! nk = None) /\
    (forall q nd, new !! (v, q) = Some nd ->
       nd = node_of (cs v) ver' q /\ (q = [] \/ (live [] (cs v) q /\ ver' q = v))) /\
    fz_stats tc' = fz_stats tc ++
      [Stats (N.of_nat (size new)) (N.of_nat (size (filter leaf_entry new)))
         (N.of_nat (size (tc_stale tc1))) (N.of_nat (size (filter (stale_leaf old) (tc_stale tc1))))] /\
    (forall nk, nk ∈ tc_stale tc1 <-> (v, nk) ∈ fz_stale tc').
Proof.
  intros Hv Hlo HH HC Hwf Hcs Hwr.
  destruct (put_set_ok sha hv v old kvs tc m ver Hwf (cu_inv _ _ _ _ _ _ _ HC))
    as (tc1 & ver' & E1 & HP1 & Hfr & Hvals & Hkept).
  destruct (freeze_ok sha v old tc1 _ ver' HP1 Hv) as (tc' & new & E2 & HF).
  rewrite <-Hcs in *.
  set (vs' := fun u => if decide (u = v) then ver' else vs u).
  assert (vs' v = ver') as Hvs1 by (unfold vs'; by rewrite decide_True).
  assert (forall u, u < v -> vs' u = vs u) as Hvs2.
  { intros u Hu. unfold vs'. rewrite decide_False by lia. done. }
  destruct Hfr as (G1 & G2 & G3 & G4 & G5 & G6 & G7).
  assert (onodes tc' = new ∪ onodes tc) as Hon.
  { unfold onodes. rewrite (fr_nodes _ _ _ _ _ _ _ _ HF), (fr_store _ _ _ _ _ _ _ _ HF), G2, G7.
    by rewrite (assoc_L (∪)). }
  assert (forall t nk, (t, nk) ∈ fz_stale tc' <-> (t = v /\ nk ∈ tc_stale tc1) \/ (t, nk) ∈ fz_stale tc) as Hst.
  { intros t nk. rewrite (fr_stale _ _ _ _ _ _ _ _ HF), elem_of_union, G4, elem_of_map. naive_solver. }
  assert (forall t nk, (t, nk) ∈ records tc' <-> (t = v /\ nk ∈ tc_stale tc1) \/ (t, nk) ∈ records tc) as Hrec.
  { intros t nk. unfold records. rewrite !elem_of_union, Hst, (fr_store _ _ _ _ _ _ _ _ HF), G7. tauto. }
  assert (forall nk nd, onodes tc !! nk = Some nd -> onodes tc' !! nk = Some nd) as Hmono.
  { intros nk nd Hnk. rewrite Hon. rewrite lookup_union_r; [done|].
    destruct (new !! nk) as [x|] eqn:Ex; [|done]. apply (fr_new _ _ _ _ _ _ _ _ HF) in Ex.
    apply (hi_fresh _ _ _ _ _ HH) in Hnk. lia. }
  assert (forall nk, nk ∈ tc_stale tc1 <-> is_Some (old !! nk) /\ treemap (onodes tc') (cs v) ver' !! nk = None) as Hso
    by apply (fr_stale_old _ _ _ _ _ _ _ _ HF).
  assert (forall t nk, (t, nk) ∈ fz_stale tc -> t < v) as Hstlt.
  { intros t nk Hin. apply (hi_rec _ _ _ _ _ HH t nk). unfold records. apply elem_of_union. by left. }
  assert (forall nk nd, old !! nk = Some nd -> onodes tc !! nk = Some nd) as Hold_in.
  { intros nk nd Ho. pose proof (cu_inv _ _ _ _ _ _ _ HC) as HP0.
    destruct (pi_state _ _ _ _ _ _ HP0) as [(_ & HS & _)|(HM & HS & _)].
    - by apply (st_sub _ _ _ _ HS).
    - by apply (st_sub _ _ _ _ HS) in Ho as [_ Ho]. }
  (* nodes of the previous version are the old ones *)
  assert (forall nk, live_at vs (v - 1) nk -> 0 < v -> is_Some (old !! nk)) as Hlive_old.
  { intros [w q] (A & B & C) Hv0. cbn in A, B, C.
    destruct (cu_prev _ _ _ _ _ _ _ HC) as [[? _]|(_ & HM & Hver)]; [lia|].
    exists (node_of (hvm hv m) ver q). apply (cu_old _ _ _ _ _ _ _ HC).
    unfold JmtCacheProof.tr. rewrite HM. rewrite decide_True by done. by rewrite Hver, C. }
  assert (forall nk, is_Some (old !! nk) -> snd nk <> [] -> live_at vs (v - 1) nk /\ 0 < v) as Hold_live.
  { intros [w q] [nd Ho] Hq. cbn in Hq. apply (cu_old _ _ _ _ _ _ _ HC) in Ho.
    destruct (cu_prev _ _ _ _ _ _ _ HC) as [[_ HM]|(Hv0 & HM & Hver)].
    { rewrite HM, tr_empty in Ho. done. }
    unfold JmtCacheProof.tr in Ho. rewrite HM in Ho. case_decide as Hl; [|done]. simplify_eq.
    split; [|done]. split_and!; [done|done|]. cbn. by rewrite Hver. }
  assert (forall nk, is_Some (treemap (onodes tc') (cs v) ver' !! nk) -> snd nk <> [] -> live_at vs' v nk) as Htree_live.
  { intros [w q] [nd Ht] Hq. apply treemap_Some in Ht as [_ Ht]. unfold JmtCacheProof.tr in Ht.
    case_decide; [|done]. simplify_eq. split_and!; [done|done|]. cbn. by rewrite Hvs1. }
  assert (forall nk, live_at vs' v nk -> is_Some (treemap (onodes tc') (cs v) ver' !! nk)) as Hlive_tree.
  { intros [w q] (A & B & C). cbn in A, B, C. rewrite Hvs1 in C. exists (node_of (cs v) ver' q).
    apply treemap_Some. unfold JmtCacheProof.tr. rewrite decide_True by done. rewrite <-C.
    split; [|done]. apply (h_live _ _ _ _ _ (fr_holds _ _ _ _ _ _ _ _ HF)); done. }
  exists tc1, tc', new, ver', vs'. split_and!; try done.
  - split.
    + intros u [Hu1 Hu2]. destruct (decide (u = v)) as [->|Hne].
      * rewrite Hvs1. apply (fr_holds _ _ _ _ _ _ _ _ HF).
      * rewrite Hvs2 by lia. eapply Holds_mono; [exact Hmono|]. apply (hi_holds _ _ _ _ _ HH). lia.
    + intros nk nd Hnk. rewrite Hon in Hnk. apply lookup_union_Some_raw in Hnk as [Hnk|[_ Hnk]].
      * apply (fr_new _ _ _ _ _ _ _ _ HF) in Hnk. lia.
      * apply (hi_fresh _ _ _ _ _ HH) in Hnk. lia.
    + intros t nk [[-> Hin]|Hin]%Hrec.
      * apply Hso in Hin as [[nd Ho] _]. split_and!.
        -- apply (pi_lt _ _ _ _ _ _ HP1) in Ho. done.
        -- lia.
        -- exists nd. by apply Hmono, Hold_in.
      * apply (hi_rec _ _ _ _ _ HH) in Hin as (A & B & [nd C]). split_and!; [done|lia|]. exists nd. by apply Hmono.
    + intros t t' nk [[-> Hin]|Hin]%Hrec [[-> Hin']|Hin']%Hrec.
      * done.
      * apply Hso in Hin as [[nd Ho] _]. rewrite (cu_rec _ _ _ _ _ _ _ HC _ _ Hin') in Ho. done.
      * apply Hso in Hin' as [[nd Ho] _]. rewrite (cu_rec _ _ _ _ _ _ _ HC _ _ Hin) in Ho. done.
      * by apply (hi_uniq _ _ _ _ _ HH t t' nk).
    + intros t nk u Hin [Hu1 Hu2] Hl. destruct (decide (u = v)) as [->|Hne].
      * exfalso. apply Hlive_tree in Hl as [nd Hl]. apply Hrec in Hin as [[-> Hin]|Hin].
        -- apply Hso in Hin as [_ Hn]. congruence.
        -- apply (fr_tree _ _ _ _ _ _ _ _ HF) in Hl as [Hl|Hl].
           ++ apply (fr_new _ _ _ _ _ _ _ _ HF) in Hl. apply (hi_rec _ _ _ _ _ HH) in Hin as (A & B & _). lia.
           ++ rewrite (cu_rec _ _ _ _ _ _ _ HC _ _ Hin) in Hl. done.
      * apply Hrec in Hin as [[-> Hin]|Hin]; [lia|].
        apply (hi_safe _ _ _ _ _ HH t nk u Hin); [lia|]. unfold live_at in *. by rewrite Hvs2 in Hl by lia.
    + intros t nk [[-> Hin]|Hin]%Hrec Hq Hlt.
      * apply Hso in Hin as [Ho _]. destruct (Hold_live nk Ho Hq) as [Hl Hv0].
        unfold live_at in *. by rewrite Hvs2 by lia.
      * pose proof (hi_rec _ _ _ _ _ HH t nk Hin) as (A & B & _).
        pose proof (hi_was _ _ _ _ _ HH t nk Hin Hq Hlt) as Hl.
        unfold live_at in *. by rewrite Hvs2 by lia.
    + replace (v + 1 - 1) with v by lia. intros nk nd Hnk Hq. rewrite Hon in Hnk.
      apply lookup_union_Some_raw in Hnk as [Hnk|[_ Hnk]].
      * left. split; [lia|]. destruct nk as [w q]. pose proof (fr_new _ _ _ _ _ _ _ _ HF _ _ Hnk) as Hw. cbn in Hw. subst w.
        apply (fr_new_live _ _ _ _ _ _ _ _ HF) in Hnk as [_ [?|[Hl Hvv]]]; [done|].
        split_and!; [done|done|]. cbn. by rewrite Hvs1.
      * destruct (hi_comp _ _ _ _ _ HH nk nd Hnk Hq) as [[Hv0 Hl]|[t Ht]].
        -- apply Hlive_old in Hl; [|done].
           destruct (treemap (onodes tc') (cs v) ver' !! nk) as [x|] eqn:Ex.
           ++ left. split; [lia|]. apply Htree_live; [by eexists|done].
           ++ right. exists v. apply Hrec. left. split; [done|]. by apply Hso.
        -- right. exists t. apply Hrec. by right.
    + intros t nk [[-> Hin]|Hin]%Hrec.
      * apply Hso in Hin as [[nd Ho] _]. apply (pi_lt _ _ _ _ _ _ HP1) in Ho. apply Hlo. lia.
      * by apply (hi_lo _ _ _ _ _ HH t nk).
    + intros u q k x t [Hu1 Hu2] Hq Hl Hs Ht. destruct (decide (u = v)) as [->|Hne].
      * rewrite Hvs1 in Ht. destruct (Hkept q k x Hq Hl Hs) as [Ev|(A & B & C & D)]; [lia|].
        destruct (decide (t = v)) as [->|Htv]; [intros Hw; by apply A, Hwr|].
        destruct (cu_prev _ _ _ _ _ _ _ HC) as [[? _]|(Hv0 & HM & Hver)]; [lia|].
        rewrite HM in B, C. assert (lo <= v - 1) as Hlov by (specialize (Hlo Hv0); lia).
        apply (hi_val _ _ _ _ _ HH (v - 1) q k x t); [lia|done|done|done|]. rewrite <-Hver by done. lia.
      * rewrite Hvs2 in Ht by lia. apply (hi_val _ _ _ _ _ HH u q k x t); [lia|done..].
    + intros u w nk Hu2 [Hw1 Hw2] Hl Hge. destruct (decide (u = v)) as [->|Hne].
      * destruct (decide (w = v)) as [->|Hnv]; [done|].
        pose proof Hl as (Hq & _ & _). apply Hlive_tree in Hl as [nd Hl].
        apply (fr_tree _ _ _ _ _ _ _ _ HF) in Hl as [Hl|Hl]; [apply (fr_new _ _ _ _ _ _ _ _ HF) in Hl; lia|].
        destruct (Hold_live nk (ex_intro _ _ Hl) Hq) as [Hl' Hv0].
        pose proof (hi_born _ _ _ _ _ HH (v - 1) w nk ltac:(lia) ltac:(lia) Hl' Hge) as Hb.
        unfold live_at in *. by rewrite Hvs2 by lia.
      * assert (live_at vs u nk) as Hl' by (unfold live_at in *; by rewrite Hvs2 in Hl by lia).
        pose proof (hi_born _ _ _ _ _ HH u w nk ltac:(lia) ltac:(lia) Hl' Hge) as Hb.
        unfold live_at in *. by rewrite Hvs2 by lia.
    + intros u q i [Hu1 Hu2] Hq Hli. destruct (decide (u = v)) as [->|Hne].
      * rewrite Hvs1. pose proof (fr_holds _ _ _ _ _ _ _ _ HF) as HHv. destruct (live_up _ _ _ Hli) as [Hlq _].
        pose proof (h_le _ _ _ _ _ HHv (q ++ [i]) ltac:(by destruct q) Hli) as Hle.
        destruct (decide (ver' q = v)) as [->|Hnv]; [done|].
        assert (live_at vs' v (ver' q, q)) as Hl by (split_and!; [done|done|by rewrite Hvs1]).
        apply Hlive_tree in Hl as [nd Hl].
        apply (fr_tree _ _ _ _ _ _ _ _ HF) in Hl as [Hl|Hl]; [by apply (fr_new _ _ _ _ _ _ _ _ HF) in Hl|].
        destruct (Hold_live _ (ex_intro _ _ Hl) Hq) as [(_ & Hl' & Ev) Hv0]. cbn [fst snd] in Hl', Ev.
        assert (lo <= v - 1) as Hlov by (specialize (Hlo Hv0); lia).
        pose proof (h_live _ _ _ _ _ (hi_holds _ _ _ _ _ HH (v - 1) ltac:(lia)) q Hq Hl') as E1'. rewrite Ev in E1'.
        apply Hmono in E1'. pose proof (h_live _ _ _ _ _ HHv q Hq Hlq) as E2'. rewrite E1' in E2'. injection E2' as En.
        destruct (same_child _ _ _ _ _ _ (eq_sym En) Hli) as [Hli' ->]. rewrite <-Ev. apply (hi_mono _ _ _ _ _ HH); [lia|done|done].
      * rewrite Hvs2 by lia. apply (hi_mono _ _ _ _ _ HH); [lia|done|done].
  - split.
    + rewrite Hcs in *. apply (fr_inv _ _ _ _ _ _ _ _ HF).
    + right. replace (v + 1 - 1) with v by lia. split_and!; [lia|congruence|].
      intros q _. by rewrite Hvs1.
    + intros w q nd. rewrite treemap_Some. split; [tauto|]. intros Hq. split; [|done].
      unfold JmtCacheProof.tr in Hq. case_decide as Hl; [|done]. simplify_eq.
      destruct (decide (q = [])) as [->|Hq].
      * pose proof (fr_inv _ _ _ _ _ _ _ _ HF) as HPi.
        destruct (pi_state _ _ _ _ _ _ HPi) as [(HM & HS & Hr)|(HM & _)].
        -- assert (tr [] (cs v) ver' [] = Some (ver' [], node_of (cs v) ver' [])) as Ht.
           { unfold JmtCacheProof.tr. by rewrite decide_True. }
           pose proof (pi_fresh _ _ _ _ _ _ HPi) as _.
           assert (ver' [] <> v + 1) as Hne.
           { intros Heq. pose proof (st_nc _ _ _ _ HS (v + 1) []) as Hn. rewrite Ht, decide_True in Hn by done.
             destruct (fr_clean _ _ _ _ _ _ _ _ HF) as [Hc _]. rewrite Hc in Hn. done. }
           pose proof (st_in _ _ _ _ HS _ _ _ Ht Hne) as Ho.
           by apply treemap_Some in Ho as [Ho _].
        -- rewrite HM in Hl. apply live_pos in Hl. rewrite (proj2 (pcnt_nil_0 ∅) eq_refl) in Hl. lia.
      * apply (h_live _ _ _ _ _ (fr_holds _ _ _ _ _ _ _ _ HF)); done.
    + intros t nk [[-> Hin]|Hin]%Hrec.
      * by apply Hso in Hin as [_ Hin].
      * destruct (treemap (onodes tc') (cs v) ver' !! nk) as [nd|] eqn:Ex; [exfalso|done].
        apply (fr_tree _ _ _ _ _ _ _ _ HF) in Ex as [Ex|Ex].
        -- apply (fr_new _ _ _ _ _ _ _ _ HF) in Ex. apply (hi_rec _ _ _ _ _ HH) in Hin as (A & B & _). lia.
        -- rewrite (cu_rec _ _ _ _ _ _ _ HC _ _ Hin) in Ex. done.
    + apply (fr_cur _ _ _ _ _ _ _ _ HF).
  - split.
    + rewrite (fr_nodes _ _ _ _ _ _ _ _ HF). by rewrite G2.
    + apply (fr_new _ _ _ _ _ _ _ _ HF).
    + intros w k. rewrite (fr_values _ _ _ _ _ _ _ _ HF), lookup_union, Hvals, set_values_lookup, G3.
      rewrite (cu_vals _ _ _ _ _ _ _ HC), lookup_empty.
      case_decide; [|by destruct (fz_values tc !! _)].
      by destruct (last_write_in k kvs), (fz_values tc !! _).
    + intros t nk. rewrite Hst. split; [|naive_solver]. intros [[-> ?]|?]; [right|by left]. split; [done|]. by left.
    + rewrite (fr_roots _ _ _ _ _ _ _ _ HF), G6. by rewrite Hcs.
    + by rewrite (fr_store _ _ _ _ _ _ _ _ HF), G7.
  - intros nk. rewrite Hst, Hso. split; [|tauto]. intros [?|Hin]; [tauto|]. apply Hstlt in Hin. lia.
  - apply (fr_new_live _ _ _ _ _ _ _ _ HF).
  - by rewrite (fr_stats _ _ _ _ _ _ _ _ HF), G5.
  - intros nk. rewrite Hst. split; [tauto|]. intros [?|Hin]; [tauto|]. apply Hstlt in Hin. lia.
Qed.
End Inv.
End Hist.
