(** Further facts about executions: deletions of absent keys, reachability of
    the nodes of a version, value histories and store-wide queries. *)
From Verif Require Import Base JmtNibModel JmtSpec JmtTraceSpec JmtNibProof JmtModel JmtHashProof JmtAbsProof
  JmtCacheProof JmtPutProof JmtHistProof JmtRunSpec JmtValueProof JmtRunProof JmtReadProof JmtProofProof.
Local Open Scope N_scope.

Section More.
Context (sha hv : bytes -> bytes).
Notation SInv := (SInv sha hv).
Notation PInv := (PInv sha).
Notation hvm := (hvm hv).
Notation node_of := (node_of sha).

(** ** Deleting absent keys *)
Lemma put_set_absent v old kvs : forall tc m ver,
  Forall (fun w : write => length (fst w) = 32%nat /\ snd w = None /\ m !! fst w = None) kvs ->
  PInv v old tc (hvm m) ver ->
  exists tc' ver', put_set sha hv v kvs tc = Ok tc' /\ PInv v old tc' (hvm m) ver' /\
    frame' tc tc' /\ tc_stale tc' = tc_stale tc.
Proof.
  induction kvs as [|[k x] kvs IH]; intros tc m ver Hwf HP.
  - exists tc, ver. done.
  - inversion Hwf as [|? ? (Hk & Hx & Hm) Hwf']; subst. cbn [fst snd] in *. subst x. cbn [put_set]. unfold put_one.
    pose proof (PInv_put_value sha v old tc (hvm m) ver v k None HP) as HP1.
    destruct (put_ok sha hv v old _ (hvm m) ver k None HP1 Hk) as (tc1 & ver1 & E1 & HP2 & Hfr1 & _ & Hs1 & _).
    rewrite E1. cbn [rbind]. cbn [upd] in HP2.
    assert (hvm m !! k = None) as Hmk by (unfold JmtPutProof.hvm; by rewrite lookup_fmap, Hm).
    rewrite delete_notin in HP2 by done.
    destruct (IH tc1 m ver1 Hwf' HP2) as (tc2 & ver2 & E2 & HP3 & Hfr2 & Hs2).
    exists tc2, ver2. split_and!; [done|done| |].
    + eapply frame'_trans; [|exact Hfr2]. eapply frame'_trans; [|exact Hfr1]. done.
    + rewrite Hs2, Hs1; done.
Qed.

Lemma absent_call s hist lo kvs : SInv s hist lo ->
  Forall (fun w : write => length (fst w) = 32%nat /\ snd w = None /\ latest hist !! fst w = None) kvs ->
  N.of_nat (length hist) < u64_max ->
  forall roots b, put_value_sets sha hv s [kvs] (N.of_nat (length hist)) = Ok (roots, b) -> b_stale b = ∅.
Proof.
  intros HS Hwf Hmax roots b E. pose proof (start_ok sha hv s hist lo [kvs] HS) as HL.
  destruct (lp_cur _ _ _ _ _ _ _ _ _ _ HL) as (old & ver & vs & _ & HC).
  cbn [length fold_left] in HC. replace (N.of_nat (length hist) + N.of_nat 0) with (N.of_nat (length hist)) in HC by lia.
  pose proof (cu_inv _ _ _ _ _ _ _ _ _ HC) as HP. set (n := N.of_nat (length hist)) in *.
  destruct (put_set_absent n old kvs (cache_new s n) _ ver Hwf HP) as (tc1 & ver1 & E1 & HP1 & Hfr & Hst).
  destruct (freeze_ok sha n old tc1 _ ver1 HP1 Hmax) as (tc2 & new & E2 & HF).
  unfold put_value_sets in E. cbn [put_sets] in E.
  replace (u64_max <? n) with false in E by (symmetry; apply N.ltb_ge; lia).
  rewrite E1 in E. cbn [rbind] in E. rewrite E2 in E. cbn [rbind] in E. unfold batch_of in E. injection E as _ <-.
  cbn [b_stale]. rewrite (fr_stale _ _ _ _ _ _ _ _ HF), Hst.
  assert (tc_stale (cache_new s n) = ∅ /\ fz_stale (cache_new s n) = ∅) as [-> E4].
  { unfold cache_new. destruct (n =? 0); [destruct (st_nodes s !! _)|]; done. }
  destruct Hfr as (_ & _ & _ & -> & _). rewrite E4. set_solver.
Qed.
Lemma absent_apply m kvs :
  Forall (fun w : write => length (fst w) = 32%nat /\ snd w = None /\ m !! fst w = None) kvs -> apply_set m kvs = m.
Proof.
  intros H. unfold apply_set. induction H as [|[k x] kvs (_ & Hx & Hm) H IH]; [done|]. cbn [fold_left].
  cbn in Hx, Hm. subst x. unfold apply_write at 2. cbn. by rewrite delete_notin.
Qed.

(** ** Reachability *)
Lemma live_reach S u M ver q : Holds sha S u M ver -> q <> [] -> live [] M q -> reach S (u, []) (ver q, q).
Proof.
  intros HH. induction q as [|i q IH] using rev_ind; intros Hq Hl; [done|].
  destruct Hl as (Hp & H0 & [Hn|H2]).
  { by destruct q. }
  rewrite removelast_last in H2. pose proof (h_wf _ _ _ _ _ HH) as Hw.
  assert (children_of sha M ver q !! i = Some (child_of sha M ver (q ++ [i]))) as Hc.
  { rewrite children_of_lookup. rewrite decide_False; [done|]. lia. }
  destruct (decide (q = [])) as [->|Hq0].
  - cbn [app] in *. apply (reach_child S (u, []) (u, []) (INode (children_of sha M ver []) (Some (N.of_nat (pcnt [] M)))) i
        (child_of sha M ver [i])); [constructor| |done].
    rewrite (h_root _ _ _ _ _ HH). by rewrite node_of_internal.
  - assert (live [] M q) as Hlq.
    { split_and!; [apply prefix_nil|lia|]. destruct q as [|j q] using rev_ind; [done|]. right. rewrite removelast_last.
      eapply Nat.le_trans; [exact H2|]. apply cnt_mono. rewrite path_bits_app. by eexists. }
    specialize (IH Hq0 Hlq).
    apply (reach_child S (u, []) (ver q, q) (INode (children_of sha M ver q) (Some (N.of_nat (pcnt q M)))) i
        (child_of sha M ver (q ++ [i]))); [done| |done].
    rewrite (h_live _ _ _ _ _ HH) by done. by rewrite node_of_internal.
Qed.

Lemma pruned_reach s hist lo nk nd : SInv s hist lo -> st_nodes s !! nk = Some nd -> snd nk <> [] ->
  exists u, lo <= u < N.of_nat (length hist) /\ reach (st_nodes s) (u, []) nk.
Proof.
  intros HS Hnk Hq. destruct (si_hist _ _ _ _ _ HS) as [vs HH]. set (n := N.of_nat (length hist)) in *.
  assert (exists u, lo <= u < n /\ live_at (cs_of hv hist) vs u nk) as (u & Hu & A & B & C).
  { destruct (hi_comp _ _ _ _ _ _ _ _ HH nk nd Hnk Hq) as [[Hn Hl]|[t Ht]].
    - exists (n - 1). pose proof (si_lo _ _ _ _ _ HS ltac:(fold n; lia)) as Hlo. fold n in Hlo. split; [lia|done].
    - pose proof (hi_lo _ _ _ _ _ _ _ _ HH t nk Ht) as Hlt.
      pose proof (hi_rec _ _ _ _ _ _ _ _ HH t nk Ht) as (_ & Htn & _).
      exists (t - 1). split; [lia|]. by apply (hi_was _ _ _ _ _ _ _ _ HH t nk Ht). }
  exists u. split; [done|]. destruct nk as [w q]. cbn in A, B, C. rewrite <-C.
  apply (live_reach _ _ (cs_of hv hist u)); [|done|done]. by apply (hi_holds _ _ _ _ _ _ _ _ HH).
Qed.
End More.

(** ** keep_last *)
Lemma keep_last_in k ws : last_write_in k (keep_last ws) = last_write_in k ws.
Proof.
  induction ws as [|[k' x] ws IH]; [done|]. cbn [keep_last last_write_in fst].
  case_decide as Hin.
  - rewrite IH. destruct (last_write_in k ws) eqn:E; [done|]. case_decide as Hk; [|done]. exfalso. subst k'.
    clear IH. induction ws as [|[k2 y] ws IH2]; cbn in Hin; [by apply elem_of_nil in Hin|].
    cbn [last_write_in] in E. destruct (last_write_in k ws) eqn:E2; [done|].
    apply elem_of_cons in Hin as [->|Hin]; [by rewrite decide_True in E|]. by apply IH2.
  - cbn [last_write_in]. by rewrite IH.
Qed.
Lemma keep_last_apply m ws : apply_set m (keep_last ws) = apply_set m ws.
Proof. apply map_eq. intros k. rewrite !apply_set_lookup. by rewrite keep_last_in. Qed.
Lemma keep_last_sub ws w : w ∈ keep_last ws -> w ∈ ws.
Proof.
  induction ws as [|w' ws IH]; [done|]. cbn [keep_last]. case_decide; intros Hin.
  - right. auto.
  - apply elem_of_cons in Hin as [->|Hin]; [left|right; auto].
Qed.
Lemma keep_last_nodup ws : NoDup (map fst (keep_last ws)).
Proof.
  induction ws as [|w ws IH]; [constructor|]. cbn [keep_last]. case_decide as Hd; [done|]. cbn [map]. constructor; [|done].
  intros Hin. apply Hd. apply elem_of_list_In, in_map_iff in Hin as (w' & E & Hin%elem_of_list_In).
  apply keep_last_sub in Hin. apply elem_of_list_In, in_map_iff. exists w'. split; [done|by apply elem_of_list_In].
Qed.

(** ** Value histories *)
Lemma hist_puts_app a b h : hist_puts (a ++ b) h = rbind (hist_puts a h) (fun h' => hist_puts b h').
Proof.
  revert h. induction a as [|[[v k] x] a IH]; intros h; [done|]. cbn [app hist_puts].
  destruct (hist_put (h !! k) v x); cbn [rbind]; [apply IH|done..].
Qed.
Lemma newest_snoc k max vals v k' x :
  newest k max (vals ++ [(v, k', x)]) = if decide (k' = k /\ v <= max) then x else newest k max vals.
Proof.
  unfold newest. rewrite filter_app. destruct (decide (k' = k /\ v <= max)) as [H|H].
  - rewrite filter_cons_True by done. by rewrite filter_nil, last_snoc.
  - rewrite filter_cons_False by done. by rewrite filter_nil, app_nil_r.
Qed.

(** What a history represents. *)
Record repr (vals : list (N * bytes * option bytes)) (h : gmap bytes (list (N * option bytes))) : Prop := {
  rp_none : forall k, h !! k = None -> forall v x, (v, k, x) ∉ vals;
  rp_some : forall k l, h !! k = Some l -> exists init lv y, l = init ++ [(lv, y)] /\
    (exists x, (lv, k, x) ∈ vals) /\ forall v x, (v, k, x) ∈ vals -> v <= lv;
  rp_find : forall k max, match h !! k with Some l => hist_find (rev l) max | None => None end = newest k max vals
}.
Lemma hist_find_snoc l v x max : hist_find (rev (l ++ [(v, x)])) max = if v <=? max then x else hist_find (rev l) max.
Proof. by rewrite rev_app_distr. Qed.

Lemma repr_snoc vals h v k x : repr vals h ->
  (exists l, hist_put (h !! k) v x = Ok l /\ repr (vals ++ [(v, k, x)]) (<[k := l]> h) /\
     forall v' x', (v', k, x') ∈ vals -> v' <= v) \/
  (hist_put (h !! k) v x = Err ValuesOutOfOrder /\ exists v' x', (v', k, x') ∈ vals /\ v < v').
Proof.
  intros [Hn Hs Hf].
  assert (forall l init y, (forall v' x', (v', k, x') ∈ vals -> v' <= v) ->
    l = init ++ [(v, y)] -> y = x ->
    (forall max, v <=? max = false -> hist_find (rev init) max = newest k max vals) ->
    repr (vals ++ [(v, k, x)]) (<[k := l]> h)) as Hmk.
  { intros l init y Hle -> -> Hi. split.
    - intros k0 Hk0 v0 x0 Hin. apply lookup_insert_None in Hk0 as [Hk0 Hne].
      apply elem_of_app in Hin as [Hin|Hin]; [by apply (Hn k0 Hk0 v0 x0)|].
      apply elem_of_list_singleton in Hin. by injection Hin as -> -> ->.
    - intros k0 l0 Hl0. destruct (decide (k = k0)) as [<-|Hne].
      + rewrite lookup_insert in Hl0. injection Hl0 as <-. exists init, v, x. split_and!; [done| |].
        * exists x. apply elem_of_app. right. by apply elem_of_list_singleton.
        * intros v0 x0 [Hin|Hin]%elem_of_app; [by apply (Hle v0 x0)|].
          apply elem_of_list_singleton in Hin. injection Hin as -> ->. lia.
      + rewrite lookup_insert_ne in Hl0 by done. destruct (Hs k0 l0 Hl0) as (i0 & lv & y0 & -> & [x1 Hx1] & Hall).
        exists i0, lv, y0. split_and!; [done| |].
        * exists x1. apply elem_of_app. by left.
        * intros v0 x0 [Hin|Hin]%elem_of_app; [by apply (Hall v0 x0)|].
          apply elem_of_list_singleton in Hin. by injection Hin as -> -> ->.
    - intros k0 max. rewrite newest_snoc. destruct (decide (k = k0)) as [<-|Hne].
      + rewrite lookup_insert, hist_find_snoc. destruct (N.leb_spec v max) as [Hl|Hl].
        * by rewrite decide_True.
        * rewrite decide_False by lia. apply Hi. by apply N.leb_gt.
      + rewrite lookup_insert_ne by done. rewrite decide_False by tauto. apply Hf. }
  unfold hist_put. destruct (h !! k) as [l|] eqn:El.
  - destruct (Hs k l El) as (init & lv & y & -> & [x1 Hx1] & Hall). rewrite unsnoc_app.
    pose proof (fun max => Hf k max) as Hfk. rewrite El in Hfk.
    destruct (N.ltb_spec v lv) as [Hlt|Hge].
    { right. split; [done|]. exists lv, x1. done. }
    left. assert (forall v' x', (v', k, x') ∈ vals -> v' <= v) as Hle.
    { intros v' x' Hin. specialize (Hall v' x' Hin). lia. }
    destruct (N.eqb_spec v lv) as [->|Hne].
    + eexists. split; [done|]. split; [|done]. apply (Hmk _ init x); [done..|].
      intros max Hm. specialize (Hfk max). rewrite hist_find_snoc, Hm in Hfk. done.
    + eexists. split; [done|]. split; [|done]. apply (Hmk _ (init ++ [(lv, y)]) x); [done..|].
      intros max _. apply Hfk.
  - left. eexists. split; [done|]. split.
    + apply (Hmk _ [] x); [|done..|].
      * intros v' x' Hin. by apply (Hn k El) in Hin.
      * intros max _. specialize (Hf k max). by rewrite El in Hf.
    + intros v' x' Hin. by apply (Hn k El) in Hin.
Qed.

Lemma in_order_snoc vals v k x :
  in_order (vals ++ [(v, k, x)]) <-> in_order vals /\ forall v' x', (v', k, x') ∈ vals -> v' <= v.
Proof.
  split.
  - intros H. split.
    + intros a b c k0 v1 v2 x1 x2 ->. apply (H a b (c ++ [(v, k, x)]) k0 v1 v2 x1 x2).
      by rewrite <-!app_assoc; cbn; rewrite <-!app_assoc.
    + intros v' x' (a & b & ->)%elem_of_list_split. apply (H a b [] k v' v x' x). by rewrite <-!app_assoc.
  - intros [H1 H2] a b c k0 v1 v2 x1 x2 E. destruct c as [|e c] using rev_ind.
    + rewrite app_comm_cons, app_assoc in E. apply app_inj_tail in E as [-> [= -> -> ->]].
      apply (H2 v1 x1). apply elem_of_app. right. left.
    + clear IHc. rewrite app_comm_cons, app_assoc, app_comm_cons, app_assoc in E.
      apply app_inj_tail in E as [-> _]. apply (H1 a b c k0 v1 v2 x1 x2). by rewrite <-app_assoc.
Qed.

Lemma hist_puts_repr vals :
  (in_order vals /\ exists h, hist_puts vals ∅ = Ok h /\ repr vals h) \/
  (~ in_order vals /\ hist_puts vals ∅ = Err ValuesOutOfOrder).
Proof.
  induction vals as [|[[v k] x] vals IH] using rev_ind.
  - left. split; [intros [] ???????; done|]. exists ∅. split; [done|]. split.
    + intros k _ v x Hin. by apply elem_of_nil in Hin.
    + intros k l Hl. by rewrite lookup_empty in Hl.
    + intros k max. by rewrite lookup_empty.
  - rewrite hist_puts_app, in_order_snoc. destruct IH as [(Ho & h & E & Hr)|[Ho E]].
    + rewrite E. cbn [rbind hist_puts].
      destruct (repr_snoc vals h v k x Hr) as [(l & El & Hr' & Hle)|(El & v' & x' & Hin & Hlt)]; rewrite El; cbn [rbind].
      * left. split; [done|]. by eexists.
      * right. split; [|done]. intros [_ Hall]. specialize (Hall v' x' Hin). lia.
    + right. rewrite E. split; [tauto|done].
Qed.

(** ** Store-wide queries *)
Lemma last_app_or {A} (a b : list A) : last (a ++ b) = match last b with Some y => Some y | None => last a end.
Proof.
  destruct b as [|y b] using rev_ind; [by rewrite app_nil_r|]. by rewrite (assoc_L (++)), !last_snoc.
Qed.
Lemma last_entries k v sets : snd <$> last (entries k v sets) = last_write k sets.
Proof.
  revert v. induction sets as [|ws sets IH]; intros v; [done|]. cbn [entries last_write]. rewrite last_app_or, <-(IH (v + 1)).
  destruct (last (entries k (v + 1) sets)) as [[w x]|]; [done|]. cbn. by destruct (last_write_in k ws).
Qed.
Lemma db_len_ok s hist : hist_ok s hist -> db_len s = size (latest hist).
Proof.
  intros H. unfold db_len. rewrite <-!(size_dom (D := gset bytes)). f_equal. apply set_eq. intros k.
  rewrite !elem_of_dom. unfold latest. rewrite fold_sets_lookup, lookup_empty, <-(last_entries k 0).
  split.
  - intros [l Hl]. apply map_filter_lookup_Some in Hl as [Hl Hv]. cbn in Hv. rewrite H in Hl. unfold hist_live in Hv.
    destruct (entries k 0 hist) as [|e es]; [done|]. injection Hl as <-.
    by destruct (last (e :: es)) as [[w [x|]]|].
  - intros [x Hx]. specialize (H k). destruct (entries k 0 hist) as [|e es] eqn:E; [done|].
    exists (e :: es). apply map_filter_lookup_Some. split; [done|]. cbn [snd]. unfold hist_live.
    destruct (last (e :: es)) as [[w [y|]]|]; done.
Qed.

Lemma fold_max_spec (h : list (N * option bytes)) acc :
  let r := fold_left (fun a (e : N * option bytes) => if a <? fst e then fst e else a) h acc in
  acc <= r /\ (forall e, e ∈ h -> fst e <= r) /\ (r = acc \/ exists e, e ∈ h /\ fst e = r).
Proof.
  revert acc. induction h as [|e h IH]; intros acc; cbn [fold_left].
  - split_and!; [lia| |by left]. intros e He. by apply elem_of_nil in He.
  - specialize (IH (if acc <? fst e then fst e else acc)). cbn zeta in IH. destruct IH as (A & B & C).
    destruct (N.ltb_spec acc (fst e)) as [Hl|Hl]; split_and!.
    + lia.
    + intros e' [->|He']%elem_of_cons; [done|by apply B].
    + destruct C as [C|(e' & He' & C)]; right; [exists e|exists e']; (split; [|done]); [left|by right].
    + lia.
    + intros e' [->|He']%elem_of_cons; [lia|by apply B].
    + destruct C as [C|(e' & He' & C)]; [by left|right]. exists e'. split; [by right|done].
Qed.
Lemma db_version_spec s :
  (forall k h e, st_hist s !! k = Some h -> e ∈ h -> fst e <= db_version s) /\
  (db_version s = 0 \/ exists k h e, st_hist s !! k = Some h /\ e ∈ h /\ fst e = db_version s).
Proof.
  unfold db_version. apply (map_fold_ind (fun r m =>
    (forall k h e, m !! k = Some h -> e ∈ h -> fst e <= r) /\
    (r = 0 \/ exists k (h : list (N * option bytes)) e, m !! k = Some h /\ e ∈ h /\ fst e = r))).
  - split; [|by left]. intros k h e Hk. by rewrite lookup_empty in Hk.
  - intros k h m r Hk [A B]. pose proof (fold_max_spec h r) as C. cbn zeta in C. destruct C as (C & D & F).
    set (r' := fold_left _ h r) in *. split.
    + intros k' h' e Hk' He. destruct (decide (k = k')) as [<-|Hne].
      * rewrite lookup_insert in Hk'. injection Hk' as <-. by apply D.
      * rewrite lookup_insert_ne in Hk' by done. pose proof (A k' h' e Hk' He). lia.
    + destruct F as [F|(e & He & F)].
      * destruct B as [B|(k' & h' & e & Hk' & He & B)]; [left; lia|right].
        exists k', h', e. split_and!; [|done|lia]. rewrite lookup_insert_ne; [done|]. intros <-. congruence.
      * right. exists k, h, e. split_and!; [by rewrite lookup_insert|done|done].
Qed.
Lemma last_write_in_some k x ws : (k, x) ∈ ws -> is_Some (last_write_in k ws).
Proof.
  induction ws as [|[k' x'] ws IH]; intros Hin; [by apply elem_of_nil in Hin|]. cbn [last_write_in].
  apply elem_of_cons in Hin as [[= <- <-]|Hin].
  - destruct (last_write_in k ws); [by eexists|]. rewrite decide_True by done. by eexists.
  - destruct (IH Hin) as [y ->]. by eexists.
Qed.
Lemma db_version_ok s hist : hist_ok s hist ->
  (forall v ws, hist !! v = Some ws -> ws <> [] -> N.of_nat v <= db_version s) /\
  (db_version s = 0 \/ exists ws, hist !! N.to_nat (db_version s) = Some ws /\ ws <> []).
Proof.
  intros H. destruct (db_version_spec s) as [A B]. split.
  - intros v ws Hv Hne. destruct ws as [|[k x] ws]; [done|].
    destruct (last_write_in_some k x ((k, x) :: ws)) as [y Hy]; [left|].
    assert ((N.of_nat v, y) ∈ entries k 0 hist) as Hin.
    { apply entries_elem. split; [lia|]. exists ((k, x) :: ws). split; [|done].
      by replace (N.to_nat (N.of_nat v - 0)) with v by lia. }
    specialize (H k). destruct (entries k 0 hist) as [|e es]; [by apply elem_of_nil in Hin|].
    apply (A k _ _ H Hin).
  - destruct B as [B|(k & h & [w x] & Hk & He & B)]; [by left|right]. cbn in B. rewrite H in Hk.
    assert ((w, x) ∈ entries k 0 hist) as Hin by (destruct (entries k 0 hist); [done|by injection Hk as ->]).
    apply entries_elem in Hin as (_ & ws & Hws & Hl). rewrite N.sub_0_r, B in Hws. exists ws. split; [done|].
    by intros ->.
Qed.
