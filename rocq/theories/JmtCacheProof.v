(** The tree cache as a map from paths to live nodes, and the effect of one
    insertion or deletion on it. *)
From Verif Require Import Base JmtNibModel JmtSpec JmtNibProof JmtModel JmtHashProof JmtAbsProof.
Local Open Scope nat_scope.

(** ** Paths *)
Lemma ext_cases {A} (p q : list A) : p `prefix_of` q -> q = p \/ exists i, p ++ [i] `prefix_of` q.
Proof.
  intros [[|i r] ->]; [left; by rewrite app_nil_r|]. right. exists i, r. by rewrite <-app_assoc.
Qed.
Lemma prefix_snoc_self {A} (p : list A) i : p `prefix_of` p ++ [i].
Proof. by exists [i]. Qed.
Lemma snoc_not_prefix {A} (p : list A) i : ~ p ++ [i] `prefix_of` p.
Proof. intros [r E]. apply (f_equal length) in E. rewrite !app_length in E. cbn in E. lia. Qed.
Lemma prefix_len_eq {A} (p q : list A) : p `prefix_of` q -> length q <= length p -> p = q.
Proof.
  intros [r ->] H. rewrite app_length in H. assert (r = []) as -> by (destruct r; [done|cbn in H; lia]).
  by rewrite app_nil_r.
Qed.
Lemma snoc_prefix_inj {A} (p q : list A) i j : p ++ [i] `prefix_of` q -> p ++ [j] `prefix_of` q -> i = j.
Proof. intros [r ->] [r' E]. rewrite <-!app_assoc in E. apply app_inv_head in E. by simplify_eq. Qed.
Lemma prefix_antisym_cases {A} (p q r : list A) :
  p `prefix_of` r -> q `prefix_of` r -> p `prefix_of` q \/ q `prefix_of` p.
Proof. intros. by eapply prefix_weak_total. Qed.

Notation pcnt p M := (cnt (path_bits p) M).
Lemma pcnt_mono p q M : p `prefix_of` q -> pcnt q M <= pcnt p M.
Proof. intros H. by apply cnt_mono, path_bits_prefix. Qed.
Lemma pcnt_key p M k x : M !! k = Some x -> p `prefix_of` nibs k -> 0 < pcnt p M.
Proof. intros H Hp. eapply cnt_pos; [done|]. rewrite key_bits_nibs. by apply path_bits_prefix. Qed.
Lemma psub_Some p M k x : subm (path_bits p) M !! k = Some x <-> M !! k = Some x /\ p `prefix_of` nibs k.
Proof. by rewrite subm_Some, key_bits_nibs, path_bits_prefix. Qed.

(** ** Live paths *)
Definition live (p : path) (M : pairs) (q : path) : Prop :=
  p `prefix_of` q /\ 0 < pcnt q M /\ (q = p \/ 2 <= pcnt (removelast q) M).
Global Instance live_dec p M q : Decision (live p M q).
Proof. unfold live. apply _. Defined.

Lemma live_self p M : live p M p <-> 0 < pcnt p M.
Proof. unfold live. split; [tauto|]. intros; split_and!; [done..|by left]. Qed.
Lemma live_child p M i q : p ++ [i] `prefix_of` q ->
  live p M q <-> 2 <= pcnt p M /\ live (p ++ [i]) M q.
Proof.
  intros Hq. unfold live. destruct (ext_cases _ _ Hq) as [->|[j Hj]].
  - rewrite removelast_last. split.
    + intros (_ & H1 & [E|H2]); [exfalso; by apply (snoc_not_prefix p i); rewrite E at 1|].
      split_and!; [done..|by left].
    + intros (H1 & _ & H2 & _). split_and!; [apply prefix_snoc_self|done|by right].
  - assert (p ++ [i] `prefix_of` removelast q) as Hr.
    { destruct Hj as [r ->]. rewrite removelast_app_ne || idtac.
      destruct (unsnoc ([j] ++ r)) as [[r' z]|] eqn:E.
      - apply unsnoc_Some in E. rewrite <-app_assoc, E, app_assoc, removelast_last. by eexists.
      - exfalso. unfold unsnoc in E. cbn in E. destruct (rev r); done. }
    assert (q <> p ++ [i]) as Hne by (intros ->; by eapply snoc_not_prefix).
    assert (q <> p) as Hne2.
    { intros ->. by apply (snoc_not_prefix p i). }
    split.
    + intros (_ & H1 & [?|H2]); [done|]. split_and!; [|done..|by right].
      etrans; [exact H2|]. apply pcnt_mono. etrans; [|exact Hr]. apply prefix_snoc_self.
    + intros (_ & _ & H1 & [?|H2]); [done|]. split_and!; [|done|by right].
      etrans; [|exact Hq]. apply prefix_snoc_self.
Qed.
Lemma live_pos p M q : live p M q -> 0 < pcnt q M.
Proof. unfold live. tauto. Qed.
Lemma live_trans p q r M : live p M q -> live q M r -> live p M r.
Proof.
  intros (H1 & H2 & H3) (H4 & H5 & H6). split_and!; [by etrans|done|].
  destruct H6 as [->|H6]; [done|by right].
Qed.
Lemma live_ext p M M' q : subm (path_bits p) M = subm (path_bits p) M' -> live p M q <-> live p M' q.
Proof.
  intros E.
  assert (forall r, p `prefix_of` r -> pcnt r M = pcnt r M') as Hc.
  { intros r Hr. unfold cnt. f_equal. apply map_eq. intros k. apply option_eq. intros x.
    rewrite !psub_Some.
    assert (p `prefix_of` nibs k -> M !! k = Some x <-> M' !! k = Some x) as H.
    { intros Hp. assert (subm (path_bits p) M !! k = Some x <-> subm (path_bits p) M' !! k = Some x) as HH
        by by rewrite E. rewrite !psub_Some in HH. tauto. }
    split; intros [??]; (split; [|done]); apply H; try done; by etrans. }
  unfold live. destruct (decide (p `prefix_of` q)) as [Hp|Hp]; [|tauto].
  rewrite (Hc q) by done. destruct (ext_cases _ _ Hp) as [->|[i Hi]]; [tauto|].
  rewrite Hc; [tauto|]. destruct Hi as [r ->]. rewrite <-app_assoc.
  destruct (unsnoc ([i] ++ r)) as [[r' z]|] eqn:Eu.
  - apply unsnoc_Some in Eu. rewrite Eu, app_assoc, removelast_last. by eexists.
  - exfalso. unfold unsnoc in Eu. cbn in Eu. destruct (rev r); done.
Qed.
Lemma subm_sub p q M M' : p `prefix_of` q ->
  subm (path_bits p) M = subm (path_bits p) M' -> subm (path_bits q) M = subm (path_bits q) M'.
Proof.
  intros Hpq E. apply map_eq. intros k. apply option_eq. intros x. rewrite !psub_Some.
  assert (p `prefix_of` nibs k -> M !! k = Some x <-> M' !! k = Some x) as H.
  { intros Hp. assert (subm (path_bits p) M !! k = Some x <-> subm (path_bits p) M' !! k = Some x) as HH
        by by rewrite E. rewrite !psub_Some in HH. tauto. }
  split; intros [??]; (split; [|done]); apply H; try done; by etrans.
Qed.

(** ** One write *)
Definition upd (k : bytes) (value : option bytes) (M : pairs) : pairs :=
  match value with Some vh => <[k := vh]> M | None => delete k M end.
Lemma upd_lookup_ne k value M k' : k' <> k -> upd k value M !! k' = M !! k'.
Proof. intros. destruct value; cbn; [by rewrite lookup_insert_ne|by rewrite lookup_delete_ne]. Qed.
Lemma upd_lookup_eq k value M : upd k value M !! k = value.
Proof. destruct value; cbn; [by rewrite lookup_insert|by rewrite lookup_delete]. Qed.
Lemma upd_wfm k value M : length k = 32 -> wfm M -> wfm (upd k value M).
Proof.
  intros Hk Hw k' x. destruct (decide (k' = k)) as [->|Hne]; [done|].
  rewrite upd_lookup_ne by done. apply Hw.
Qed.
Lemma upd_noop k M : M !! k = None -> upd k None M = M.
Proof. apply delete_notin. Qed.
Lemma upd_out k value M p : ~ p `prefix_of` nibs k ->
  subm (path_bits p) (upd k value M) = subm (path_bits p) M.
Proof.
  intros Hp. apply subm_ext. intros k' Hk'. apply upd_lookup_ne. intros ->.
  rewrite key_bits_nibs, path_bits_prefix in Hk'. done.
Qed.

(** ** The tree as a partial function *)
Section Tree.
Context (sha : bytes -> bytes).
Notation sm_leaf := (sm_leaf sha).
Notation sm_internal := (sm_internal sha).
Notation hashP := (hashB sm_leaf sm_internal placeholder).
Notation phash p M := (hashP (path_bits p) M).
Notation node_of := (node_of sha).
Notation children_of := (children_of sha).
Notation child_of := (child_of sha).

Definition tree_fn := path -> option (N * node).
Definition tr (p : path) (M : pairs) (ver : path -> N) : tree_fn :=
  fun q => if decide (live p M q) then Some (ver q, node_of M ver q) else None.
Definition newver (v : N) (k : bytes) (M : pairs) (ver : path -> N) : path -> N :=
  fun q => if decide (q `prefix_of` nibs k) then v
           else if decide (live [] M q) then ver q else v.

Lemma phash_ext p M M' : subm (path_bits p) M = subm (path_bits p) M' -> phash p M = phash p M'.
Proof. apply hashB_ext. Qed.
Lemma child_of_ext M ver M' ver' p : subm (path_bits p) M = subm (path_bits p) M' ->
  ver p = ver' p -> child_of M ver p = child_of M' ver' p.
Proof. intros E Ev. unfold JmtAbsProof.child_of, cnt. by rewrite (phash_ext p M M' E), E, Ev. Qed.
Lemma node_of_ext M ver M' ver' p : subm (path_bits p) M = subm (path_bits p) M' ->
  (forall i, 2 <= pcnt p M -> 0 < pcnt (p ++ [i]) M -> ver (p ++ [i]) = ver' (p ++ [i])) ->
  node_of M ver p = node_of M' ver' p.
Proof.
  intros E Hv. destruct (decide (2 <= pcnt p M)) as [H2|H2].
  - rewrite !node_of_internal; [|unfold cnt in *; by rewrite <-E|done].
    f_equal. f_equal; [|unfold cnt; by rewrite E].
    apply map_eq. intros i. rewrite !children_of_lookup.
    assert (subm (path_bits (p ++ [i])) M = subm (path_bits (p ++ [i])) M') as Ei.
    { eapply subm_sub; [|done]. apply prefix_snoc_self. }
    assert (pcnt (p ++ [i]) M = pcnt (p ++ [i]) M') as Ec by (unfold cnt; by rewrite Ei).
    rewrite <-Ec. case_decide as Hz; [done|]. f_equal.
    apply child_of_ext; [done|]. apply Hv; [done|]. lia.
  - unfold JmtAbsProof.node_of. unfold cnt in H2. rewrite <-E.
    change (~ 2 <= length (map_to_list (subm (path_bits p) M))) in H2.
    destruct (map_to_list _) as [|[] [|]]; cbn in H2; [done..|lia].
Qed.
Lemma tr_ext p M ver M' ver' : subm (path_bits p) M = subm (path_bits p) M' ->
  (forall q, live p M q -> ver q = ver' q) -> forall q, p `prefix_of` q -> tr p M ver q = tr p M' ver' q.
Proof.
  intros E Hv q Hq. unfold tr. pose proof (live_ext p M M' q E) as HL.
  destruct (decide (live p M q)) as [Hl|Hl].
  - rewrite decide_True by tauto. rewrite (Hv q) by done. do 2 f_equal.
    apply node_of_ext; [by eapply subm_sub|]. intros i H2 Hi. apply Hv.
    eapply live_trans; [done|]. apply (live_child q M i (q ++ [i])); [done|]. split; [done|]. by apply live_self.
  - by rewrite decide_False by tauto.
Qed.
(** Subtrees off the key's path keep their nodes. *)
Lemma tr_frame v k value M ver p q : ~ p `prefix_of` nibs k -> live [] M p -> p `prefix_of` q ->
  tr p (upd k value M) (newver v k M ver) q = tr p M ver q.
Proof.
  intros Hp HL Hq. symmetry. apply tr_ext; [by rewrite upd_out| |done].
  intros r Hr. unfold newver. rewrite decide_False.
  - rewrite decide_True; [done|]. by eapply live_trans.
  - intros Hrk. apply Hp. destruct Hr as (Hr & _). by etrans.
Qed.
Lemma tr_self p M ver : 0 < pcnt p M -> tr p M ver p = Some (ver p, node_of M ver p).
Proof. intros. unfold tr. by rewrite decide_True by by apply live_self. Qed.
Lemma tr_child p M ver i q : 2 <= pcnt p M -> p ++ [i] `prefix_of` q -> tr p M ver q = tr (p ++ [i]) M ver q.
Proof.
  intros H2 Hq. unfold tr. pose proof (live_child p M i q Hq) as HL.
  destruct (decide (live (p ++ [i]) M q)); [rewrite decide_True by tauto|rewrite decide_False by tauto]; done.
Qed.
Lemma tr_small p M ver i q : pcnt p M <= 1 -> p ++ [i] `prefix_of` q -> tr p M ver q = None.
Proof.
  intros H2 Hq. unfold tr. pose proof (live_child p M i q Hq) as HL.
  rewrite decide_False; [done|]. rewrite HL. lia.
Qed.
Lemma tr_zero p M ver q : pcnt p M = 0 -> p `prefix_of` q -> tr p M ver q = None.
Proof.
  intros H0 Hq. unfold tr. rewrite decide_False; [done|]. intros (_ & H & _).
  pose proof (pcnt_mono p q M Hq). lia.
Qed.

(** ** The cache *)
Definition fset (f : tree_fn) (q : path) (x : option (N * node)) : tree_fn :=
  fun q' => if decide (q' = q) then x else f q'.
Lemma fset_eq f q x : fset f q x q = x.
Proof. unfold fset. by rewrite decide_True. Qed.
Lemma fset_ne f q x q' : q' <> q -> fset f q x q' = f q'.
Proof. intros. unfold fset. by rewrite decide_False. Qed.

Definition frame (tc tc' : cache) : Prop :=
  tc_root tc' = tc_root tc /\ tc_next tc' = tc_next tc /\ tc_values tc' = tc_values tc /\
  fz_nodes tc' = fz_nodes tc /\ fz_values tc' = fz_values tc /\ fz_stale tc' = fz_stale tc /\
  fz_stats tc' = fz_stats tc /\ fz_roots tc' = fz_roots tc /\ tc_store tc' = tc_store tc.
Lemma frame_refl tc : frame tc tc.
Proof. done. Qed.
Lemma frame_trans a b c : frame a b -> frame b c -> frame a c.
Proof. unfold frame. intros; destruct_and!; split_and!; congruence. Qed.

Section Set_.
(** The version being written and the nodes live before it. *)
Context (v : N) (old : gmap nkey node).

Definition leaf_entry (kv : nkey * node) : Prop := is_leaf (snd kv) = true.
Global Instance leaf_entry_dec kv : Decision (leaf_entry kv).
Proof. unfold leaf_entry. apply _. Defined.
Definition stale_leaf (nk : nkey) : Prop :=
  match old !! nk with Some nd => is_leaf nd = true | None => False end.
Global Instance stale_leaf_dec nk : Decision (stale_leaf nk).
Proof. unfold stale_leaf. destruct (old !! nk); apply _. Defined.

Record St (tc : cache) (f : tree_fn) : Prop := {
  st_nc : forall w q, tc_nodes tc !! (w, q) =
    match f q with
    | Some (w', nd) => if decide (w = v /\ w' = v) then Some nd else None
    | None => None
    end;
  st_st : forall w q, (w, q) ∈ tc_stale tc <->
    is_Some (old !! (w, q)) /\ ~ exists nd, f q = Some (w, nd);
  st_in : forall q w nd, f q = Some (w, nd) -> w <> v -> old !! (w, q) = Some nd;
  st_sub : forall nk nd, old !! nk = Some nd ->
    fst nk <> v /\ (fz_nodes tc ∪ st_nodes (tc_store tc)) !! nk = Some nd;
  st_nl : tc_new_leaves tc = N.of_nat (size (filter leaf_entry (tc_nodes tc)));
  st_sl : tc_stale_leaves tc = N.of_nat (size (filter stale_leaf (tc_stale tc)))
}.

Lemma St_ext tc f g : (forall q, f q = g q) -> St tc f -> St tc g.
Proof.
  intros E [H1 H2 H3 H4 H5 H6]. split; [| | |done..].
  - intros. rewrite <-E. apply H1.
  - intros. rewrite <-E. apply H2.
  - intros q w nd. rewrite <-E. apply H3.
Qed.
Lemma St_get tc f q w nd : St tc f -> f q = Some (w, nd) -> tc_get_option tc (w, q) = Some nd.
Proof.
  intros HS Hf. unfold tc_get_option. rewrite (st_nc _ _ HS), Hf.
  destruct (decide (w = v)) as [->|Hw]; [by rewrite decide_True by done|].
  rewrite decide_False by naive_solver.
  pose proof (st_in _ _ HS _ _ _ Hf Hw) as Ho. apply (st_sub _ _ HS) in Ho as [_ Ho].
  destruct (fz_nodes tc !! (w, q)) as [x|] eqn:E.
  - apply (lookup_union_Some_l _ (st_nodes (tc_store tc))) in E. congruence.
  - rewrite lookup_union_r in Ho by done. done.
Qed.
Lemma St_put tc f q nd : St tc f -> f q = None ->
  exists tc', tc_put tc (v, q) nd = Ok tc' /\ St tc' (fset f q (Some (v, nd))) /\ frame tc tc'.
Proof.
  intros HS Hf. assert (tc_nodes tc !! (v, q) = None) as Hn by by rewrite (st_nc _ _ HS), Hf.
  unfold tc_put. rewrite Hn. eexists. split; [done|]. split; [|done]. split.
  - intros w r. cbn. destruct (decide (r = q)) as [->|Hr].
    + rewrite fset_eq. destruct (decide (w = v)) as [->|Hw].
      * by rewrite lookup_insert, decide_True.
      * rewrite lookup_insert_ne by congruence. rewrite (st_nc _ _ HS), Hf.
        rewrite decide_False by naive_solver. done.
    + rewrite lookup_insert_ne by congruence. rewrite fset_ne by done. apply (st_nc _ _ HS).
  - intros w r. cbn. rewrite (st_st _ _ HS). destruct (decide (r = q)) as [->|Hr].
    + rewrite fset_eq. split; intros [[nd' Ho] Hx]; (split; [by eexists|]).
      * intros [nd'' E]. simplify_eq. apply (st_sub _ _ HS) in Ho as [Ho _]. done.
      * rewrite Hf. by intros [? ?].
    + by rewrite fset_ne.
  - intros r w nd'. destruct (decide (r = q)) as [->|Hr].
    + rewrite fset_eq. intros ? ?. simplify_eq.
    + rewrite fset_ne by done. apply (st_in _ _ HS).
  - apply (st_sub _ _ HS).
  - cbn. rewrite (st_nl _ _ HS). destruct (is_leaf nd) eqn:Hl.
    + rewrite map_filter_insert_True by done. rewrite map_size_insert_None; [lia|].
      apply map_filter_lookup_None. by left.
    + rewrite map_filter_insert_False by (unfold leaf_entry; cbn; congruence). by rewrite delete_notin.
  - apply (st_sl _ _ HS).
Qed.
Lemma St_delete tc f q w nd : St tc f -> f q = Some (w, nd) ->
  exists tc', tc_delete tc (w, q) (is_leaf nd) = Ok tc' /\ St tc' (fset f q None) /\ frame tc tc'.
Proof.
  intros HS Hf. unfold tc_delete. destruct (decide (w = v)) as [->|Hw].
  - assert (tc_nodes tc !! (v, q) = Some nd) as Hn.
    { rewrite (st_nc _ _ HS), Hf. by rewrite decide_True. }
    assert (size (filter leaf_entry (tc_nodes tc)) =
            size (filter leaf_entry (delete (v, q) (tc_nodes tc))) + (if is_leaf nd then 1 else 0)) as Hsz.
    { rewrite map_filter_delete. destruct (is_leaf nd) eqn:Hl.
      - rewrite <-(insert_delete (filter leaf_entry (tc_nodes tc)) (v, q) nd) at 1.
        + rewrite map_size_insert_None by apply lookup_delete. lia.
        + apply map_filter_lookup_Some. done.
      - rewrite (delete_notin (filter _ _)); [lia|]. apply map_filter_lookup_None. right.
        intros x Hx. simplify_eq. unfold leaf_entry. cbn. congruence. }
    rewrite Hn. replace (is_leaf nd && (tc_new_leaves tc =? 0)%N) with false; cycle 1.
    { rewrite (st_nl _ _ HS). destruct (is_leaf nd); cbn [andb]; [|done].
      symmetry. apply N.eqb_neq. lia. }
    eexists. split; [done|]. split; [|done]. split.
    + intros w r. cbn. destruct (decide (r = q)) as [->|Hr].
      * rewrite fset_eq. destruct (decide (w = v)) as [->|Hw]; [by rewrite lookup_delete|].
        rewrite lookup_delete_ne by congruence. rewrite (st_nc _ _ HS), Hf, decide_False; naive_solver.
      * rewrite lookup_delete_ne by congruence. rewrite fset_ne by done. apply (st_nc _ _ HS).
    + intros w r. cbn. rewrite (st_st _ _ HS). destruct (decide (r = q)) as [->|Hr].
      * rewrite fset_eq. split; intros [[nd' Ho] Hx]; (split; [by eexists|]); [by intros [??]|].
        rewrite Hf. intros [nd'' E]. simplify_eq. apply (st_sub _ _ HS) in Ho as [Ho _]. done.
      * by rewrite fset_ne.
    + intros r w nd'. destruct (decide (r = q)) as [->|Hr]; [by rewrite fset_eq|].
      rewrite fset_ne by done. apply (st_in _ _ HS).
    + apply (st_sub _ _ HS).
    + cbn. rewrite (st_nl _ _ HS). destruct (is_leaf nd); lia.
    + apply (st_sl _ _ HS).
  - assert (tc_nodes tc !! (w, q) = None) as Hn.
    { rewrite (st_nc _ _ HS), Hf. rewrite decide_False; naive_solver. }
    assert ((w, q) ∉ tc_stale tc) as Hs.
    { rewrite (st_st _ _ HS). intros [_ H]. apply H. eauto. }
    pose proof (st_in _ _ HS _ _ _ Hf Hw) as Ho.
    rewrite Hn, decide_False by done. eexists. split; [done|]. split; [|done]. split.
    + intros w' r. cbn. rewrite (st_nc _ _ HS). destruct (decide (r = q)) as [->|Hr].
      * rewrite fset_eq, Hf, decide_False; naive_solver.
      * by rewrite fset_ne.
    + intros w' r. cbn. rewrite elem_of_union, elem_of_singleton, (st_st _ _ HS).
      destruct (decide (r = q)) as [->|Hr].
      * rewrite fset_eq. split.
        -- intros [E|[? ?]]; [simplify_eq; split; [by eexists|by intros [??]]|].
           split; [done|by intros [??]].
        -- intros [[nd' Ho'] _]. destruct (decide (w' = w)) as [->|Hne]; [by left|right].
           split; [by eexists|]. rewrite Hf. intros [??]. congruence.
      * rewrite fset_ne by done. split; [|tauto]. intros [E|?]; [congruence|done].
    + intros r w' nd'. destruct (decide (r = q)) as [->|Hr]; [by rewrite fset_eq|].
      rewrite fset_ne by done. apply (st_in _ _ HS).
    + apply (st_sub _ _ HS).
    + apply (st_nl _ _ HS).
    + cbn. rewrite (st_sl _ _ HS). destruct (is_leaf nd) eqn:Hl.
      * assert (stale_leaf (w, q)) as Hsl by (unfold stale_leaf; by rewrite Ho).
        rewrite (filter_union_L (C := gset nkey) stale_leaf), (filter_singleton_L (C := gset nkey) stale_leaf (w, q) Hsl).
        rewrite size_union.
        -- rewrite size_singleton. lia.
        -- intros x. rewrite elem_of_singleton, elem_of_filter. intros -> [_ ?]. done.
      * assert (~ stale_leaf (w, q)) as Hsl by (unfold stale_leaf; rewrite Ho; congruence).
        rewrite (filter_union_L (C := gset nkey) stale_leaf), (filter_singleton_not_L (C := gset nkey) stale_leaf (w, q) Hsl).
        by rewrite (left_id_L ∅ (∪)).
Qed.
End Set_.
End Tree.
