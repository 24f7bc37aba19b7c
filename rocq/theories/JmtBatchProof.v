(** [batch_insert_at] and the functions it calls build the tree of the new
    contents. *)
From Verif Require Import Base JmtNibModel JmtSpec JmtNibSpec JmtNibProof JmtNibMoreProof JmtModel JmtHashProof
  JmtAbsProof JmtCacheProof JmtInsertProof JmtOrderProof JmtBatchModel JmtBatchListProof.
Local Open Scope nat_scope.

Section Rec.
Context (sha : bytes -> bytes) (v : N) (old : gmap nkey node) (M M' : pairs) (ver ver' : path -> N)
  (K : list kv) (hc : option (gmap path bytes)).
Notation sm_leaf := (sm_leaf sha).
Notation sm_internal := (sm_internal sha).
Notation hashP := (hashB sm_leaf sm_internal placeholder).
Notation phash p M := (hashP (path_bits p) M).
Notation node_of := (node_of sha).
Notation children_of := (children_of sha).
Notation child_of := (child_of sha).
Notation tr := (tr sha).
Notation St := (St v old).

(** The new contents are the old ones with the pairs of [K]. *)
Definition touched (q : path) : Prop := exists x, x ∈ K /\ q `prefix_of` nibs (fst x).
Hypothesis HwM : wfm M.
Hypothesis HwM' : wfm M'.
Hypothesis HK : forall x, x ∈ K -> M' !! fst x = Some (snd x).
Hypothesis HO : forall k, (forall y, (k, y) ∉ K) -> M' !! k = M !! k.
Hypothesis Hvt : forall q, touched q -> ver' q = v.
Hypothesis Hvl : forall q, ~ touched q -> live [] M q -> ver' q = ver q.
Hypothesis Hvd : forall q, ~ live [] M q -> ver' q = v.
Hypothesis Hhc : forall c, hc = Some c ->
  forall q, q <> [] -> live [] M' q -> ver' q = v -> c !! q = Some (phash q M').

Definition at_ (p : path) (kvs : list kv) : Prop :=
  kvs <> [] /\ sorted_keys kvs /\ forall x, x ∈ kvs <-> x ∈ K /\ p `prefix_of` nibs (fst x).
Definition built (p : path) (tc : cache) (f : tree_fn) (r : res jerr (nkey * node * cache)) : Prop :=
  exists tc' f', r = Ok ((v, p), node_of M' ver' p, tc') /\ frame tc tc' /\ St tc' f' /\
    (forall q, p `prefix_of` q -> f' q = tr p M' ver' q) /\
    (forall q, ~ p `prefix_of` q -> f' q = f q).

Lemma at_touched p kvs : at_ p kvs -> touched p.
Proof.
  intros (Hne & _ & He). destruct kvs as [|x l]; [done|]. exists x. apply He. left.
Qed.
Lemma touched_pos p : touched p -> 0 < pcnt p M'.
Proof. intros ([k y] & Hx & Hp). eapply pcnt_key; [by apply (HK (k, y))|done]. Qed.
Lemma untouched_sub p : ~ touched p -> subm (path_bits p) M' = subm (path_bits p) M.
Proof.
  intros Hn. apply map_eq. intros k. apply option_eq. intros x. rewrite !psub_Some.
  split; intros [H1 H2]; (split; [|done]); [rewrite <-HO|rewrite HO]; try done;
    intros y Hy; apply Hn; by exists (k, y).
Qed.
Lemma K_dec k : (forall y, (k, y) ∉ K) \/ exists y, (k, y) ∈ K.
Proof.
  destruct (decide (k ∈ map fst K)) as [H|H].
  - right. apply elem_of_list_fmap in H as ([k' y] & -> & H). by exists y.
  - left. intros y Hy. apply H. apply elem_of_list_fmap. by exists (k, y).
Qed.
Lemma grow p : pcnt p M <= pcnt p M'.
Proof.
  unfold cnt. rewrite <-!size_dom. apply subseteq_size. intros k Hk.
  apply elem_of_dom in Hk as [x Hx]. apply psub_Some in Hx as [Hx Hp]. apply elem_of_dom.
  destruct (K_dec k) as [H|[y H]].
  - exists x. apply psub_Some. split; [|done]. by rewrite HO.
  - exists y. apply psub_Some. split; [|done]. by apply (HK (k, y)).
Qed.
Lemma at_keys p kvs : at_ p kvs -> forall x, x ∈ kvs -> length (fst x) = 32 /\ p `prefix_of` nibs (fst x).
Proof.
  intros (_ & _ & He) x Hx. apply He in Hx as [Hx Hp]. split; [|done]. eapply HwM'. by apply HK.
Qed.
Lemma at_two p a b l : at_ p (a :: b :: l) -> 2 <= pcnt p M'.
Proof.
  intros (_ & Hs & He). destruct (proj1 (He a)) as [Ha Hpa]; [left|].
  destruct (proj1 (He b)) as [Hb Hpb]; [right; left|].
  apply (cnt_ge2 _ _ (fst a) (fst b) (snd a) (snd b)); [|by apply HK|by apply HK|..].
  - intros E. pose proof (Hs 0 1 (fst a) (fst b) ltac:(lia) eq_refl eq_refl) as X. rewrite E in X.
    by apply klt_irrefl in X.
  - rewrite key_bits_nibs. by apply path_bits_prefix.
  - rewrite key_bits_nibs. by apply path_bits_prefix.
Qed.

(** The groups of [kvs] at [p]. *)
Lemma at_groups p kvs : at_ p kvs -> length p < 64 ->
  exists rs gs, ranges kvs (length p) = Ok rs /\
    (forall A (step : nib -> list kv -> A -> res jerr A) a,
       each_range step kvs (length p) rs a = each_group step gs a) /\
    NoDup (map fst gs) /\
    (forall i sub, (i, sub) ∈ gs -> at_ (p ++ [i]) sub) /\
    (forall i, i ∈ map fst gs <-> touched (p ++ [i])).
Proof.
  intros Ha Hp. pose proof (at_keys p kvs Ha) as Hk. destruct Ha as (Hne & Hs & He).
  destruct (ranges_ok p kvs Hp Hk Hs) as (rs & gs & E & Eg & Hnd & Hg & Hc).
  exists rs, gs. split_and!; [done|done|done| |].
  - intros i sub H. destruct (Hg _ _ H) as (G1 & G2 & G3). split_and!; [done|done|].
    intros x. rewrite G3, He. split; [tauto|]. intros [H1 H2]. split_and!; [done| |done].
    etrans; [apply prefix_snoc_self|done].
  - intros i. split.
    + intros ([i' sub] & -> & H)%elem_of_list_fmap. destruct (Hg _ _ H) as (G1 & _ & G3).
      destruct sub as [|x sub]; [done|]. exists x. destruct (proj1 (G3 x)) as [H1 H2]; [left|].
      apply He in H1 as [H1 _]. done.
    + intros (x & Hx & Hpx). destruct (Hc x) as (i' & sub & H1 & H2).
      { apply He. split; [done|]. etrans; [apply prefix_snoc_self|done]. }
      destruct (Hg _ _ H1) as (_ & _ & G3). apply G3 in H2 as [_ H2].
      rewrite (snoc_prefix_inj _ _ _ _ Hpx H2). apply elem_of_list_fmap. by exists (i', sub).
Qed.

Lemma add_child_ok p i cs : 2 <= pcnt p M' -> touched (p ++ [i]) ->
  add_child sha hc v i (v, p ++ [i]) (node_of M' ver' (p ++ [i])) cs =
  Ok (<[i := child_of M' ver' (p ++ [i])]> cs).
Proof.
  intros H2 Ht. pose proof (touched_pos _ Ht) as Hpos. unfold add_child.
  assert (get_hash sha hc (v, p ++ [i]) (node_of M' ver' (p ++ [i])) = Ok (phash (p ++ [i]) M')) as ->.
  { unfold get_hash. destruct hc as [c|].
    - cbn [snd]. rewrite (Hhc c eq_refl); [done| | |by apply Hvt].
      + intros X. apply (f_equal length) in X. rewrite app_length in X. cbn in X. lia.
      + split_and!; [apply prefix_nil|done|]. right. by rewrite removelast_last.
    - by apply node_of_hash. }
  cbn [rbind]. rewrite node_of_type by lia. cbn [rbind]. unfold JmtAbsProof.child_of. by rewrite Hvt.
Qed.

(** The loop over the groups. *)
Lemma loop_ok {A} (csof : A -> children) (tcof : A -> cache) (Inv : list nib -> A -> Prop)
    (step : nib -> list kv -> A -> res jerr A) p f0 (gs : list (nib * list kv)) :
  NoDup (map fst gs) ->
  (forall i sub a f dn, (i, sub) ∈ gs -> i ∉ dn -> Inv dn a -> St (tcof a) f ->
     (forall q, p ++ [i] `prefix_of` q -> f q = f0 q) ->
     exists a', step i sub a = Ok a' /\ csof a' = <[i := child_of M' ver' (p ++ [i])]> (csof a) /\
       frame (tcof a) (tcof a') /\ Inv (i :: dn) a' /\
       exists f', St (tcof a') f' /\
         (forall q, p ++ [i] `prefix_of` q -> f' q = tr (p ++ [i]) M' ver' q) /\
         (forall q, ~ p ++ [i] `prefix_of` q -> f' q = f q)) ->
  forall a f dn, Inv dn a -> (forall i, i ∈ map fst gs -> i ∉ dn) -> St (tcof a) f ->
  (forall i q, i ∈ map fst gs -> p ++ [i] `prefix_of` q -> f q = f0 q) ->
  exists a', each_group step gs a = Ok a' /\ frame (tcof a) (tcof a') /\
    (exists dn', Inv dn' a' /\ forall i, i ∈ dn' <-> i ∈ map fst gs \/ i ∈ dn) /\
    (forall i, csof a' !! i = if decide (i ∈ map fst gs) then Some (child_of M' ver' (p ++ [i])) else csof a !! i) /\
    exists f', St (tcof a') f' /\
      (forall i q, i ∈ map fst gs -> p ++ [i] `prefix_of` q -> f' q = tr (p ++ [i]) M' ver' q) /\
      (forall q, (forall i, i ∈ map fst gs -> ~ p ++ [i] `prefix_of` q) -> f' q = f q).
Proof.
  induction gs as [|[i sub] gs IH]; intros Hnd Hstep a f dn HI Hdn HS Hf.
  - exists a. cbn [each_group map]. split_and!; [done|apply frame_refl| | |].
    + exists dn. split; [done|]. intros i. rewrite elem_of_nil. tauto.
    + intros i. rewrite decide_False; [done|]. apply not_elem_of_nil.
    + exists f. split_and!; [done|by intros ? ? ?%elem_of_nil|done].
  - cbn [map fst] in *. apply NoDup_cons in Hnd as [Hi Hnd].
    destruct (Hstep i sub a f dn) as (a1 & E1 & Ec1 & Hfr1 & HI1 & f1 & HS1 & Hin1 & Hout1).
    { left. } { apply Hdn. left. } { done. } { done. } { intros q. apply Hf. left. }
    assert (forall j, j ∈ map fst gs -> j <> i) as Hji by (intros j Hj ->; done).
    destruct (IH Hnd) with (a := a1) (f := f1) (dn := i :: dn) as (a2 & E2 & Hfr2 & (dn' & HI2 & Hdn') & Ec2 & f2 & HS2 & Hin2 & Hout2).
    { intros. eapply Hstep; try done. by right. } { done. }
    { intros j Hj. apply not_elem_of_cons. split; [by apply Hji|]. apply Hdn. by right. } { done. }
    { intros j q Hj Hq. rewrite Hout1; [apply (Hf j); [by right|done]|]. intros X. apply (Hji j Hj).
      by eapply snoc_prefix_inj. }
    exists a2. cbn [each_group]. rewrite E1. cbn [rbind]. split_and!; [done|by eapply frame_trans| | |].
    + exists dn'. split; [done|]. intros j. rewrite Hdn', !elem_of_cons. tauto.
    + intros j. rewrite Ec2, Ec1. destruct (decide (j ∈ map fst gs)) as [Hj|Hj].
      * rewrite decide_True by by right. done.
      * destruct (decide (j = i)) as [->|Hne].
        -- rewrite lookup_insert, decide_True by left. done.
        -- rewrite lookup_insert_ne, decide_False by (done || by apply not_elem_of_cons). done.
    + exists f2. split_and!; [done| |].
      * intros j q Hj Hq. apply elem_of_cons in Hj as [->|Hj]; [|by apply (Hin2 j)].
        rewrite Hout2; [by apply Hin1|]. intros j Hj X. apply (Hji j Hj). by eapply snoc_prefix_inj.
      * intros q Hq. rewrite Hout2; [apply Hout1|]; [apply Hq; left|]. intros j Hj. apply Hq. by right.
Qed.

(** Writing the node at [p] once its children are there. *)
Lemma internal_ok p tc f tc1 f1 cs :
  2 <= pcnt p M' -> ver' p = v -> frame tc tc1 -> St tc1 f1 -> f1 p = None ->
  (forall j q, p ++ [j] `prefix_of` q -> f1 q = tr (p ++ [j]) M' ver' q) ->
  (forall q, ~ p `prefix_of` q -> f1 q = f q) -> cs = children_of M' ver' p ->
  built p tc f (put_internal (v, p) cs tc1).
Proof.
  intros H2 Hv Hfr HS Hn Hin Hout ->. unfold put_internal. rewrite inode_new_of by done. cbn [rbind].
  rewrite <-node_of_internal by lia.
  destruct (St_put v old tc1 f1 p (node_of M' ver' p) HS Hn) as (tc2 & Ep & HS2 & Hfr2).
  rewrite Ep. cbn [rbind]. eexists tc2, _. split; [done|]. split; [by eapply frame_trans|]. split; [exact HS2|]. split.
  - intros q Hq. destruct (ext_cases _ _ Hq) as [->|[j Hj]].
    + rewrite fset_eq, tr_self by lia. by rewrite Hv.
    + rewrite fset_ne by (intros ->; by eapply snoc_not_prefix). rewrite (Hin j) by done.
      symmetry. by apply tr_child.
  - intros q Hq. rewrite fset_ne by (intros ->; done). by apply Hout.
Qed.
(** Writing a leaf. *)
Lemma leaf_ok p k y tc f :
  subm (path_bits p) M' = {[k := y]} -> ver' p = v -> St tc f -> (forall q, p `prefix_of` q -> f q = None) ->
  built p tc f (rbind (tc_put tc (v, p) (NLeaf k y)) (fun tc => Ok ((v, p), NLeaf k y, tc))).
Proof.
  intros E Hv HS Hn. destruct (St_put v old tc f p (NLeaf k y) HS (Hn p ltac:(done))) as (tc2 & Ep & HS2 & Hfr2).
  rewrite Ep. cbn [rbind]. rewrite <-(node_of_leaf sha M' ver' p k y E) in *.
  pose proof (cnt_single _ _ _ _ E) as H1.
  eexists tc2, _. split; [done|]. split; [done|]. split; [exact HS2|]. split.
  - intros q Hq. destruct (ext_cases _ _ Hq) as [->|[j Hj]].
    + rewrite fset_eq, tr_self by lia. by rewrite Hv.
    + rewrite fset_ne by (intros ->; by eapply snoc_not_prefix). rewrite (Hn q) by done.
      symmetry. apply (tr_small sha p M' ver' j); [lia|done].
  - intros q Hq. by rewrite fset_ne by (intros ->; done).
Qed.

Lemma create_facts p kvs : at_ p kvs -> pcnt p M = 0 ->
  (exists k y, kvs = [(k, y)] /\ subm (path_bits p) M' = {[k := y]}) \/
  (2 <= pcnt p M' /\ length p < 64 /\ exists k y b l, kvs = (k, y) :: b :: l).
Proof.
  intros Ha H0. destruct kvs as [|[k y] [|b l]]; [by destruct Ha| |].
  - left. exists k, y. split; [done|]. destruct Ha as (_ & Hs & He).
    apply map_eq. intros k'. apply option_eq. intros y'. rewrite psub_Some, lookup_singleton_Some. split.
    + intros [H1 H2]. destruct (K_dec k') as [H|[z H]].
      * rewrite HO in H1 by done. exfalso. pose proof (pcnt_key p M k' y' H1 H2). lia.
      * pose proof (HK _ H) as X. cbn in X. assert ((k', z) ∈ [(k, y)]) as Y by by apply He.
        apply elem_of_list_singleton in Y. injection Y as -> ->. split; [done|congruence].
    + intros [<- <-]. destruct (proj1 (He (k, y))) as [HyK Hpk]; [left|]. split; [by apply (HK (k, y))|done].
  - right. pose proof (at_two _ _ _ _ Ha) as H2. split_and!; [done|by eapply pcnt_short|by eexists _, _, _, _].
Qed.
Lemma create_ok fuel : forall p kvs tc f,
  length p + fuel = 64 -> at_ p kvs -> pcnt p M = 0 -> St tc f ->
  (forall q, p `prefix_of` q -> f q = None) ->
  built p tc f (batch_create sha fuel (v, p) v kvs (length p) hc tc).
Proof.
  induction fuel as [|fuel IH]; intros p kvs tc f Hlen Ha H0 HS Hf;
    pose proof (at_touched _ _ Ha) as Htp; pose proof (Hvt _ Htp) as Hvp;
    destruct (create_facts p kvs Ha H0) as [(k & y & -> & Hone)|(H2 & Hp & k & y & b & l & Ek)].
  1, 3: cbn [batch_create]; by apply leaf_ok.
  { lia. }
  rewrite Ek. cbn [batch_create]. rewrite <-Ek.
  destruct (at_groups p kvs Ha Hp) as (rs & gs & Er & Eg & Hnd & Hgs & Hgt).
  rewrite Er. cbn [rbind]. rewrite Eg.
  match goal with |- built _ _ _ (rbind (each_group ?st _ _) _) => set (step := st) end.
  destruct (loop_ok fst snd (fun _ _ => True) step p (fun _ => None) gs Hnd) with (a := ((∅ : children), tc)) (f := f) (dn := @nil nib)
    as ([cs tc1] & E1 & Hfr1 & _ & Hcs & f1 & HS1 & Hin & Hout).
  { intros i sub [cs tc1] f1 dn Hi _ _ HS1 Hf1. cbn [fst snd] in *. unfold step.
    destruct (IH (p ++ [i]) sub tc1 f1) as (tc2 & f2 & E2 & Hfr2 & HS2 & Hin2 & Hout2).
    - rewrite app_length. cbn. lia.
    - by apply Hgs.
    - pose proof (pcnt_mono p (p ++ [i]) M (prefix_snoc_self p i)). lia.
    - done.
    - done.
    - rewrite app_length in E2. cbn [length] in E2. rewrite Nat.add_1_r in E2. unfold child_key. cbn [snd].
      rewrite E2. cbn [rbind]. rewrite add_child_ok; [|done|by apply (at_touched _ sub), Hgs].
      cbn [rbind]. eexists (_, _). split; [done|]. cbn [fst snd]. split_and!; [done|done|done|]. by exists f2. }
  { done. } { intros i _. apply not_elem_of_nil. } { done. }
  { intros i q _ Hq. apply Hf. etrans; [apply prefix_snoc_self|done]. }
  rewrite E1. cbn [rbind]. cbn [fst snd] in *.
  apply (internal_ok p tc f tc1 f1); [done|done|done|done| | | |].
  - rewrite Hout; [by apply Hf|]. intros i _. apply snoc_not_prefix.
  - intros j q Hq. destruct (decide (j ∈ map fst gs)) as [Hj|Hj]; [by apply (Hin j)|].
    rewrite Hout.
    + rewrite Hf by (etrans; [apply prefix_snoc_self|done]). symmetry. apply tr_zero; [|done].
      rewrite (pcnt_ext _ _ _ (untouched_sub _ ltac:(by rewrite <-Hgt))).
      pose proof (pcnt_mono p (p ++ [j]) M (prefix_snoc_self p j)). lia.
    + intros i Hi X. rewrite (snoc_prefix_inj _ _ _ _ Hq X) in Hj. done.
  - intros q Hq. apply Hout. intros i _ X. apply Hq. etrans; [apply prefix_snoc_self|done].
  - apply map_eq. intros j. rewrite Hcs, children_of_lookup. case_decide as Hj.
    + apply Hgt, touched_pos in Hj. rewrite decide_False by lia. done.
    + rewrite decide_True; [apply lookup_empty|].
      rewrite (pcnt_ext _ _ _ (untouched_sub _ ltac:(by rewrite <-Hgt))).
      pose proof (pcnt_mono p (p ++ [j]) M (prefix_snoc_self p j)). lia.
Qed.

Lemma single_key p k0 x0 k y : subm (path_bits p) M = {[k0 := x0]} ->
  M !! k = Some y -> p `prefix_of` nibs k -> k = k0 /\ y = x0.
Proof.
  intros E H1 H2. assert (subm (path_bits p) M !! k = Some y) as X by by apply psub_Some.
  rewrite E in X. apply lookup_singleton_Some in X as [-> ->]. done.
Qed.
Lemma single_sub p i k0 x0 : subm (path_bits p) M = {[k0 := x0]} -> p ++ [i] `prefix_of` nibs k0 ->
  subm (path_bits (p ++ [i])) M = {[k0 := x0]}.
Proof.
  intros E Hi. assert (subm (path_bits p) M !! k0 = Some x0) as X by by rewrite E, lookup_singleton.
  apply psub_Some in X as [X1 X2].
  apply map_eq. intros k. apply option_eq. intros y. rewrite psub_Some, lookup_singleton_Some. split.
  - intros [H1 H2]. destruct (single_key p k0 x0 k y E H1) as [-> ->]; [|done].
    etrans; [apply prefix_snoc_self|done].
  - intros [-> ->]. done.
Qed.

Lemma leaf_facts p k0 x0 kvs : at_ p kvs -> subm (path_bits p) M = {[k0 := x0]} ->
  (exists y, kvs = [(k0, y)] /\ subm (path_bits p) M' = {[k0 := y]}) \/
  (2 <= pcnt p M' /\ length p < 64 /\ forall k y, kvs = [(k, y)] -> k <> k0).
Proof.
  intros Ha HsM.
  assert (M !! k0 = Some x0 /\ p `prefix_of` nibs k0) as [HM0 Hp0]
    by (apply psub_Some; rewrite HsM; apply lookup_singleton).
  assert (2 <= pcnt p M' -> length p < 64) as Hp by by apply pcnt_short.
  destruct kvs as [|[k y] [|b l]]; [by destruct Ha| |].
  - destruct (decide (k = k0)) as [->|Hne].
    + left. exists y. split; [done|]. destruct Ha as (_ & _ & He). apply map_eq. intros k'. apply option_eq. intros y'.
      rewrite psub_Some, lookup_singleton_Some. destruct (proj1 (He (k0, y))) as [HyK _]; [left|]. split.
      * intros [H1 H2]. destruct (K_dec k') as [H|[z H]].
        -- rewrite HO in H1 by done. destruct (single_key p k0 x0 k' y' HsM H1 H2) as [-> ->].
           exfalso. by apply (H y).
        -- assert ((k', z) ∈ [(k0, y)]) as X by by apply He. apply elem_of_list_singleton in X. injection X as -> ->.
           split; [done|]. pose proof (HK _ HyK) as X. cbn in X. congruence.
      * intros [<- <-]. split; [by apply (HK (k0, y))|done].
    + right. assert (2 <= pcnt p M'); [|split_and!; [done|by apply Hp|congruence]].
      destruct Ha as (_ & _ & He). destruct (proj1 (He (k, y))) as [HyK Hpk]; [left|].
      apply (cnt_ge2 _ _ k k0 y x0); [done|by apply (HK (k, y))| |rewrite key_bits_nibs; by apply path_bits_prefix..].
      rewrite HO; [done|]. intros z Hz. assert ((k0, z) ∈ [(k, y)]) as X by by apply He.
      apply elem_of_list_singleton in X. congruence.
  - right. pose proof (at_two _ _ _ _ Ha) as H2. split_and!; [done|by apply Hp|done].
Qed.
Lemma create_leaf_ok fuel : forall p k0 x0 kvs tc f,
  length p + fuel = 64 -> at_ p kvs -> subm (path_bits p) M = {[k0 := x0]} -> St tc f ->
  (forall q, p `prefix_of` q -> f q = None) ->
  built p tc f (batch_create_leaf sha fuel (v, p) v k0 x0 kvs (length p) hc tc).
Proof.
  induction fuel as [|fuel IH]; intros p k0 x0 kvs tc f Hlen Ha HsM HS Hf;
    pose proof (at_touched _ _ Ha) as Htp; pose proof (Hvt _ Htp) as Hvp;
    destruct (leaf_facts p k0 x0 kvs Ha HsM) as [(y & -> & Hone)|(H2 & Hp & Hne0)].
  1, 3: cbn [batch_create_leaf]; rewrite decide_True by done; by apply leaf_ok.
  { lia. }
  assert (M !! k0 = Some x0 /\ p `prefix_of` nibs k0) as [HM0 Hp0]
    by (apply psub_Some; rewrite HsM; apply lookup_singleton).
  (* the split *)
  assert (length k0 = 32) as Hk0 by by eapply HwM.
  destruct (lookup_lt_is_Some_2 (nibs k0) (length p)) as [bk Hbk]; [rewrite nibs_length; lia|].
  assert (p ++ [bk] `prefix_of` nibs k0) as Hpb by by apply nib_at.
  destruct (at_groups p kvs Ha Hp) as (rs & gs & Er & Eg & Hnd & Hgs & Hgt).
  assert (forall (G : res jerr (nkey * node * cache) -> Prop) r s,
    G s -> G (match kvs with [(k, y)] => if decide (k = k0) then r k y else s | _ => s end)) as Hm.
  { intros G r s HG. destruct kvs as [|[k y] [|b l]]; [done| |done].
    rewrite decide_False; [done|]. by eapply Hne0. }
  cbn [batch_create_leaf].
  match goal with |- built _ _ _ (match kvs with [] => ?s | _ => _ end) => set (split := s) end.
  apply (Hm (built p tc f) (fun k y => rbind (tc_put tc (v, p) (NLeaf k0 y)) (fun tc => Ok ((v, p), NLeaf k0 y, tc))) split).
  unfold split. rewrite get_nibble_lookup, Hbk, Er. cbn [rbind]. rewrite Eg. clear Hm split.
  match goal with |- built _ _ _ (rbind (each_group ?st _ _) _) => set (step := st) end.
  destruct (loop_ok (fun a : children * bool * cache => fst (fst a)) snd
      (fun dn a => snd (fst a) = bool_decide (bk ∉ dn)) step p (fun _ => None) gs Hnd)
    with (a := ((∅ : children), true, tc)) (f := f) (dn := @nil nib)
    as ([[cs alone] tc1] & E1 & Hfr1 & (dn & HI & Hdn) & Hcs & f1 & HS1 & Hin & Hout).
  { intros i sub [[cs al] tc1] f1 dn Hi Hid HI HS1 Hf1. cbn [fst snd] in *. unfold step.
    assert (length (p ++ [i]) = S (length p)) as Hl by (rewrite app_length; cbn; lia).
    unfold child_key. cbn [snd]. destruct (decide (bk = i)) as [->|Hne].
    - destruct (IH (p ++ [i]) k0 x0 sub tc1 f1) as (tc2 & f2 & E2 & Hfr2 & HS2 & Hin2 & Hout2).
      { lia. } { by apply Hgs. } { by apply single_sub. } { done. } { done. }
      rewrite Hl in E2. rewrite E2. cbn [rbind]. rewrite add_child_ok; [|done|by apply (at_touched _ sub), Hgs].
      cbn [rbind]. eexists (_, _, _). split; [done|]. cbn [fst snd]. split_and!; [done|done| |by exists f2].
      symmetry. apply bool_decide_false. intros X. apply X. left.
    - destruct (create_ok fuel (p ++ [i]) sub tc1 f1) as (tc2 & f2 & E2 & Hfr2 & HS2 & Hin2 & Hout2).
      { lia. } { by apply Hgs. }
      { destruct (decide (pcnt (p ++ [i]) M = 0)) as [|Hnz]; [done|exfalso].
        destruct (cnt_pos_inv (path_bits (p ++ [i])) M) as (k1 & x1 & Hk1 & Hp1); [lia|].
        rewrite key_bits_nibs, path_bits_prefix in Hp1.
        destruct (single_key p k0 x0 k1 x1 HsM Hk1) as [-> ->]; [etrans; [apply prefix_snoc_self|done]|].
        apply Hne. by eapply snoc_prefix_inj. }
      { done. } { done. }
      rewrite Hl in E2. rewrite E2. cbn [rbind]. rewrite add_child_ok; [|done|by apply (at_touched _ sub), Hgs].
      cbn [rbind]. eexists (_, _, _). split; [done|]. cbn [fst snd]. split_and!; [done|done| |by exists f2].
      rewrite HI. apply bool_decide_ext. rewrite not_elem_of_cons. tauto. }
  { cbn. symmetry. apply bool_decide_true, not_elem_of_nil. } { intros i _. apply not_elem_of_nil. } { done. }
  { intros i q _ Hq. apply Hf. etrans; [apply prefix_snoc_self|done]. }
  rewrite E1. cbn [rbind]. cbn [fst snd] in *.
  assert (forall j, j <> bk -> j ∉ map fst gs -> pcnt (p ++ [j]) M' = 0) as Hzero.
  { intros j Hj Hn. rewrite (pcnt_ext _ _ _ (untouched_sub _ ltac:(by rewrite <-Hgt))).
    destruct (decide (pcnt (p ++ [j]) M = 0)) as [|Hnz]; [done|exfalso].
    destruct (cnt_pos_inv (path_bits (p ++ [j])) M) as (k1 & x1 & Hk1 & Hp1); [lia|].
    rewrite key_bits_nibs, path_bits_prefix in Hp1.
    destruct (single_key p k0 x0 k1 x1 HsM Hk1) as [-> ->]; [etrans; [apply prefix_snoc_self|done]|].
    apply Hj. by eapply snoc_prefix_inj. }
  assert (alone = bool_decide (bk ∉ map fst gs)) as ->.
  { rewrite HI. apply bool_decide_ext. rewrite Hdn, elem_of_nil. tauto. }
  assert (f1 p = None) as Hfp.
  { rewrite Hout; [by apply Hf|]. intros i _. apply snoc_not_prefix. }
  assert (forall q, ~ p `prefix_of` q -> f1 q = f q) as Hout'.
  { intros q Hq. apply Hout. intros i _ X. apply Hq. etrans; [apply prefix_snoc_self|done]. }
  assert (forall j q, j ∉ map fst gs -> p ++ [j] `prefix_of` q -> f1 q = None) as Hnone.
  { intros j q Hj Hq. rewrite Hout; [apply Hf; etrans; [apply prefix_snoc_self|done]|].
    intros i Hi X. rewrite (snoc_prefix_inj _ _ _ _ Hq X) in Hj. done. }
  case_bool_decide as Hal.
  - assert (subm (path_bits (p ++ [bk])) M' = {[k0 := x0]}) as Hsb.
    { rewrite untouched_sub by by rewrite <-Hgt. by apply single_sub. }
    pose proof (cnt_single _ _ _ _ Hsb) as Hc1.
    assert (ver' (p ++ [bk]) = v) as Hvb.
    { apply Hvd. intros (_ & _ & [X|X]).
      - apply (f_equal length) in X. rewrite app_length in X. cbn in X. lia.
      - rewrite removelast_last in X. rewrite (cnt_single _ _ _ _ HsM) in X. lia. }
    unfold child_key. cbn [snd].
    destruct (St_put v old tc1 f1 (p ++ [bk]) (NLeaf k0 x0) HS1) as (tc2 & Ep & HS2 & Hfr2).
    { by apply (Hnone bk). }
    rewrite Ep. cbn [rbind].
    apply (internal_ok p tc f tc2 _ _ H2 Hvp (frame_trans _ _ _ Hfr1 Hfr2) HS2).
    + rewrite fset_ne; [done|]. intros X. by apply (snoc_not_prefix p bk); rewrite <-X at 1.
    + intros j q Hq. destruct (decide (q = p ++ [bk])) as [->|Hqb].
      * rewrite fset_eq. assert (j = bk) as -> by by eapply snoc_prefix_inj.
        rewrite tr_self by lia. by rewrite Hvb, (node_of_leaf sha _ _ _ _ _ Hsb).
      * rewrite fset_ne by done. destruct (decide (j ∈ map fst gs)) as [Hj|Hj]; [by apply (Hin j)|].
        rewrite (Hnone j) by done. symmetry. destruct (decide (j = bk)) as [->|Hjb].
        -- destruct (ext_cases _ _ Hq) as [->|[j' Hj']]; [done|]. apply (tr_small sha (p ++ [bk]) M' ver' j'); [lia|done].
        -- apply tr_zero; [by apply Hzero|done].
    + intros q Hq. rewrite fset_ne; [by apply Hout'|]. intros ->. apply Hq, prefix_snoc_self.
    + apply map_eq. intros j. rewrite children_of_lookup. destruct (decide (j = bk)) as [->|Hjb].
      * rewrite lookup_insert, decide_False by lia. unfold JmtAbsProof.child_of.
        by rewrite decide_True, Hvb, (hashB_single _ _ _ _ _ _ _ Hsb) by done.
      * rewrite lookup_insert_ne, Hcs by done. destruct (decide (j ∈ map fst gs)) as [Hj|Hj].
        -- apply Hgt, touched_pos in Hj. rewrite decide_False by lia. done.
        -- rewrite decide_True by by apply Hzero. apply lookup_empty.
  - assert (bk ∈ map fst gs) as Hbg by (destruct (decide (bk ∈ map fst gs)); [done|by exfalso]).
    cbn [rbind]. apply (internal_ok p tc f tc1 f1); [done|done|done|done|done| |done|].
    + intros j q Hq. destruct (decide (j ∈ map fst gs)) as [Hj|Hj]; [by apply (Hin j)|].
      rewrite (Hnone j) by done. symmetry. apply tr_zero; [|done]. apply Hzero; [|done]. by intros ->.
    + apply map_eq. intros j. rewrite Hcs, children_of_lookup. destruct (decide (j ∈ map fst gs)) as [Hj|Hj].
      * apply Hgt, touched_pos in Hj. rewrite decide_False by lia. done.
      * rewrite decide_True; [apply lookup_empty|]. apply Hzero; [|done]. by intros ->.
Qed.

Lemma insert_ok fuel : forall p kvs tc f,
  length p + fuel = 64 -> at_ p kvs -> live [] M p -> St tc f ->
  (forall q, p `prefix_of` q -> f q = tr p M ver q) ->
  built p tc f (batch_insert_at sha fuel (ver p, p) v kvs (length p) hc tc).
Proof.
  induction fuel as [|fuel IH]; intros p kvs tc f Hlen Ha Hl HS Hf;
    pose proof (at_touched _ _ Ha) as Htp; pose proof (Hvt _ Htp) as Hvp; pose proof (live_pos _ _ _ Hl) as Hpos.
  all: assert (f p = Some (ver p, node_of M ver p)) as Hfp by (rewrite Hf by done; by apply tr_self).
  all: pose proof (St_get v old _ _ _ _ _ HS Hfp) as Hget.
  all: destruct (St_delete v old tc f p _ _ HS Hfp) as (tc1 & Ed & HS1 & Hfr1).
  all: assert (forall (G : res jerr (nkey * node * cache) -> Prop) r s, G s ->
    G (match kvs with [] => r | _ => s end)) as Hm by (intros; destruct kvs; [by destruct Ha|done]).
  all: assert (forall q, ~ p `prefix_of` q -> fset f p None q = f q) as Hout0
    by (intros q Hq; apply fset_ne; by intros ->).
  all: cbn [batch_insert_at]; apply Hm; clear Hm; unfold tc_get; rewrite Hget; cbn [rbind].
  all: destruct (decide (pcnt p M = 1)) as [H1|H1].
  1, 3: destruct (cnt_1 _ _ H1) as (k0 & x0 & E);
    rewrite (node_of_leaf sha _ _ _ _ _ E) in *; cbn [is_leaf] in Ed; rewrite Ed; cbn [rbind snd];
    (destruct (create_leaf_ok _ p k0 x0 kvs tc1 (fset f p None) Hlen Ha E HS1) as (tc2 & f2 & E2 & Hfr2 & HS2 & Hin2 & Hout2);
    [|exists tc2, f2; split; [exact E2|]; split; [by eapply frame_trans|]; split; [done|]; split; [done|];
      intros q Hq; rewrite Hout2 by done; by apply Hout0]);
    intros q Hq; (destruct (ext_cases _ _ Hq) as [->|[j Hj]]; [apply fset_eq|]);
    rewrite fset_ne by (intros ->; by eapply snoc_not_prefix);
    rewrite Hf by done; apply (tr_small sha p M ver j); [lia|done].
  all: assert (2 <= pcnt p M) as H2 by lia; pose proof (pcnt_short _ _ HwM H2) as Hp.
  { lia. }
  rewrite node_of_is_leaf, bool_decide_false in Ed by done.
  rewrite node_of_internal by done. rewrite Ed. cbn [rbind snd in_children].
  destruct (at_groups p kvs Ha Hp) as (rs & gs & Er & Eg & Hnd & Hgs & Hgt).
  rewrite Er. cbn [rbind]. rewrite Eg.
  assert (2 <= pcnt p M') as H2' by (pose proof (grow p); lia).
  assert (forall j, 0 < pcnt (p ++ [j]) M -> live [] M (p ++ [j])) as Hlj.
  { intros j Hj. eapply live_trans; [done|]. apply (live_child p M j (p ++ [j])); [done|].
    split; [done|]. by apply live_self. }
  match goal with |- built _ _ _ (rbind (each_group ?st _ _) _) => set (step := st) end.
  destruct (loop_ok fst snd (fun _ _ => True) step p (fset f p None) gs Hnd)
    with (a := (children_of M ver p, tc1)) (f := fset f p None) (dn := @nil nib)
    as ([cs tc2] & E1 & Hfr2 & _ & Hcs & f2 & HS2 & Hin & Hout).
  { intros i sub [cs tc2] f2 dn Hi _ _ HS2 Hf2. cbn [fst snd] in *. unfold step.
    assert (length (p ++ [i]) = S (length p)) as Hle by (rewrite app_length; cbn; lia).
    assert (forall q, p ++ [i] `prefix_of` q -> f2 q = tr (p ++ [i]) M ver q) as Hf2'.
    { intros q Hq. rewrite Hf2 by done. rewrite fset_ne by (intros ->; by eapply snoc_not_prefix).
      rewrite Hf by (etrans; [apply prefix_snoc_self|done]). by apply tr_child. }
    assert (built (p ++ [i]) tc2 f2 (match children_of M ver p !! i with
        | Some c => batch_insert_at sha fuel (child_key (ver p, p) (c_ver c) i) v sub (S (length p)) hc tc2
        | None => batch_create sha fuel (child_key (ver p, p) v i) v sub (S (length p)) hc tc2
        end)) as (tc3 & f3 & E3 & Hfr3 & HS3 & Hin3 & Hout3).
    { rewrite children_of_lookup, <-Hle. unfold child_key. cbn [snd]. case_decide as Hz.
      - apply create_ok; [lia|by apply Hgs|done|done|]. intros q Hq. rewrite Hf2' by done. by apply tr_zero.
      - cbn [c_ver JmtAbsProof.child_of]. apply IH; [lia|by apply Hgs|apply Hlj; lia|done|done]. }
    rewrite E3. cbn [rbind]. rewrite add_child_ok; [|done|by apply (at_touched _ sub), Hgs].
    cbn [rbind]. eexists (_, _). split; [done|]. cbn [fst snd]. split_and!; [done|done|done|]. by exists f3. }
  { done. } { intros i _. apply not_elem_of_nil. } { done. } { done. }
  rewrite E1. cbn [rbind]. cbn [fst snd] in *.
  apply (internal_ok p tc f tc2 f2); [done|done|by eapply frame_trans|done| | | |].
  - rewrite Hout; [apply fset_eq|]. intros i _. apply snoc_not_prefix.
  - intros j q Hq. destruct (decide (j ∈ map fst gs)) as [Hj|Hj]; [by apply (Hin j)|].
    rewrite Hout.
    + rewrite fset_ne by (intros ->; by eapply snoc_not_prefix).
      rewrite Hf by (etrans; [apply prefix_snoc_self|done]). rewrite (tr_child sha p M ver j) by done.
      assert (~ touched (p ++ [j])) as Hnt by by rewrite <-Hgt.
      destruct (decide (pcnt (p ++ [j]) M = 0)) as [Hz|Hz].
      * rewrite !tr_zero; [done|..]; try done. by rewrite (pcnt_ext _ _ _ (untouched_sub _ Hnt)).
      * apply tr_ext; [by rewrite untouched_sub| |done]. intros r Hr. symmetry. apply Hvl.
        -- intros (x & Hx & Hrx). apply Hnt. exists x. split; [done|]. destruct Hr as (Hr & _). by etrans.
        -- eapply live_trans; [apply (Hlj j); lia|done].
    + intros i Hi X. rewrite (snoc_prefix_inj _ _ _ _ Hq X) in Hj. done.
  - intros q Hq. rewrite Hout; [by apply Hout0|]. intros i _ X. apply Hq. etrans; [apply prefix_snoc_self|done].
  - apply map_eq. intros j. rewrite Hcs, !children_of_lookup. case_decide as Hj.
    + apply Hgt, touched_pos in Hj. rewrite decide_False by lia. done.
    + assert (~ touched (p ++ [j])) as Hnt by by rewrite <-Hgt.
      rewrite (pcnt_ext _ _ _ (untouched_sub _ Hnt)). case_decide as Hz; [done|]. f_equal.
      apply child_of_ext; [by rewrite untouched_sub|]. symmetry. apply Hvl; [done|]. apply Hlj. lia.
Qed.
End Rec.
