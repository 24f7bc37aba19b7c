(** [insert_at]: one write turns the tree of the contents into the tree of the
    new contents. *)
From Verif Require Import Base JmtNibModel JmtSpec JmtNibProof JmtModel JmtHashProof JmtAbsProof
  JmtCacheProof.
Local Open Scope nat_scope.

Section Insert.
Context (sha : bytes -> bytes) (v : N) (old : gmap nkey node).
Notation sm_leaf := (sm_leaf sha).
Notation sm_internal := (sm_internal sha).
Notation hashP := (hashB sm_leaf sm_internal placeholder).
Notation phash p M := (hashP (path_bits p) M).
Notation node_of := (node_of sha).
Notation children_of := (children_of sha).
Notation child_of := (child_of sha).
Notation tr := (tr sha).
Notation St := (St v old).

Lemma pcnt_ext p M M' : subm (path_bits p) M = subm (path_bits p) M' -> pcnt p M = pcnt p M'.
Proof. unfold cnt. by intros ->. Qed.

Lemma only_branch M ver q i : subm (path_bits (q ++ [i])) M = subm (path_bits q) M -> 0 < pcnt q M ->
  children_of M ver q = {[ i := child_of M ver (q ++ [i]) ]}.
Proof.
  intros E Hp. apply map_eq. intros j. rewrite children_of_lookup.
  destruct (decide (j = i)) as [->|Hne].
  - rewrite lookup_singleton, decide_False; [done|]. unfold cnt in *. rewrite E. lia.
  - rewrite lookup_singleton_ne by done. rewrite decide_True; [done|]. apply cnt_0.
    apply map_empty. intros k. apply eq_None_not_Some. intros [x Hx].
    pose proof Hx as Hx2. apply psub_Some in Hx2 as [Hk Hj].
    assert (subm (path_bits q) M !! k = Some x) as Hq.
    { apply psub_Some. split; [done|]. etrans; [|exact Hj]. apply prefix_snoc_self. }
    rewrite <-E in Hq. apply psub_Some in Hq as [_ Hi]. apply Hne.
    by eapply snoc_prefix_inj.
Qed.
Lemma subm_between p q r M : p `prefix_of` q -> q `prefix_of` r ->
  subm (path_bits r) M = subm (path_bits p) M -> subm (path_bits q) M = subm (path_bits p) M.
Proof.
  intros Hpq Hqr E. apply map_eq. intros k. apply option_eq. intros x. split.
  - rewrite !psub_Some. intros [? ?]. split; [done|]. by etrans.
  - intros H. rewrite <-E in H. rewrite psub_Some in H. destruct H. apply psub_Some. split; [done|].
    by etrans.
Qed.

Lemma chain_ok M ver p com : wfm M -> 
  (forall q, p `prefix_of` q -> q `prefix_of` p ++ com -> ver q = v) ->
  subm (path_bits (p ++ com)) M = subm (path_bits p) M -> 2 <= pcnt p M ->
  forall tc f nd,
  St tc f ->
  (forall q, p `prefix_of` q -> q `prefix_of` p ++ com -> q <> p ++ com -> f q = None) ->
  NInternal nd = node_of M ver (p ++ com) ->
  exists nd' tc', chain sha (length com) v (p ++ com) (v, p ++ com) nd tc = Ok (v, p, nd', tc') /\
    NInternal nd' = node_of M ver p /\ frame tc tc' /\
    exists f', St tc' f' /\
      forall q, f' q = if decide (p `prefix_of` q /\ q `prefix_of` p ++ com /\ q <> p ++ com)
                       then Some (v, node_of M ver q) else f q.
Proof.
  intros Hw. induction com as [|i com IH] using rev_ind; intros Hver Hsub H2 tc f nd HS Hf Hnd.
  - rewrite app_nil_r in *. exists nd, tc. cbn [length chain]. split_and!; [done..|].
    exists f. split; [done|]. intros q. rewrite decide_False; [done|].
    intros (A & B & C). apply C. apply prefix_len_eq; [done|]. by apply prefix_length in A.
  - rewrite app_length. cbn [length]. rewrite Nat.add_1_r. cbn [chain].
    rewrite app_assoc, unsnoc_snoc. rewrite app_assoc in Hver, Hsub, Hf, Hnd.
    set (q0 := p ++ com) in *.
    assert (p `prefix_of` q0) as Hpq by (by eexists).
    assert (subm (path_bits q0) M = subm (path_bits p) M) as Hq0.
    { eapply subm_between; [done|apply prefix_snoc_self|done]. }
    assert (pcnt q0 M = pcnt p M) as Ec by (unfold cnt; by rewrite Hq0).
    assert (pcnt (q0 ++ [i]) M = pcnt p M) as Ec2 by (unfold cnt; by rewrite Hsub).
    assert (subm (path_bits (q0 ++ [i])) M = subm (path_bits q0) M) as Hs2 by congruence.
    pose proof (node_of_hash sha M ver (q0 ++ [i]) Hw) as Hh. rewrite <-Hnd in Hh.
    cbn [node_hash] in Hh. rewrite Hh. cbn [rbind].
    pose proof (node_of_type sha M ver (q0 ++ [i])) as Ht. rewrite <-Hnd in Ht.
    cbn [node_type] in Ht. rewrite decide_False in Ht by lia.
    assert (inode_type nd = TInternal (N.of_nat (pcnt (q0 ++ [i]) M))) as Ety by (assert (Ok (E := jerr) (inode_type nd) = Ok (TInternal (N.of_nat (pcnt (q0 ++ [i]) M)))) as X by (apply Ht; lia); congruence).
    assert ({[i := Child (phash (q0 ++ [i]) M) v (inode_type nd)]} = children_of M ver q0) as Ech.
    { rewrite (only_branch M ver q0 i Hs2) by lia. unfold JmtAbsProof.child_of.
      rewrite Hver; [|by (etrans; [exact Hpq|apply prefix_snoc_self])|done].
      rewrite decide_False by lia. by rewrite Ety. }
    rewrite Ech, inode_new_of by (done || lia). cbn [rbind].
    rewrite <-node_of_internal by lia.
    destruct (St_put v old tc f q0 (node_of M ver q0) HS) as (tc1 & Ep & HS1 & Hfr1).
    { apply Hf; [done|apply prefix_snoc_self|]. intros E. by apply (snoc_not_prefix q0 i); rewrite <-E. }
    rewrite Ep. cbn [rbind].
    destruct (IH) with (tc := tc1) (f := fset f q0 (Some (v, node_of M ver q0)))
      (nd := INode (children_of M ver q0) (Some (N.of_nat (pcnt q0 M))))
      as (nd' & tc' & E & Hnd' & Hfr & f' & HS' & Hf').
    { intros q A B. apply Hver; [done|]. etrans; [exact B|apply prefix_snoc_self]. }
    { done. } { done. } { done. }
    { intros q A B C. rewrite fset_ne by done. apply Hf; [done| |].
      - etrans; [exact B|apply prefix_snoc_self].
      - intros ->. by eapply snoc_not_prefix. }
    { symmetry. apply node_of_internal. lia. }
    exists nd', tc'. split_and!; [done..|by eapply frame_trans|].
    exists f'. split; [done|]. intros q. rewrite Hf'. unfold fset.
    destruct (decide (q = q0)) as [->|Hne].
    { rewrite decide_False by naive_solver. rewrite decide_True; [done|].
      split_and!; [done|apply prefix_snoc_self|].
      intros X. by apply (snoc_not_prefix q0 i); rewrite <-X. }
    destruct (decide (p `prefix_of` q /\ q `prefix_of` q0 /\ q <> q0)) as [(A & B & C)|Hn].
    + rewrite decide_True; [done|]. split_and!; [done|etrans; [exact B|apply prefix_snoc_self]|].
      intros ->. by eapply snoc_not_prefix.
    + rewrite decide_False; [done|]. intros (A & B & C). apply Hn. split_and!; [done| |done].
      destruct B as [r E']. destruct (unsnoc r) as [[r' z]|] eqn:Er.
      * apply unsnoc_Some in Er as ->. rewrite app_assoc in E'. apply app_inj_tail in E' as [E' _].
        rewrite E'. by eexists.
      * destruct r as [|a r]; [rewrite app_nil_r in E'; done|].
        exfalso. unfold unsnoc in Er. cbn in Er. destruct (rev r); done.
Qed.

Lemma create_leaf_ok k vis rest vh tc nk : length k = 32 -> nibs k = vis ++ rest ->
  create_leaf nk vis rest vh tc =
  rbind (tc_put tc nk (NLeaf k vh)) (fun tc => Ok (nk, NLeaf k vh, tc)).
Proof. intros Hk E. unfold create_leaf. by rewrite <-E, pack_nibs, Hk. Qed.

(** What a write gives at path [p]. *)
Definition result (M' : pairs) (ver' : path -> N) (p : path) : put_result :=
  if decide (pcnt p M' = 0) then Removed else Updated (v, p) (node_of M' ver' p).
Definition wrote (p : path) (k : bytes) (value : option bytes) (M : pairs) (ver : path -> N)
    (tc : cache) (f : tree_fn) (r : put_result) (tc' : cache) : Prop :=
  frame tc tc' /\
  ((value = None /\ M !! k = None /\ r = NotChanged /\ tc' = tc) \/
   (~ (value = None /\ M !! k = None) /\
    r = result (upd k value M) (newver v k M ver) p /\
    exists f', St tc' f' /\
      (forall q, p `prefix_of` q -> f' q = tr p (upd k value M) (newver v k M ver) q) /\
      (forall q, ~ p `prefix_of` q -> f' q = f q))).

Lemma newver_key k M ver q : q `prefix_of` nibs k -> newver v k M ver q = v.
Proof. intros. unfold newver. by rewrite decide_True. Qed.
Lemma newver_dead k M ver q : ~ live [] M q -> newver v k M ver q = v.
Proof. intros. unfold newver. rewrite (decide_False (P := live [] M q)) by done. by case_decide. Qed.

(** A leaf subtree after the write of another key. *)
Lemma two_keys p k0 x0 k x M : subm (path_bits p) M = {[k0 := x0]} -> k <> k0 ->
  forall q, p `prefix_of` q ->
  (q `prefix_of` nibs k -> q `prefix_of` nibs k0 ->
     subm (path_bits q) (<[k := x]> M) = <[k := x]> {[k0 := x0]}) /\
  (q `prefix_of` nibs k -> ~ q `prefix_of` nibs k0 -> subm (path_bits q) (<[k := x]> M) = {[k := x]}) /\
  (~ q `prefix_of` nibs k -> q `prefix_of` nibs k0 -> subm (path_bits q) (<[k := x]> M) = {[k0 := x0]}) /\
  (~ q `prefix_of` nibs k -> ~ q `prefix_of` nibs k0 -> subm (path_bits q) (<[k := x]> M) = ∅).
Proof.
  intros E Hne q Hpq.
  assert (forall k' y, p `prefix_of` nibs k' -> M !! k' = Some y <-> k' = k0 /\ y = x0) as HM.
  { intros k' y Hp. assert (subm (path_bits p) M !! k' = Some y <-> k' = k0 /\ y = x0) as X.
    { rewrite E, lookup_singleton_Some. naive_solver. }
    rewrite psub_Some in X. tauto. }
  assert (forall k' y, subm (path_bits q) (<[k:=x]> M) !! k' = Some y <->
     q `prefix_of` nibs k' /\ ((k' = k /\ y = x) \/ (k' = k0 /\ y = x0))) as HX.
  { intros k' y. rewrite psub_Some. destruct (decide (k' = k)) as [->|Hk].
    - rewrite lookup_insert. naive_solver.
    - rewrite lookup_insert_ne by done. split.
      + intros [A B]. rewrite HM in A by by etrans. tauto.
      + intros [A [[? ?]|B]]; [done|]. split; [|done]. apply HM; [by etrans|done]. }
  split_and!; intros A B; apply map_eq; intros k'; apply option_eq; intros y; rewrite HX.
  - rewrite lookup_insert_Some, lookup_singleton_Some. split; [|naive_solver].
    intros [C [[-> ->]|[-> ->]]]; [by left|right; naive_solver].
  - rewrite lookup_singleton_Some. naive_solver.
  - rewrite lookup_singleton_Some. naive_solver.
  - rewrite lookup_empty. naive_solver.
Qed.

Lemma insert_at_leaf_ok p rest k k0 x0 value M ver tc f :
  wfm M -> length k = 32 -> nibs k = p ++ rest -> live [] M p ->
  subm (path_bits p) M = {[k0 := x0]} -> 
  St tc f -> (forall q, p `prefix_of` q -> f q = tr p M ver q) ->
  exists r tc', insert_at_leaf sha (ver p, p) k0 x0 v p rest value tc = Ok (r, tc') /\
    wrote p k value M ver tc f r tc'.
Proof.
  intros Hw Hk Hkn Hlive Hsub HS Hf.
  assert (M !! k0 = Some x0 /\ p `prefix_of` nibs k0) as [Hk0 Hp0].
  { apply psub_Some. by rewrite Hsub, lookup_singleton. }
  pose proof (Hw _ _ Hk0) as Hk0l.
  assert (pcnt p M = 1) as Hc1 by (by eapply cnt_single).
  pose proof (node_of_leaf sha M ver p k0 x0 Hsub) as Hnd.
  assert (f p = Some (ver p, NLeaf k0 x0)) as Hfp.
  { rewrite Hf by done. rewrite tr_self by lia. by rewrite Hnd. }
  assert (forall q, p `prefix_of` q -> q <> p -> f q = None) as Hfn.
  { intros q Hq Hne. rewrite Hf by done. destruct (ext_cases _ _ Hq) as [?|[i Hi]]; [done|].
    apply (tr_small sha p M ver i); [lia|done]. }
  destruct Hp0 as [ex_left Hex]. unfold insert_at_leaf.
  rewrite Hex, skip_common_prefix.
  destruct (skip_common rest ex_left) as [[n new_left] ex_below] eqn:Esk.
  apply skip_common_spec in Esk as (E1 & E2 & Hn & Hheads).
  set (com := take n rest) in *.
  assert (length com = n) as Hcom by (unfold com; rewrite take_length; lia).
  assert (length new_left = length ex_below) as Hlen.
  { pose proof (nibs_length k) as L1. pose proof (nibs_length k0) as L2.
    rewrite Hkn, E1, !app_length in L1. rewrite Hex, E2, !app_length in L2. lia. }
  destruct new_left as [|ni nl].
  - destruct ex_below as [|? ?]; [|cbn in Hlen; lia].
    assert (k = k0) as ->.
    { apply nibs_inj. rewrite Hkn, Hex, E1, E2. done. }
    destruct (St_delete v old tc f p (ver p) (NLeaf k0 x0) HS Hfp) as (tc1 & Ed & HS1 & Hfr1).
    cbn [is_leaf] in Ed. rewrite Ed. cbn [rbind].
    destruct value as [vh|].
    + rewrite (create_leaf_ok k0); [|done|by rewrite Hex, E2, !app_nil_r].
      destruct (St_put v old tc1 (fset f p None) p (NLeaf k0 vh) HS1) as (tc2 & Ep & HS2 & Hfr2).
      { apply fset_eq. }
      cbn [snd]. rewrite Ep. cbn [rbind].
      assert (subm (path_bits p) (upd k0 (Some vh) M) = {[k0 := vh]}) as Hs'.
      { apply map_eq. intros k'. apply option_eq. intros y. rewrite psub_Some. cbn [upd].
        rewrite lookup_insert_Some, lookup_singleton_Some.
        assert (subm (path_bits p) M !! k' = Some y -> k' = k0) as X.
        { rewrite Hsub, lookup_singleton_Some. naive_solver. }
        rewrite psub_Some in X. split.
        - intros [[?|[? ?]] ?]; [done|]. destruct H. symmetry. by apply X.
        - intros [-> ->]. split; [by left|]. rewrite Hex. by eexists. }
      pose proof (cnt_single _ _ _ _ Hs') as Hc'.
      eexists _, _. split; [done|]. split; [by eapply frame_trans|]. right.
      split; [naive_solver|]. split.
      * unfold result. rewrite decide_False by lia. by rewrite (node_of_leaf _ _ _ _ _ _ Hs').
      * eexists. split; [exact HS2|]. split.
        -- intros q Hq. destruct (ext_cases _ _ Hq) as [->|[i Hi]].
           ++ rewrite fset_eq. rewrite tr_self by lia. rewrite (node_of_leaf _ _ _ _ _ _ Hs').
              rewrite newver_key; [done|]. rewrite Hex. by eexists.
           ++ assert (q <> p) by (intros ->; by eapply snoc_not_prefix).
              rewrite !fset_ne by done. rewrite Hfn by done. symmetry. apply (tr_small sha p _ _ i); [lia|done].
        -- intros q Hq. assert (q <> p) by (intros ->; done). by rewrite !fset_ne.
    + assert (subm (path_bits p) (upd k0 None M) = ∅) as Hs'.
      { apply map_empty. intros k'. apply eq_None_not_Some. intros [y Hy]. apply psub_Some in Hy as [Hy Hp'].
        cbn [upd] in Hy. apply lookup_delete_Some in Hy as [Hne Hy].
        assert (subm (path_bits p) M !! k' = Some y) as X by by apply psub_Some.
        rewrite Hsub, lookup_singleton_Some in X. naive_solver. }
      apply cnt_0 in Hs'.
      eexists _, _. split; [done|]. split; [done|]. right. split; [naive_solver|]. split.
      * unfold result. by rewrite decide_True.
      * eexists. split; [exact HS1|]. split.
        -- intros q Hq. rewrite (tr_zero sha p) by done. destruct (decide (q = p)) as [->|Hne].
           ++ apply fset_eq.
           ++ rewrite fset_ne by done. by apply Hfn.
        -- intros q Hq. assert (q <> p) by (intros ->; done). by rewrite !fset_ne.
  - destruct ex_below as [|ei el]; [cbn in Hlen; lia|].
    assert (k <> k0) as Hkne.
    { intros <-. rewrite Hkn in Hex. apply app_inv_head in Hex. rewrite E1, E2 in Hex.
      apply app_inv_head in Hex. by simplify_eq. }
    destruct value as [vh|]; cycle 1.
    { exists NotChanged, tc. split; [done|]. split; [done|]. left. split_and!; [done| |done..].
      destruct (M !! k) as [y|] eqn:Hy; [|done]. exfalso. apply Hkne.
      assert (subm (path_bits p) M !! k = Some y) as X.
      { apply psub_Some. split; [done|]. rewrite Hkn. by eexists. }
      rewrite Hsub, lookup_singleton_Some in X. naive_solver. }
    destruct (St_delete v old tc f p (ver p) (NLeaf k0 x0) HS Hfp) as (tc1 & Ed & HS1 & Hfr1).
    cbn [is_leaf] in Ed. rewrite Ed. cbn [rbind].
    rewrite decide_False by congruence.
    set (c := p ++ com) in *. unfold child_key. cbn [snd].
    assert (nibs k = c ++ ni :: nl) as Hkc by (unfold c; rewrite <-app_assoc, <-E1; done).
    assert (nibs k0 = c ++ ei :: el) as Hkc0 by (unfold c; rewrite <-app_assoc, <-E2; done).
    assert (p `prefix_of` c) as Hpc by by eexists.
    assert (c `prefix_of` nibs k) as Hck by (rewrite Hkc; by eexists).
    assert (c `prefix_of` nibs k0) as Hck0 by (rewrite Hkc0; by eexists).
    assert (c ++ [ni] `prefix_of` nibs k) as Hnk by (exists nl; by rewrite Hkc, <-app_assoc).
    assert (c ++ [ei] `prefix_of` nibs k0) as Hek by (exists el; by rewrite Hkc0, <-app_assoc).
    set (f1 := fset f p None).
    assert (forall q, p `prefix_of` q -> f1 q = None) as Hf1.
    { intros q Hq. unfold f1. destruct (decide (q = p)) as [->|Hne]; [apply fset_eq|].
      rewrite fset_ne by done. by apply Hfn. }
    assert (forall i, p `prefix_of` c ++ [i]) as Hpi.
    { intros i. etrans; [exact Hpc|apply prefix_snoc_self]. }
    destruct (St_put v old tc1 f1 (c ++ [ei]) (NLeaf k0 x0) HS1) as (tc2 & Ep2 & HS2 & Hfr2).
    { by apply Hf1. }
    rewrite Ep2. cbn [rbind].
    rewrite (create_leaf_ok k) by (rewrite <-?app_assoc; done).
    set (f2 := fset f1 (c ++ [ei]) (Some (v, NLeaf k0 x0))).
    destruct (St_put v old tc2 f2 (c ++ [ni]) (NLeaf k vh) HS2) as (tc3 & Ep3 & HS3 & Hfr3).
    { unfold f2. rewrite fset_ne; [by apply Hf1|]. intros X. apply app_inj_tail in X as [_ X]. congruence. }
    rewrite Ep3. cbn [rbind]. cbn [node_hash]. cbn [rbind].
    set (f3 := fset f2 (c ++ [ni]) (Some (v, NLeaf k vh))).
    set (M' := upd k (Some vh) M). set (ver' := newver v k M ver).
    pose proof (upd_wfm k (Some vh) M Hk Hw) as Hw'. fold M' in Hw'.
    pose proof (two_keys p k0 x0 k vh M Hsub Hkne) as HT.
    assert (forall q, p `prefix_of` q -> ver' q = v) as Hver'.
    { intros q Hq. destruct (ext_cases _ _ Hq) as [->|[i Hi]].
      - apply newver_key. etrans; [exact Hpc|done].
      - apply newver_dead. intros HL.
        assert (2 <= pcnt p M); [|lia].
        destruct HL as (_ & _ & [HL|HL]); [subst q; destruct Hi as [? Hi]; destruct p; done|].
        etrans; [exact HL|]. apply pcnt_mono. destruct Hi as [r ->]. rewrite <-app_assoc.
        destruct (unsnoc ([i] ++ r)) as [[r' z]|] eqn:Eu.
        + apply unsnoc_Some in Eu. rewrite Eu, app_assoc, removelast_last. by eexists.
        + exfalso. unfold unsnoc in Eu. cbn in Eu. destruct (rev r); done. }
    assert (subm (path_bits (c ++ [ni])) M' = {[k := vh]}) as Hsn.
    { apply (HT (c ++ [ni])); [done|done|]. intros X. apply Hheads. by eapply snoc_prefix_inj. }
    assert (subm (path_bits (c ++ [ei])) M' = {[k0 := x0]}) as Hse.
    { apply (HT (c ++ [ei])); [done| |done]. intros X. apply Hheads. by eapply snoc_prefix_inj. }
    assert (forall i, i <> ni -> i <> ei -> pcnt (c ++ [i]) M' = 0) as Hso.
    { intros i A B. apply cnt_0. apply (HT (c ++ [i])); [done| |].
      - intros X. apply A. by eapply snoc_prefix_inj.
      - intros X. apply B. by eapply snoc_prefix_inj. }
    assert (subm (path_bits c) M' = <[k := vh]> {[k0 := x0]}) as Hsc by by apply (HT c).
    assert (subm (path_bits p) M' = <[k := vh]> {[k0 := x0]}) as Hsp.
    { apply (HT p); [done| |]; by etrans. }
    assert (size (<[k := vh]> {[k0 := x0]} : gmap bytes bytes) = 2) as Hsz.
    { rewrite map_size_insert_None by by rewrite lookup_singleton_ne. by rewrite map_size_singleton. }
    assert (pcnt c M' = 2) as Hcc by (unfold cnt; by rewrite Hsc).
    assert (pcnt p M' = 2) as Hcp by (unfold cnt; by rewrite Hsp).
    pose proof (cnt_single _ _ _ _ Hsn) as Hcn. pose proof (cnt_single _ _ _ _ Hse) as Hce.
    assert (<[ni := Child (sm_leaf k vh) v TLeaf]> {[ei := Child (sm_leaf k0 x0) v TLeaf]}
            = children_of M' ver' c) as Ech.
    { apply map_eq. intros j. rewrite children_of_lookup.
      destruct (decide (j = ni)) as [->|Hj1].
      - rewrite lookup_insert, decide_False by lia. unfold JmtAbsProof.child_of.
        rewrite decide_True by done. rewrite (hashB_single _ _ _ _ _ _ _ Hsn), Hver' by done. done.
      - rewrite lookup_insert_ne by done. destruct (decide (j = ei)) as [->|Hj2].
        + rewrite lookup_singleton, decide_False by lia. unfold JmtAbsProof.child_of.
          rewrite decide_True by done. rewrite (hashB_single _ _ _ _ _ _ _ Hse), Hver' by done. done.
        + rewrite lookup_singleton_ne by done. by rewrite decide_True by by apply Hso. }
    rewrite Ech, inode_new_of by (done || lia). cbn [rbind].
    rewrite <-node_of_internal by lia.
    assert (forall i, c <> c ++ [i]) as Hcsnoc.
    { intros i X. by apply (snoc_not_prefix c i); rewrite <-X. }
    destruct (St_put v old tc3 f3 c (node_of M' ver' c) HS3) as (tc4 & Ep4 & HS4 & Hfr4).
    { unfold f3, f2. rewrite !fset_ne by done. by apply Hf1. }
    rewrite Ep4. cbn [rbind].
    set (f4 := fset f3 c (Some (v, node_of M' ver' c))) in *.
    destruct (chain_ok M' ver' p com Hw') with (tc := tc4) (f := f4)
      (nd := INode (children_of M' ver' c) (Some (N.of_nat (pcnt c M'))))
      as (nd' & tc5 & E5 & Hnd' & Hfr5 & f5 & HS5 & Hf5).
    { intros q A B. by apply Hver'. }
    { fold c. congruence. }
    { lia. } { done. }
    { intros q A B C. unfold f4, f3, f2. rewrite !fset_ne; [by apply Hf1| | |done].
      - intros ->. by eapply snoc_not_prefix.
      - intros ->. by eapply snoc_not_prefix. }
    { symmetry. apply node_of_internal. lia. }
    fold c in E5. rewrite Hcom in E5. rewrite E5. cbn [rbind].
    eexists _, _. split; [done|]. split.
    { repeat (eapply frame_trans; [eassumption|]). apply frame_refl. }
    right. split; [naive_solver|]. split.
    { unfold result. fold M' ver'. rewrite decide_False by lia. by rewrite Hnd'. }
    exists f5. split; [done|]. fold M' ver' c in Hf5 |- *. split.
    + intros q Hq. rewrite Hf5. unfold JmtCacheProof.tr.
      destruct (decide (p `prefix_of` q /\ q `prefix_of` c /\ q <> c)) as [(A & B & C)|Hn'].
      { rewrite decide_True; [by rewrite Hver'|]. split_and!; [done| |].
        - pose proof (pcnt_mono q c M' B). lia.
        - destruct (ext_cases _ _ A) as [->|[i Hi]]; [by left|right].
          rewrite <-Hcc. apply pcnt_mono. etrans; [|exact B].
          destruct q as [|a q _] using rev_ind; [done|]. rewrite removelast_last. apply prefix_snoc_self. }
      unfold f4, f3, f2. destruct (decide (q = c)) as [->|Hqc].
      { rewrite fset_eq. rewrite decide_True; [by rewrite Hver'|]. split_and!; [done|lia|].
        destruct (ext_cases _ _ Hq) as [->|[i Hi]]; [by left|right].
        rewrite <-Hcc. apply pcnt_mono.
        clear -Hi. destruct c as [|a q _] using rev_ind; [done|]. rewrite removelast_last. apply prefix_snoc_self. }
      rewrite (fset_ne _ c) by done. destruct (decide (q = c ++ [ni])) as [->|Hqn].
      { rewrite fset_eq. rewrite decide_True.
        - rewrite Hver' by done. by rewrite (node_of_leaf _ _ _ _ _ _ Hsn).
        - split_and!; [done|lia|]. right. rewrite removelast_last. lia. }
      rewrite (fset_ne _ (c ++ [ni])) by done. destruct (decide (q = c ++ [ei])) as [->|Hqe].
      { rewrite fset_eq. rewrite decide_True.
        - rewrite Hver' by done. by rewrite (node_of_leaf _ _ _ _ _ _ Hse).
        - split_and!; [done|lia|]. right. rewrite removelast_last. lia. }
      rewrite (fset_ne _ (c ++ [ei])) by done. rewrite Hf1 by done.
      rewrite decide_False; [done|]. intros (_ & A & B).
      assert (q <> p) as Hqp.
      { intros ->. apply Hn'. split_and!; done. }
      destruct B as [?|B]; [done|].
      destruct q as [|i q _] using rev_ind; [by destruct Hq as [? ?]; destruct p|].
      rewrite removelast_last in B.
      assert (p `prefix_of` q) as Hpq.
      { destruct (ext_cases _ _ Hq) as [X|[j Hj]]; [done|].
        destruct Hq as [r Er]. destruct r as [|z r _] using rev_ind; [rewrite app_nil_r in Er; done|].
        rewrite app_assoc in Er. apply app_inj_tail in Er as [-> _]. by eexists. }
      assert (q `prefix_of` nibs k /\ q `prefix_of` nibs k0) as [Q1 Q2].
      { destruct (HT q Hpq) as (_ & T2 & T3 & T4). fold M' in T2, T3, T4.
        destruct (decide (q `prefix_of` nibs k)) as [|X], (decide (q `prefix_of` nibs k0)) as [|Y]; [done|..].
        - apply T2 in Y; [|done]. apply cnt_single in Y. change (pcnt q M' = 1) in Y. lia.
        - apply T3 in X; [|done]. apply cnt_single in X. change (pcnt q M' = 1) in X. lia.
        - apply (T4 X) in Y. apply cnt_0 in Y. change (pcnt q M' = 0) in Y. lia. }
      assert (q `prefix_of` c) as Qc.
      { destruct (prefix_antisym_cases q c (nibs k) Q1 Hck) as [|X]; [done|].
        destruct (ext_cases _ _ X) as [->|[j Hj]]; [done|]. exfalso. apply Hheads.
        transitivity j.
        - eapply snoc_prefix_inj; [exact Hnk|]. by etrans.
        - eapply snoc_prefix_inj; [|exact Hek]. by etrans. }
      destruct (decide (q = c)) as [->|Hqc'].
      * assert (i <> ni) by congruence. assert (i <> ei) by congruence.
        rewrite Hso in A by done. lia.
      * destruct (ext_cases _ _ Qc) as [X|[j Hj]]; [congruence|].
        destruct (decide (i = j)) as [->|Hij].
        { apply Hn'. split_and!; [done|done|]. done. }
        assert (subm (path_bits (q ++ [i])) M' = ∅) as X.
        { apply (HT (q ++ [i])); [done| |].
          - intros X. apply Hij. eapply snoc_prefix_inj; [exact X|]. by etrans.
          - intros X. apply Hij. eapply snoc_prefix_inj; [exact X|]. by etrans. }
        apply cnt_0 in X. lia.
    + intros q Hq. rewrite Hf5, decide_False by naive_solver. unfold f4, f3, f2, f1.
      rewrite !fset_ne; [done|..]; intros ->; apply Hq; done.
Qed.

Lemma list_one M ver p : wfm M -> length p < 64 -> pcnt p M = 1 ->
  exists j, children_list sha M ver p = [(j, child_of M ver (p ++ [j]))] /\
    child_is_leaf (child_of M ver (p ++ [j])) = true /\
    subm (path_bits (p ++ [j])) M = subm (path_bits p) M.
Proof.
  intros Hw Hl H1. assert (single_leaf (kids (children_of M ver p) []) = true) as Hs.
  { apply kids_single; [done..|cbn; lia|by rewrite app_nil_r]. }
  rewrite children_list_kids. destruct (kids (children_of M ver p) []) as [|[j c] [|b l]] eqn:K; [done| |done].
  assert ((j, c) ∈ kids (children_of M ver p) []) as Hin by (rewrite K; left).
  apply kids_of_elem in Hin as (_ & -> & _). exists j. split_and!; [done|done|].
  apply kids_one in K; [|done..|cbn; lia]. by rewrite app_nil_r in K.
Qed.
Lemma list_many M ver p {A} (a : A) (g : nib -> child -> A) (b : A) : wfm M -> length p < 64 -> 2 <= pcnt p M ->
  match children_list sha M ver p with
  | [] => a
  | [(j, c)] => if child_is_leaf c then g j c else b
  | _ => b
  end = b.
Proof.
  intros Hw Hl H2. rewrite children_list_kids.
  destruct (kids (children_of M ver p) []) as [|[j c] [|b' l]] eqn:K; [| |done].
  - apply kids_nil in K; [|done..|cbn; lia]. rewrite app_nil_r in K. lia.
  - destruct (child_is_leaf c) eqn:Hc; [|done]. exfalso.
    assert (single_leaf (kids (children_of M ver p) []) = true) as Hs by by rewrite K.
    apply kids_single in Hs; [|done..|cbn; lia]. rewrite app_nil_r in Hs. lia.
Qed.

Lemma finish_ok p i k value M ver tc f r tc1 :
  wfm M -> length k = 32 -> p ++ [i] `prefix_of` nibs k -> live [] M p -> 2 <= pcnt p M ->
  (forall q, p `prefix_of` q -> f q = tr p M ver q) ->
  wrote (p ++ [i]) k value M ver tc f r tc1 ->
  exists r' tc', finish_internal sha (ver p, p)
      (INode (children_of M ver p) (Some (N.of_nat (pcnt p M)))) i v r tc1 = Ok (r', tc') /\
    wrote p k value M ver tc f r' tc'.
Proof.
  intros Hw Hk Hpi Hlive H2 Hf [Hfr [(-> & HMk & -> & ->)|(Hch & Hr & f' & HS & Hf1 & Hf2)]].
  { exists NotChanged, tc. split; [done|]. split; [done|]. by left. }
  pose proof (pcnt_short M p Hw H2) as Hpl.
  set (M' := upd k value M) in *. set (ver' := newver v k M ver) in *.
  pose proof (upd_wfm k value M Hk Hw) as Hw'. fold M' in Hw'.
  assert (p `prefix_of` nibs k) as Hpk by (etrans; [apply prefix_snoc_self|done]).
  assert (forall j, j <> i -> ~ p ++ [j] `prefix_of` nibs k) as Hoff.
  { intros j Hj X. apply Hj. by eapply snoc_prefix_inj. }
  assert (forall j, 0 < pcnt (p ++ [j]) M -> live [] M (p ++ [j])) as Hlj.
  { intros j Hj. eapply live_trans; [done|]. apply (live_child p M j (p ++ [j])); [done|].
    split; [done|]. by apply live_self. }
  (* the children map *)
  assert (match r with
          | Updated _ nd => rbind (node_hash sha nd) (fun h => rbind (node_type nd) (fun t =>
              Ok (<[i := Child h v t]> (children_of M ver p))))
          | _ => Ok (delete i (children_of M ver p))
          end = Ok (children_of M' ver' p)) as Ecs.
  { assert (forall j, j <> i -> children_of M ver p !! j = children_of M' ver' p !! j) as Hj.
    { intros j Hj. rewrite !children_of_lookup.
      pose proof (upd_out k value M (p ++ [j]) (Hoff j Hj)) as Es. fold M' in Es.
      rewrite (pcnt_ext _ _ _ Es). case_decide as Hz; [done|]. f_equal.
      apply child_of_ext; [done|]. unfold ver', newver. rewrite decide_False by by apply Hoff.
      rewrite decide_True; [done|]. apply Hlj. lia. }
    rewrite Hr. unfold result. case_decide as Hz.
    - f_equal. apply map_eq. intros j. destruct (decide (j = i)) as [->|Hji].
      + rewrite lookup_delete, children_of_lookup. by rewrite decide_True.
      + rewrite lookup_delete_ne by done. by apply Hj.
    - rewrite node_of_hash by done. cbn [rbind]. rewrite node_of_type by done. cbn [rbind].
      f_equal. apply map_eq. intros j. destruct (decide (j = i)) as [->|Hji].
      + rewrite lookup_insert, children_of_lookup, (decide_False (P := pcnt (p ++ [i]) M' = 0)) by done.
        unfold JmtAbsProof.child_of. unfold ver'. by rewrite newver_key.
      + rewrite lookup_insert_ne by done. by apply Hj. }
  unfold finish_internal. cbn [in_children].
  assert (forall A (x y : A), match r with NotChanged => x | _ => y end = y) as Hrm.
  { intros. rewrite Hr. unfold result. by case_decide. }
  rewrite Hrm, Ecs. clear Hrm. cbn [rbind].
  assert (~ p ++ [i] `prefix_of` p) as Hnp by apply snoc_not_prefix.
  assert (f' p = Some (ver p, node_of M ver p)) as Hfp.
  { rewrite Hf2, Hf by done. apply tr_self. lia. }
  destruct (St_delete v old tc1 f' p (ver p) _ HS Hfp) as (tc2 & Ed & HS2 & Hfr2).
  rewrite node_of_is_leaf, bool_decide_false in Ed by lia. rewrite Ed. cbn [rbind]. clear Ed.
  set (f2 := fset f' p None) in *.
  assert (forall j q, p ++ [j] `prefix_of` q -> f2 q = tr (p ++ [j]) M' ver' q) as Hfj.
  { intros j q Hq. assert (q <> p) as Hqp by (intros ->; by eapply snoc_not_prefix).
    unfold f2. rewrite fset_ne by done. destruct (decide (j = i)) as [->|Hji].
    - by apply Hf1.
    - rewrite Hf2, Hf.
      + rewrite (tr_child sha p M ver j q H2 Hq).
        destruct (decide (pcnt (p ++ [j]) M = 0)) as [Hz|Hz].
        * rewrite (tr_zero sha (p ++ [j]) M ver q Hz Hq).
          rewrite (tr_zero sha (p ++ [j]) M' ver' q); [done| |done]. rewrite <-Hz. apply pcnt_ext. unfold M'. by rewrite upd_out by by apply Hoff.
        * symmetry. apply tr_frame; [by apply Hoff|apply Hlj; lia|done].
      + etrans; [apply prefix_snoc_self|done].
      + intros X. apply Hji. by eapply snoc_prefix_inj. }
  assert (0 < pcnt p M') as Hpos.
  { destruct (cnt_ge2_inv (path_bits p) M k H2) as (k2 & x2 & Hne & Hk2 & Hp2).
    apply (cnt_pos _ _ k2 x2); [|done]. unfold M'. by rewrite upd_lookup_ne. }
  assert (forall q, ~ p `prefix_of` q -> f2 q = f q) as Hout.
  { intros q Hq. unfold f2. rewrite fset_ne by (intros ->; done). apply Hf2.
    intros X. apply Hq. etrans; [apply prefix_snoc_self|done]. }
  rewrite children_sorted_of. cbn [snd].
  assert (result M' ver' p = Updated (v, p) (node_of M' ver' p)) as Hres.
  { unfold result. by rewrite decide_False by lia. }
  assert (ver' p = v) as Hvp by by apply newver_key.
  destruct (decide (pcnt p M' = 1)) as [H1'|H1'].
  - destruct (list_one M' ver' p Hw' Hpl H1') as (j & El & Hlf & Hsj). rewrite El, Hlf.
    assert (pcnt (p ++ [j]) M' = 1) as Hcj by (unfold cnt in H1' |- *; by rewrite Hsj).
    assert (node_of M' ver' p = node_of M' ver' (p ++ [j])) as Hndj.
    { destruct (cnt_1 _ _ H1') as (k1 & x1 & E1). rewrite (node_of_leaf _ _ _ _ _ _ E1).
      rewrite <-Hsj in E1. by rewrite (node_of_leaf _ _ _ _ _ _ E1). }
    assert (f2 (p ++ [j]) = Some (ver' (p ++ [j]), node_of M' ver' (p ++ [j]))) as Hf2j.
    { rewrite (Hfj j) by done. apply tr_self. lia. }
    unfold child_key. cbn [snd child_of c_ver JmtAbsProof.child_of].
    unfold tc_get. rewrite (St_get v old _ _ _ _ _ HS2 Hf2j). cbn [rbind].
    destruct (St_delete v old tc2 f2 (p ++ [j]) _ _ HS2 Hf2j) as (tc3 & Ed & HS3 & Hfr3).
    rewrite node_of_is_leaf, bool_decide_true in Ed by done. rewrite Ed. cbn [rbind].
    assert (p <> p ++ [j]) as Hpj.
    { intros X. by apply (snoc_not_prefix p j); rewrite <-X. }
    destruct (St_put v old tc3 (fset f2 (p ++ [j]) None) p (node_of M' ver' (p ++ [j])) HS3)
      as (tc4 & Ep & HS4 & Hfr4).
    { rewrite fset_ne by done. apply fset_eq. }
    rewrite Ep. cbn [rbind]. eexists _, _. split; [done|]. split.
    { repeat (eapply frame_trans; [eassumption|]). apply frame_refl. }
    right. split; [done|]. split; [fold M' ver'; by rewrite Hres, Hndj|].
    eexists. split; [exact HS4|]. fold M' ver'. split.
    + intros q Hq. destruct (ext_cases _ _ Hq) as [->|[j' Hj']].
      * rewrite fset_eq, tr_self by done. by rewrite Hvp, Hndj.
      * rewrite (tr_small sha p M' ver' j') by (done || lia).
        rewrite fset_ne by (intros ->; by eapply snoc_not_prefix).
        destruct (decide (q = p ++ [j])) as [->|Hqj]; [apply fset_eq|].
        rewrite fset_ne by done. rewrite (Hfj j') by done.
        destruct (ext_cases _ _ Hj') as [->|[j'' Hj'']].
        -- apply tr_zero; [|done]. destruct (decide (pcnt (p ++ [j']) M' = 0)) as [|Hnz]; [done|exfalso].
           destruct (cnt_pos_inv (path_bits (p ++ [j'])) M') as (k1 & x1 & Hk1 & Hp1); [lia|].
           rewrite key_bits_nibs, path_bits_prefix in Hp1.
           assert (subm (path_bits p) M' !! k1 = Some x1) as X.
           { apply psub_Some. split; [done|]. etrans; [apply prefix_snoc_self|done]. }
           rewrite <-Hsj in X. apply psub_Some in X as [_ X].
           pose proof (snoc_prefix_inj _ _ _ _ X Hp1). congruence.
        -- apply (tr_small sha (p ++ [j']) M' ver' j''); [|done].
           pose proof (pcnt_mono p (p ++ [j']) M' (prefix_snoc_self p j')). lia.
    + intros q Hq. rewrite !fset_ne; [by apply Hout|..]; intros ->; apply Hq; [apply prefix_snoc_self|done].
  - rewrite list_many by (done || lia). rewrite inode_new_of by (done || lia). cbn [rbind].
    rewrite <-node_of_internal by lia.
    destruct (St_put v old tc2 f2 p (node_of M' ver' p) HS2) as (tc3 & Ep & HS3 & Hfr3).
    { apply fset_eq. }
    rewrite Ep. cbn [rbind]. eexists _, _. split; [done|]. split.
    { repeat (eapply frame_trans; [eassumption|]). apply frame_refl. }
    right. split; [done|]. split; [fold M' ver'; by rewrite Hres|].
    eexists. split; [exact HS3|]. fold M' ver'. split.
    + intros q Hq. destruct (ext_cases _ _ Hq) as [->|[j' Hj']].
      * rewrite fset_eq, tr_self by done. by rewrite Hvp.
      * rewrite fset_ne by (intros ->; by eapply snoc_not_prefix).
        rewrite (Hfj j') by done. symmetry. apply tr_child; [lia|done].
    + intros q Hq. rewrite fset_ne by (intros ->; done). by apply Hout.
Qed.

Lemma insert_at_ok rest p k value M ver tc f :
  wfm M -> length k = 32 -> nibs k = p ++ rest -> live [] M p ->
  St tc f -> (forall q, p `prefix_of` q -> f q = tr p M ver q) ->
  exists r tc', insert_at sha rest (ver p, p) v p value tc = Ok (r, tc') /\
    wrote p k value M ver tc f r tc'.
Proof.
  revert p tc f. induction rest as [|i rest IH]; intros p tc f Hw Hk Hkn Hlive HS Hf.
  - cbn [insert_at]. pose proof (live_pos _ _ _ Hlive) as Hpos.
    assert (f p = Some (ver p, node_of M ver p)) as Hfp by (rewrite Hf by done; by apply tr_self).
    rewrite (St_get v old _ _ _ _ _ HS Hfp).
    assert (pcnt p M = 1) as H1.
    { pose proof (cnt_deep (path_bits p) M Hw) as Hd. rewrite path_bits_length in Hd.
      pose proof (nibs_length k) as L. rewrite Hkn, app_nil_r in L. lia. }
    destruct (cnt_1 _ _ H1) as (k0 & x0 & E0). rewrite (node_of_leaf _ _ _ _ _ _ E0).
    by apply (insert_at_leaf_ok p []).
  - cbn [insert_at]. pose proof (live_pos _ _ _ Hlive) as Hpos.
    assert (f p = Some (ver p, node_of M ver p)) as Hfp by (rewrite Hf by done; by apply tr_self).
    rewrite (St_get v old _ _ _ _ _ HS Hfp).
    destruct (decide (pcnt p M = 1)) as [H1|H1].
    { destruct (cnt_1 _ _ H1) as (k0 & x0 & E0). rewrite (node_of_leaf _ _ _ _ _ _ E0).
      by apply (insert_at_leaf_ok p (i :: rest)). }
    rewrite node_of_internal by lia. cbn [in_children].
    rewrite children_of_lookup. unfold child_key. cbn [snd].
    assert (p ++ [i] `prefix_of` nibs k) as Hpi by (rewrite Hkn; exists rest; by rewrite <-app_assoc).
    assert (forall q, p ++ [i] `prefix_of` q -> f q = tr (p ++ [i]) M ver q) as Hfi.
    { intros q Hq. rewrite Hf; [|by (etrans; [apply prefix_snoc_self|done])]. apply tr_child; [lia|done]. }
    assert (exists r tc1,
      (if decide (pcnt (p ++ [i]) M = 0) then
         match value with
         | Some vh => rbind (create_leaf (v, p ++ [i]) (p ++ [i]) rest vh tc)
             (fun '(nk', nd, tc) => Ok (Updated nk' nd, tc))
         | None => Ok (NotChanged, tc)
         end
       else insert_at sha rest (ver (p ++ [i]), p ++ [i]) v (p ++ [i]) value tc) = Ok (r, tc1) /\
      wrote (p ++ [i]) k value M ver tc f r tc1) as (r & tc1 & E1 & HW1).
    { case_decide as Hz.
      - assert (M !! k = None) as HMk.
        { destruct (M !! k) as [y|] eqn:Hy; [|done]. pose proof (pcnt_key _ _ _ _ Hy Hpi). lia. }
        destruct value as [vh|]; [|by exists NotChanged, tc; (split; [|split; [|left]])].
        rewrite (create_leaf_ok k) by (rewrite <-?app_assoc; done).
        destruct (St_put v old tc f (p ++ [i]) (NLeaf k vh) HS) as (tc1 & Ep & HS1 & Hfr1).
        { rewrite Hfi by done. by apply tr_zero. }
        rewrite Ep. cbn [rbind]. eexists _, _. split; [done|]. split; [done|]. right.
        assert (subm (path_bits (p ++ [i])) (upd k (Some vh) M) = {[k := vh]}) as Hs'.
        { apply map_eq. intros k'. apply option_eq. intros y. rewrite psub_Some. cbn [upd].
          rewrite lookup_insert_Some, lookup_singleton_Some. split; [|naive_solver].
          intros [[?|[? Hy]] ?]; [done|]. pose proof (pcnt_key (p ++ [i]) M k' y Hy). exfalso.
          assert (0 < pcnt (p ++ [i]) M) by by apply H2. lia. }
        pose proof (cnt_single _ _ _ _ Hs') as Hc'.
        split; [naive_solver|]. split.
        { unfold result. rewrite decide_False by lia. by rewrite (node_of_leaf _ _ _ _ _ _ Hs'). }
        eexists. split; [exact HS1|]. split.
        + intros q Hq. destruct (ext_cases _ _ Hq) as [->|[j Hj]].
          * rewrite fset_eq, tr_self by lia. rewrite (node_of_leaf _ _ _ _ _ _ Hs'). by rewrite newver_key.
          * rewrite fset_ne by (intros ->; by eapply snoc_not_prefix).
            rewrite (tr_small sha (p ++ [i]) _ _ j) by (done || lia).
            rewrite Hfi by done. by apply tr_zero.
        + intros q Hq. rewrite fset_ne; [done|]. intros ->. by apply Hq.
      - apply IH; [done|done|by rewrite <-app_assoc| |done|done].
        eapply live_trans; [done|]. apply (live_child p M i (p ++ [i])); [done|].
        split; [lia|]. apply live_self. lia. }
    assert (forall (X : res jerr (put_result * cache)),
      (if decide (pcnt (p ++ [i]) M = 0) then
         match value with
         | Some vh => rbind (create_leaf (v, p ++ [i]) (p ++ [i]) rest vh tc)
             (fun '(nk', nd, tc) => Ok (Updated nk' nd, tc))
         | None => Ok (NotChanged, tc)
         end
       else insert_at sha rest (ver (p ++ [i]), p ++ [i]) v (p ++ [i]) value tc) = X ->
      match (if decide (pcnt (p ++ [i]) M = 0) then None else Some (child_of M ver (p ++ [i]))) with
      | Some c => insert_at sha rest (c_ver c, p ++ [i]) v (p ++ [i]) value tc
      | None =>
         match value with
         | Some vh => rbind (create_leaf (v, p ++ [i]) (p ++ [i]) rest vh tc)
             (fun '(nk', nd, tc) => Ok (Updated nk' nd, tc))
         | None => Ok (NotChanged, tc)
         end
      end = X) as Hshape.
    { intros X. case_decide; done. }
    rewrite (Hshape _ E1). cbn [rbind].
    apply (finish_ok p i k value M ver tc f r tc1); [done|done|done|done|lia|done|exact HW1].
Qed.
End Insert.
