(** Removal on partially loaded tries. *)
From Verif Require Import Base PmtNibblesModel RlpModel PmtModel PmtNibblesProof RlpProof PmtSpec
  PmtEncProof PmtLookupProof PmtOpsProof.
Open Scope res_scope.

Lemma used_from_length i cs : length (used_from i cs) = occupied cs.
Proof.
  revert i. induction cs as [|c cs IH]; intros i; cbn [used_from occupied]; [done|].
  destruct (is_empty_node c); cbn [length]; rewrite IH; lia.
Qed.
Lemma used_from_single i cs j : used_from i cs = [j] ->
  i <= j /\ (exists c, cs !! (j - i) = Some c /\ c <> NEmpty) /\
  (forall k c, cs !! k = Some c -> k <> j - i -> c = NEmpty).
Proof.
  revert i. induction cs as [|c cs IH]; intros i E; cbn [used_from] in E; [done|].
  destruct (is_empty_node c) eqn:Ec.
  - destruct (IH _ E) as (Hij & (a & Ha & Hne) & Hall). apply empty_dec in Ec as ->.
    replace (j - i) with (S (j - S i)) by lia. split_and!; [lia|by exists a|].
    intros [|k] b Hk Hkj; cbn in Hk; [congruence|]. eapply Hall; eauto. 
  - injection E as <- E. rewrite Nat.sub_diag. split_and!; [lia| |].
    + exists c. split; [done|]. intros ->. done.
    + intros [|k] b Hk Hkj; [done|]. cbn in Hk.
      assert (occupied cs = 0) as Ho by (rewrite <- (used_from_length (S i)), E; done).
      destruct (is_empty_node b) eqn:Eb; [by apply empty_dec in Eb|].
      assert (Hb : b <> NEmpty) by (by intros ->).
      pose proof (occ_pos _ _ _ Hk Hb). lia.
Qed.
Lemma used_from_nil i cs : used_from i cs = [] -> forall k c, cs !! k = Some c -> c = NEmpty.
Proof.
  intros E k c Hk. destruct (is_empty_node c) eqn:Ec; [by apply empty_dec in Ec|].
  assert (Hc : c <> NEmpty) by (by intros ->).
  pose proof (occ_pos _ _ _ Hk Hc) as Ho. rewrite <- (used_from_length i), E in Ho. cbn in Ho. lia.
Qed.
Lemma lk_all_empty ts v : (forall k c, ts !! k = Some c -> c = NEmpty) ->
  forall q, tpath q -> lk (NBranch ts v) q = if decide (q = [16]) then v else None.
Proof.
  intros Hall q Hq. destruct q as [|y q]; [by apply tpath_nil in Hq|].
  apply tpath_cons in Hq as [[-> ->]|[Hy Hq]].
  - by rewrite decide_True, lk_branch_end.
  - rewrite decide_False by (intros [=]; lia). rewrite lk_branch.
    destruct (Nat.eqb_spec y 16); [lia|]. destruct (ts !! y) eqn:E; [|done].
    by rewrite (Hall _ _ E).
Qed.

(** No binding strictly below the path [p]. *)
Definition no_longer (t : node) (p : hex) : Prop :=
  forall b x q, p = b ++ [16] -> x < 16 -> tpath q -> lk t (b ++ x :: q) = None.

Lemma no_longer_ext p t r : no_longer (NExt p t) (p ++ r) -> no_longer t r.
Proof.
  intros H b x q -> Hx Hq. specialize (H (p ++ b) x q). rewrite app_assoc in H.
  specialize (H eq_refl Hx Hq). by rewrite <- app_assoc, lk_ext_app in H.
Qed.
Lemma no_longer_child ts w x r c : x < 16 -> ts !! x = Some c ->
  no_longer (NBranch ts w) (x :: r) -> no_longer c r.
Proof.
  intros Hx Hc H b y q -> Hy Hq. specialize (H (x :: b) y q eq_refl Hy Hq).
  cbn [app] in H. rewrite lk_branch, Hc in H. destruct (Nat.eqb_spec x 16); [lia|done].
Qed.

(** Bindings strictly below the path [p], not all in the same direction. *)
Definition forked (t : node) (p : hex) : Prop :=
  exists b x y q r, p = b ++ [16] /\ x < 16 /\ y < 16 /\ x <> y /\ tpath q /\ tpath r /\
    lk t (b ++ x :: q) <> None /\ lk t (b ++ y :: r) <> None.
(** Removing the binding at [p] leaves no branch with one child. *)
Definition fine (t : node) (p : hex) : Prop := lk t p <> None -> no_longer t p \/ forked t p.

Lemma end_split (p r b : hex) : tpath r -> p ++ r = b ++ [16] -> exists b', b = p ++ b' /\ r = b' ++ [16].
Proof.
  intros (b' & _ & ->) E. rewrite app_assoc in E. apply app_inv_tail in E as <-. by exists b'.
Qed.
Lemma forked_ext p t r : tpath r -> forked (NExt p t) (p ++ r) <-> forked t r.
Proof.
  intros Hr. split.
  - intros (b & x & y & q & r' & E & H). destruct (end_split _ _ _ Hr E) as (b' & -> & ->).
    exists b', x, y, q, r'. by rewrite <- !app_assoc, !lk_ext_app in H.
  - intros (b & x & y & q & r' & -> & H). exists (p ++ b), x, y, q, r'.
    by rewrite <- !app_assoc, !lk_ext_app.
Qed.
Lemma lk_child ts w x r c : x < 16 -> ts !! x = Some c -> lk (NBranch ts w) (x :: r) = lk c r.
Proof. intros Hx Hc. rewrite lk_branch, Hc. by destruct (Nat.eqb_spec x 16); [lia|]. Qed.
Lemma forked_child ts w x r c : x < 16 -> ts !! x = Some c -> tpath r ->
  forked (NBranch ts w) (x :: r) <-> forked c r.
Proof.
  intros Hx Hc Hr. split.
  - intros (b & y & z & q & r' & E & H). change (x :: r) with ([x] ++ r) in E.
    destruct (end_split _ _ _ Hr E) as (b' & -> & ->).
    exists b', y, z, q, r'. cbn [app] in H. by rewrite !(lk_child _ _ _ _ _ Hx Hc) in H.
  - intros (b & y & z & q & r' & -> & H). exists (x :: b), y, z, q, r'.
    cbn [app]. by rewrite !(lk_child _ _ _ _ _ Hx Hc).
Qed.
Lemma fine_ext p t r : tpath r -> fine (NExt p t) (p ++ r) -> fine t r.
Proof.
  intros Hr H. unfold fine in *. rewrite lk_ext_app in H. intros Hl. destruct (H Hl) as [Hn|Hf].
  - left. by eapply no_longer_ext.
  - right. by eapply forked_ext.
Qed.
Lemma fine_child ts w x r c : x < 16 -> ts !! x = Some c -> tpath r ->
  fine (NBranch ts w) (x :: r) -> fine c r.
Proof.
  intros Hx Hc Hr H. unfold fine in *. rewrite (lk_child _ _ _ _ _ Hx Hc) in H. intros Hl. destruct (H Hl) as [Hn|Hf].
  - left. by eapply no_longer_child.
  - right. by eapply forked_child.
Qed.
Lemma not_forked_empty p : ~ forked NEmpty p.
Proof. by intros (b & x & y & q & r & _ & _ & _ & _ & _ & _ & H & _). Qed.
Lemma not_forked_leaf k v p : ~ forked (NLeaf k v) p.
Proof.
  intros (b & x & y & q & r & _ & _ & _ & Hne & _ & _ & H1 & H2). rewrite lk_leaf in H1, H2.
  case_decide as E1; [|done]. case_decide as E2; [|done]. rewrite E1 in E2.
  apply app_inv_head in E2. by injection E2.
Qed.
Lemma forked_ext_prefix p t r : forked (NExt p t) r -> exists r', r = p ++ r'.
Proof.
  intros (b & x & y & q & r' & -> & _ & _ & Hne & _ & _ & H1 & H2).
  assert (forall l, lk (NExt p t) l <> None -> p `prefix_of` l) as Hp.
  { intros l Hl. destruct (decide (p `prefix_of` l)) as [|Hn]; [done|]. destruct Hl. apply lk_ext_None.
    intros l' ->. apply Hn. by exists l'. }
  apply Hp in H1, H2. destruct (prefix_weak_total p b (b ++ x :: q) H1 ltac:(by eexists)) as [[z ->]|[z ->]].
  - exists (z ++ [16]). by rewrite app_assoc.
  - destruct z as [|c z]; [exists [16]; by rewrite app_nil_r|].
    destruct H1 as [l1 E1], H2 as [l2 E2]. rewrite <- app_assoc in E1, E2.
    apply app_inv_head in E1, E2. injection E1 as -> _. injection E2 as -> _. done.
Qed.
Lemma forked_branch V L ts w : wf true V L (NBranch ts w) -> forked (NBranch ts w) [16] <-> 2 <= occupied ts.
Proof.
  intros Hw. assert (Forall (wf true V (Nat.pred L)) ts /\ length ts = 16) as [H3 Hlen].
  { inversion Hw; subst. done. }
  rewrite Forall_lookup in H3. split.
  - intros (b & x & y & q & r & E & Hx & Hy & Hne & _ & _ & H1 & H2). destruct b as [|? [|? ?]]; [|done..].
    cbn [app] in H1, H2. rewrite lk_branch in H1, H2.
    destruct (Nat.eqb_spec x 16), (Nat.eqb_spec y 16); [lia..|].
    destruct (ts !! x) as [c1|] eqn:E1; [|done]. destruct (ts !! y) as [c2|] eqn:E2; [|done].
    assert (c1 <> NEmpty) by (by intros ->). assert (Hc2 : c2 <> NEmpty) by (by intros ->).
    pose proof (occ_insert ts x NEmpty c1 E1) as Ho.
    assert (E2' : <[x := NEmpty]> ts !! y = Some c2) by (by rewrite list_lookup_insert_ne).
    pose proof (occ_pos _ _ _ E2' Hc2). destruct (is_empty_node c1) eqn:Ee; [by apply empty_dec in Ee|].
    cbn in Ho. lia.
  - intros H. destruct (occ_ge2 ts H) as (i & j & c1 & c2 & Hne & Hi & H1 & Hj & H2').
    apply lookup_lt_Some in Hi as Hli. apply lookup_lt_Some in Hj as Hlj.
    destruct (wf_nonempty _ _ _ (H3 _ _ Hi) H1) as (q & Hq & Hlq).
    destruct (wf_nonempty _ _ _ (H3 _ _ Hj) H2') as (r & Hr & Hlr).
    exists [], i, j, q, r. cbn [app]. split_and!; try done; try lia.
    + rewrite (lk_child _ _ i q c1); [done|lia|done].
    + rewrite (lk_child _ _ j r c2); [done|lia|done].
Qed.

Section hash.
  Context (keccak : bytes -> bytes) (Hk : forall x, length (keccak x) = 32).
  Context (B : nat) (HB : (N.of_nat B < 2 ^ 60)%N).
  Context (C : bool) (d : db).
  Notation enc := (enc keccak).
  Notation collapse := (collapse keccak).
  Notation cref := (cref keccak).
  Notation repr := (repr keccak C d).
  Notation rrepr := (rrepr keccak C d).
  Notation stored := (stored keccak C d).
  Notation long := (long keccak).
  Notation miss := (miss C d).
  Hint Resolve recover_none : core.

  Lemma repr_is_empty n t : repr n t -> is_empty_node n = is_empty_node t.
  Proof.
    inversion 1; subst; try done. destruct t; try done. unfold PmtSpec.long in *. cbn in *. lia.
  Qed.
  Lemma repr_used i ns ts : Forall2 repr ns ts -> used_from i ns = used_from i ts.
  Proof.
    intros H. revert i. induction H as [|n t ns ts Hn _ IH]; intros i; [done|].
    cbn [used_from]. rewrite (repr_is_empty _ _ Hn), IH. done.
  Qed.

  Definition same_content (t t' : node) : Prop := forall q, tpath q -> lk t' q = lk t q.

  (** Outcome of [degenerate]: the same contents in a well-formed trie. *)
  Definition degen_ok (c : bool) (L : nat) (t : node) (x : upd node) : Prop :=
    (exists pk' n' t', x = (pk', Ok n') /\ repr n' t' /\ wf c B L t' /\ same_content t t' /\ t' <> NEmpty)
    \/ miss x.2.

  Lemma degen_ext_branch fuel rh pk p n s c L :
    repr n s -> wf c B L s -> L <= B -> is_branch s -> p <> [] -> nibs p -> 2 <= fuel ->
    degen_ok c (length p + L) (NExt p s) (degenerate fuel d rh pk (NExt p n)).
  Proof.
    intros Hr Hw HL Hb Hp Hn Hf.
    assert (Hwx : wf c B (length p + L) (NExt p s)) by (by constructor).
    destruct fuel as [|fuel]; [lia|]. cbn [degenerate].
    assert (Hr0 : rrepr n s) by (by left).
    destruct (rrepr_resolve keccak Hk B HB C d n c L s Hr0 Hw HL)
      as [[Hr' Hnh]|(h & -> & [[Hrec Hr']|[-> Hrec]])].
    - destruct s; try done. inversion Hr'; subst; [|by edestruct Hnh].
      left. eexists _, _, _. split; [reflexivity|]. split; [by constructor|]. split_and!; try done.
    - rewrite Hrec. cbn [ubind]. destruct s; try done.
      destruct fuel as [|fuel]; [lia|]. cbn [degenerate PmtSpec.collapse].
      left. eexists _, _, _. split; [reflexivity|]. split; [by constructor|]. split_and!; try done.
    - rewrite Hrec. cbn. right. split; [done|]. cbn. eauto 10.
  Qed.

  Lemma wf_join_leaf c L p k v : nibs p -> wf c B L (NLeaf k v) -> wf c B (length p + L) (NLeaf (p ++ k) v).
  Proof.
    intros Hn Hw. inversion Hw; subst. rewrite app_assoc. constructor; auto.
    - by apply Forall_app.
    - rewrite app_length. lia.
  Qed.

  Lemma degen_ext fuel rh pk p n s c L :
    repr n s -> wf c B L s -> L <= B -> s <> NEmpty -> p <> [] -> nibs p -> 4 <= fuel ->
    degen_ok c (length p + L) (NExt p s) (degenerate fuel d rh pk (NExt p n)).
  Proof.
    intros Hr Hw HL Hne Hp Hn Hf.
    destruct s as [|k v|q s|ts v|h]; [done| | | |by inversion Hw].
    - (* leaf *)
      assert (Hwl := wf_join_leaf _ _ _ _ _ Hn Hw).
      destruct fuel as [|fuel]; [lia|]. cbn [degenerate].
      assert (Hr0 : rrepr n (NLeaf k v)) by (by left).
      destruct (rrepr_resolve keccak Hk B HB C d _ c L _ Hr0 Hw HL)
        as [[Hr' Hnh]|(h & -> & [[Hrec Hr']|[-> Hrec]])].
      + inversion Hr'; subst; [|by edestruct Hnh].
        left. eexists _, _, _. split; [reflexivity|]. split; [by constructor|]. split_and!; try done.
        intros x _. symmetry. apply lk_ext_leaf.
      + rewrite Hrec. cbn [ubind]. destruct fuel as [|fuel]; [lia|]. cbn [degenerate PmtSpec.collapse].
        left. eexists _, _, _. split; [reflexivity|]. split; [by constructor|]. split_and!; try done.
        intros x _. symmetry. apply lk_ext_leaf.
      + rewrite Hrec. cbn. right. split; [done|]. cbn. eauto 10.
    - (* extension *)
      inversion Hw; subst.
      assert (Hjoin : forall pk n', repr n' s -> forall fuel, 2 <= fuel ->
        degen_ok c (length p + (length q + L0)) (NExt p (NExt q s))
          (degenerate fuel d rh pk (NExt (join p q) n'))).
      { intros pk0 n' Hn' f Hf'. unfold join.
        destruct (degen_ext_branch f rh pk0 (p ++ q) n' s c L0)
          as [(pk' & n2 & t' & E & Hr2 & Hw2 & Hs2 & Hne2)|Hm]; try done.
        - lia.
        - by destruct p.
        - by apply Forall_app.
        - left. rewrite app_length, <- Nat.add_assoc in Hw2.
          eexists _, _, _. split; [exact E|]. split_and!; try done.
          intros x Hx. rewrite (Hs2 x Hx). symmetry. apply lk_ext_ext.
        - by right. }
      destruct fuel as [|fuel]; [lia|]. cbn [degenerate].
      assert (Hr0 : rrepr n (NExt q s)) by (by left).
      destruct (rrepr_resolve keccak Hk B HB C d _ c _ _ Hr0 Hw HL)
        as [[Hr' Hnh]|(h & -> & [[Hrec Hr']|[-> Hrec]])].
      + inversion Hr'; subst; [|by edestruct Hnh]. apply Hjoin; [done|lia].
      + rewrite Hrec. cbn [ubind]. destruct fuel as [|fuel]; [lia|]. cbn [degenerate PmtSpec.collapse].
        cbn [PmtSpec.collapse] in Hr'. inversion Hr'; subst. apply Hjoin; [done|lia].
      + rewrite Hrec. cbn. right. split; [done|]. cbn. eauto 10.
    - apply degen_ext_branch; try done; lia.
  Qed.

  (** Nodes [degenerate] may be given: one slot of a branch may have been
      vacated, the child of an extension may be any non-empty node. *)
  Inductive pre (c : bool) : nat -> node -> Prop :=
  | pre_wf L t : wf c B L t -> pre c L t
  | pre_ext L p s : p <> [] -> nibs p -> wf c B L s -> s <> NEmpty -> pre c (length p + L) (NExt p s)
  | pre_branch L ts v : length ts = 16 -> Forall (wf c B L) ts -> v <> Some [] -> vsize v <= B ->
      (c = true -> 1 <= occupied ts + oval v) -> pre c (S L) (NBranch ts v).

  Lemma degen_branch fuel rh pk ns ts v c L :
    Forall2 repr ns ts -> length ts = 16 -> Forall (wf c B L) ts -> v <> Some [] -> vsize v <= B ->
    (c = true -> 1 <= occupied ts + oval v) -> S L <= B -> 5 <= fuel ->
    degen_ok c (S L) (NBranch ts v) (degenerate fuel d rh pk (NBranch ns v)).
  Proof.
    intros Hr Hl Hts Hv HvB Hc HL Hf. destruct fuel as [|fuel]; [lia|]. cbn [degenerate].
    unfold used_indices. rewrite (repr_used 0 _ _ Hr).
    assert (Hstay : (c = true -> 2 <= occupied ts + oval v) ->
      degen_ok c (S L) (NBranch ts v) (pk, Ok (NBranch ns v))).
    { intros H2. left. eexists _, _, (NBranch ts v). split; [reflexivity|].
      split; [by constructor|]. split; [by constructor|]. done. }
    pose proof (used_from_length 0 ts) as Hul.
    destruct (used_from 0 ts) as [|i [|j l]] eqn:E.
    - pose proof (used_from_nil _ _ E) as Hall. destruct v as [v|].
      + left. eexists _, _, (NLeaf (from_raw [] true) v). split; [reflexivity|].
        split; [constructor|]. split.
        { apply wf_leaf'; [apply tpath_end|cbn; lia|congruence|done]. }
        split; [|done]. intros q Hq. rewrite lk_leaf. cbn [from_raw unpack app].
        rewrite lk_all_empty by done. repeat case_decide; congruence.
      + apply Hstay. intros Hct. specialize (Hc Hct). cbn in *. lia.
    - destruct (used_from_single _ _ _ E) as (_ & (s & Hs & Hne) & Hall).
      rewrite Nat.sub_0_r in *. cbn in Hul.
      destruct v as [v|].
      + apply Hstay. intros _. cbn. lia.
      + destruct (Forall2_lookup_r _ _ _ _ _ Hr Hs) as (n & Hn & Hrn). rewrite Hn.
        apply lookup_lt_Some in Hs as Hi.
        rewrite Forall_lookup in Hts.
        destruct (degen_ext fuel rh pk [i] n s c L)
          as [(pk' & n2 & t' & E2 & Hr2 & Hw2 & Hs2 & Hne2)|Hm].
        * done.
        * eauto.
        * lia.
        * done.
        * done.
        * constructor; [lia|constructor].
        * lia.
        * left. eexists _, _, _. split; [exact E2|]. split_and!; try done.
          intros q Hq. rewrite (Hs2 q Hq). destruct q as [|y q]; [by apply tpath_nil in Hq|].
          rewrite lk_branch. destruct (Nat.eqb_spec y 16) as [->|Hy].
          { apply lk_ext_None. intros q' [=]. lia. }
          destruct (decide (y = i)) as [->|Hyi].
          { change (i :: q) with ([i] ++ q). rewrite lk_ext_app. by rewrite Hs. }
          rewrite lk_ext_None by (intros q' [=]; done).
          destruct (ts !! y) eqn:Ey; [|done]. by rewrite (Hall _ _ Ey Hyi).
        * by right.
    - apply Hstay. intros _. cbn in Hul. lia.
  Qed.

  Lemma degenerate_spec fuel rh pk n t c L :
    repr n t -> (forall h, n <> NHash h) -> pre c L t -> L <= B -> 5 <= fuel -> t <> NEmpty ->
    degen_ok c L t (degenerate fuel d rh pk n).
  Proof.
    intros Hr Hnh Hpre HL Hf Hne.
    assert (Hleaf : forall k v, t = NLeaf k v -> degen_ok c L t (degenerate fuel d rh pk n)).
    { intros k v ->. inversion Hr; subst; [|by edestruct Hnh]. destruct fuel; [lia|].
      cbn [degenerate]. inversion Hpre; subst. left. eexists _, _, _. split; [reflexivity|].
      split; [constructor|]. done. }
    destruct Hpre as [L t Hw|L p s Hp Hn Hw Hs|L ts v Hl Hts Hv HvB Hc].
    - destruct Hw as [L|L b v Hb HbL Hv HvB|L p s Hp Hn Hb Hw|L ts v Hl Hts Hv HvB Hc].
      + done.
      + by eapply Hleaf.
      + inversion Hr; subst; [|by edestruct Hnh]. apply degen_ext; try done; try lia. by intros ->.
      + inversion Hr; subst; [|by edestruct Hnh]. apply degen_branch; try done.
        intros E. specialize (Hc E). lia.
    - inversion Hr; subst; [|by edestruct Hnh]. apply degen_ext; try done; lia.
    - inversion Hr; subst; [|by edestruct Hnh]. by apply degen_branch.
  Qed.

  (** Outcome of removing the binding at [p]. *)
  Definition del_ok (c : bool) (L : nat) (t : node) (p : hex) (x : upd (node * bool)) : Prop :=
    (exists pk' n' t' b, x = (pk', Ok (n', b)) /\ repr n' t' /\ (forall h, n' <> NHash h) /\ wf c B L t' /\
       updates t t' p None /\ (lk t p <> None -> b = true) /\ (b = false -> t' = t) /\
       (c = true -> b = true <-> lk t p <> None \/ forked t p) /\ (is_branch t -> t' <> NEmpty))
    \/ miss x.2.

  Lemma updates_none t p : lk t p = None -> updates t t p None.
  Proof. intros H q Hq. case_decide; [by subst|done]. Qed.

  Lemma del_unchanged n t p c L pk : repr n t -> (forall h, n <> NHash h) -> wf c B L t ->
    lk t p = None -> (c = true -> ~ forked t p) -> del_ok c L t p (pk, Ok (n, false)).
  Proof.
    intros Hr Hh Hw Hl Hf. left. eexists pk, n, t, false. split; [done|]. split; [done|]. split; [done|].
    split; [done|]. split; [by apply updates_none|]. split; [done|]. split; [done|].
    split; [|by destruct t]. intros Hc. split; [done|]. intros [?|?]; [done|]. by destruct (Hf Hc).
  Qed.

  Lemma degen_not_hash fuel rh pk p n m pk' : degenerate fuel d rh pk p = (pk', Ok n) ->
    (forall h, p <> NHash h) -> n <> NHash m.
  Proof.
    revert pk p. induction fuel as [|fuel IH]; intros pk p E Hp; [done|].
    cbn [degenerate] in E. destruct p as [|k v|q s|ts v|h]; try (injection E as <- <-; done).
    - destruct s as [|k v|q' s|ts v|h]; try (injection E as <- <-; done).
      + by eapply IH in E.
      + destruct (recover_from_db d h) as [[n'|]| | |]; cbn in E; try done. by eapply IH in E.
    - destruct (used_indices ts) as [|i [|j l]], v as [v|]; try (injection E as <- <-; done).
      destruct (ts !! i); [|done]. by eapply IH in E.
  Qed.

  (** Finishing a removal that changed the node. *)
  Lemma finish_ok fuel rh c L t p pk n1 t1 :
    repr n1 t1 -> (forall h, n1 <> NHash h) -> pre c L t1 -> L <= B -> 5 <= fuel -> t1 <> NEmpty ->
    updates t t1 p None -> (c = true -> lk t p <> None \/ forked t p) ->
    del_ok c L t p
      (upd! (pk, n') := degenerate fuel d rh pk n1 in (pk, Ok (n', true))).
  Proof.
    intros Hr Hh Hpre HL Hf Hne Hu Hc.
    destruct (degenerate_spec fuel rh pk n1 t1 c L) as [(pk' & n2 & t' & E & Hr2 & Hw2 & Hs2 & Hne2)|Hm];
      try done.
    - rewrite E. cbn [ubind]. left. eexists pk', n2, t', true. split_and!; try done.
      + intros h. eapply degen_not_hash; eauto.
      + intros q Hq. rewrite (Hs2 q Hq). by apply Hu.
      + intros Hct. split; [|done]. intros _. by apply Hc.
    - right. destruct (degenerate fuel d rh pk n1) as [pk' r0].
      cbn [snd] in Hm. destruct Hm as [? (h & tr & rh' & k & -> & ?)]. cbn. split; eauto 10.
  Qed.

  Lemma no_longer_branch V L ts w : wf true V L (NBranch ts w) -> ~ no_longer (NBranch ts w) [16].
  Proof.
    intros Hw H. inversion Hw; subst. specialize (H7 eq_refl).
    destruct (occ_ge1 ts) as (i & c & Hi & Hc); [destruct w; cbn in *; lia|].
    apply lookup_lt_Some in Hi as Hlt. rewrite Forall_lookup in H3.
    destruct (wf_nonempty _ _ _ (H3 _ _ Hi) Hc) as (q & Hq & Hl).
    specialize (H [] i q eq_refl ltac:(lia) Hq). cbn [app] in H.
    rewrite lk_branch, Hi in H. destruct (Nat.eqb_spec i 16); [lia|done].
  Qed.

  Lemma delete_at_spec fuel rh pk n t path idx c L :
    rrepr n t -> wf c B L t -> L <= B -> idx <= length path -> tpath (drop idx path) ->
    (c = true -> fine t (drop idx path)) ->
    3 * (length path - idx) + rank n + 6 <= fuel ->
    del_ok c L t (drop idx path) (delete_at fuel d rh pk n path idx).
  Proof.
    revert pk n t idx L. induction fuel as [|fuel IH];
      intros pk n t idx L Hr Hw HL Hi Hp Hnl Hf; [lia|].
    cbn [delete_at]. rewrite offset_ok by done. cbn [ubind].
    destruct (rrepr_resolve keccak Hk B HB C d n c L t Hr Hw HL)
      as [[Hr' Hnh]|(h & -> & [[Hrec Hr']|[-> Hrec]])].
    - destruct Hr' as [|k lv|p n t Hr'|ns ts w Hr'|t Hlong]; [..|by edestruct Hnh].
      + cbn [snd]. apply del_unchanged; [constructor|done|done|done|]. intros _. apply not_forked_empty.
      + case_decide as Ek.
        * left. eexists _, _, NEmpty, true. split; [reflexivity|].
          split_and!; try done; [constructor|constructor| |].
          -- intros q Hq. rewrite lk_leaf. cbn [lk]. repeat case_decide; congruence.
          -- intros _. split; [|done]. intros _. left. rewrite lk_leaf. by rewrite decide_True.
        * cbn [snd ubind]. apply del_unchanged; try done; [constructor| |].
          { rewrite lk_leaf. by rewrite decide_False. }
          intros _. apply not_forked_leaf.
      + (* extension *)
        inversion Hw; subst.
        destruct (Nat.eqb_spec (common_prefix (drop idx path) p) (length p)) as [E|E].
        * destruct (cp_full _ _ E) as [r Er]. rewrite E.
          destruct (drop_prefix _ _ _ _ Hi Er) as [Hi' Ed].
          rewrite Er in Hnl, Hp. apply tpath_app in Hp; [|done].
          destruct (IH pk n t (idx + length p) L0)
            as [(pk' & n' & t' & b & Hres & Hr2 & Hh2 & Hw2 & Hu & Hb1 & Hb2 & Hb3 & Hb4)|Hm].
          -- by left.
          -- done.
          -- lia.
          -- done.
          -- by rewrite Ed.
          -- intros Hc. rewrite Ed. by eapply fine_ext, Hnl.
          -- destruct p; [done|]. cbn [length rank] in *. destruct n; cbn [rank]; lia.
          -- rewrite Hres. cbn [ubind fst snd]. rewrite Ed in *. rewrite Er.
             destruct b; cbn [fst snd].
             ++ eapply finish_ok with (t1 := NExt p t'); try done.
                ** by constructor.
                ** apply pre_ext; auto.
                ** destruct p; [done|]. cbn [length rank] in *. lia.
                ** by apply updates_ext.
                ** intros Hc. rewrite lk_ext_app, forked_ext by done. by apply Hb3.
             ++ apply del_unchanged; try done; [by constructor| |].
                { rewrite lk_ext_app. destruct (lk t r) eqn:El; [|done].
                  discriminate Hb1. done. }
                intros Hc Hfk. rewrite forked_ext in Hfk by done. assert (false = true); [|done]. apply (Hb3 Hc). by right.
          -- right. destruct (delete_at fuel d rh pk n path (idx + length p)) as [pk' r0].
             cbn [snd] in Hm. destruct Hm as [? (h & tr & rh' & k & -> & ?)]. cbn. split; eauto 10.
        * cbn [snd]. apply del_unchanged; try done; [by constructor| |].
          { apply lk_ext_None. intros r Er. apply E. rewrite Er. apply cp_app. }
          intros _ Hfk. destruct (forked_ext_prefix _ _ _ Hfk) as [r Er]. apply E. rewrite Er. apply cp_app.
      + (* branch *)
        inversion Hw; subst.
        destruct (drop idx path) as [|x p] eqn:Ed; [by apply tpath_nil in Hp|].
        destruct (drop_lt _ _ _ _ Ed) as [Hlt Ed'].
        destruct (Nat.eqb_spec x 16) as [->|Hx].
        * apply tpath_cons in Hp as [[_ ->]|[? _]]; [|lia].
          assert (Hfk : c = true -> 2 <= occupied ts).
          { intros ->. specialize (H6 eq_refl). destruct w as [w|]; [|cbn in H6; lia].
            destruct (Hnl eq_refl) as [Hn|Hfk]; [by rewrite lk_branch_end| |].
            - exfalso. eapply no_longer_branch; eauto.
            - by eapply forked_branch in Hfk. }
          left. eexists _, _, (NBranch ts None), true. split; [reflexivity|].
          split; [by constructor|]. split; [done|]. split.
          { constructor; auto; [cbn; lia|]. intros Hc. specialize (Hfk Hc). lia. }
          split; [|split; [done|split; [done|split; [|done]]]].
          2:{ intros ->. split; [|done]. intros _. right. eapply forked_branch; eauto. }
          intros q Hq. destruct q as [|y q]; [by apply tpath_nil in Hq|].
          apply tpath_cons in Hq as [[-> ->]|[Hy Hq]].
          -- by rewrite decide_True, lk_branch_end.
          -- rewrite decide_False by (intros [=]; lia). rewrite !lk_branch.
             by destruct (Nat.eqb_spec y 16); [lia|].
        * apply tpath_cons in Hp as [[-> _]|[Hx' Hp]]; [done|].
          destruct (lookup_lt_is_Some_2 ts x) as [t Ht]; [lia|].
          destruct (Forall2_lookup_r _ _ _ _ _ Hr' Ht) as (n & Hn & Hrn).
          rewrite Hn. pose proof H2 as Hall. rewrite Forall_lookup in H2.
          assert (Elk : lk (NBranch ts w) (x :: p) = lk t p).
          { rewrite lk_branch, Ht. destruct (Nat.eqb_spec x 16); [lia|done]. }
          destruct (IH pk n t (idx + 1) L0)
            as [(pk' & n' & t' & b & Hres & Hr2 & Hh2 & Hw2 & Hu & Hb1 & Hb2 & Hb3 & Hb4)|Hm].
          -- by left.
          -- eauto.
          -- lia.
          -- lia.
          -- by rewrite Ed'.
          -- intros Hc. rewrite Ed'. eapply fine_child; [exact Hx'|exact Ht|done|by apply Hnl].
          -- cbn [rank] in Hf. destruct n; cbn [rank]; lia.
          -- rewrite Hres. cbn [ubind fst snd]. rewrite Ed' in *.
             destruct b; cbn [fst snd].
             ++ eapply finish_ok with (t1 := NBranch (<[x := t']> ts) w); try done.
                ** constructor. by apply Forall2_insert.
                ** apply pre_branch; auto; [by rewrite insert_length|by apply Forall_insert|].
                   intros Hc. specialize (H6 Hc).
                   pose proof (occ_insert ts x t' t Ht) as Ho.
                   destruct (is_empty_node t'), (is_empty_node t); lia.
                ** cbn [rank] in Hf. lia.
                ** eapply updates_child; eauto.
                ** intros Hc. rewrite Elk, (forked_child _ _ _ _ _ Hx' Ht Hp). by apply Hb3.
             ++ apply del_unchanged; try done; [by constructor| |].
                { rewrite Elk. destruct (lk t p) eqn:El; [|done].
                  discriminate Hb1. done. }
                intros Hc Hfk. rewrite (forked_child _ _ _ _ _ Hx' Ht Hp) in Hfk.
                assert (false = true); [|done]. apply (Hb3 Hc). by right.
          -- right. destruct (delete_at fuel d rh pk n path (idx + 1)) as [pk' r0].
             cbn [snd] in Hm. destruct Hm as [? (h & tr & rh' & k & -> & ?)]. cbn. split; eauto 10.
    - rewrite Hrec. cbn [ubind]. destruct (IH ({[h]} ∪ pk) (collapse t) t idx L)
        as [(pk' & n' & t' & b & Hres & Hr2 & Hh2 & Hw2 & Hu & Hb1 & Hb2 & Hb3 & Hb4)|Hm]; try done.
      + by left.
      + pose proof (rank_collapse keccak _ _ _ _ Hw). cbn [rank] in Hf. lia.
      + rewrite Hres. cbn [ubind fst snd]. destruct b.
        * destruct (is_empty_node t') eqn:Et'.
          -- apply empty_dec in Et' as ->. inversion Hr2; subst.
             2:{ unfold PmtSpec.long in *. cbn in *. lia. }
             destruct fuel as [|fuel]; [lia|]. cbn [degenerate ubind].
             left. eexists _, _, NEmpty, true. split; [reflexivity|]. split_and!; try done; auto.
          -- eapply finish_ok with (t1 := t'); try done; [by apply pre_wf|lia|by intros ->|]. intros Hc. by apply Hb3.
        * assert (t' = t) as -> by (by apply Hb2).
          left. eexists _, _, t, false. split; [reflexivity|]. split_and!; try done.
      + right. destruct (delete_at fuel d rh ({[h]} ∪ pk) (collapse t) path idx) as [pk' r0].
        cbn [snd] in Hm. destruct Hm as [? (h' & tr & rh' & k & -> & ?)]. cbn. split; eauto 10.
    - rewrite Hrec. cbn [ubind]. right. rewrite slice_ok by lia. cbn. split; eauto 10.
  Qed.
End hash.
