(** Lookup in hash-free tries, and uniqueness of the canonical trie. *)
From Verif Require Import Base PmtNibblesModel RlpModel PmtModel PmtNibblesProof PmtSpec PmtEncProof.

Lemma tpath_cons x p : tpath (x :: p) <-> (x = 16 /\ p = []) \/ (x < 16 /\ tpath p).
Proof.
  split.
  - intros ([|y b] & Hb & E); cbn in E; injection E as -> ->; [auto|].
    inversion Hb; subst. right. split; [done|]. by exists b.
  - intros [[-> ->]|[Hx (b & Hb & ->)]].
    + exists []. auto.
    + exists (x :: b). auto.
Qed.
Lemma tpath_nil : ~ tpath [].
Proof. intros (b & _ & E). by destruct b. Qed.
Lemma tpath_end : tpath [16].
Proof. exists []. auto. Qed.
Lemma tpath_app p q : nibs p -> tpath (p ++ q) <-> tpath q.
Proof.
  intros Hp. induction Hp as [|x p Hx Hp IH]; [done|].
  cbn. rewrite tpath_cons, IH. split; [|auto]. intros [[-> _]|[_ ?]]; [lia|done].
Qed.
Lemma tpath_from_raw k : tpath (from_raw k true).
Proof. exists (unpack k). split; [apply unpack_nibs|done]. Qed.
Lemma tpath_nibs b : nibs b -> tpath (b ++ [16]).
Proof. intros. by exists b. Qed.

Lemma lk_branch cs v x p : lk (NBranch cs v) (x :: p) =
  if x =? 16 then v else match cs !! x with Some c => lk c p | None => None end.
Proof.
  cbn [lk]. destruct (x =? 16); [done|].
  change (map lk cs) with (lk <$> cs). rewrite list_lookup_fmap. by destruct (cs !! x).
Qed.
Lemma lk_branch_end cs v : lk (NBranch cs v) [16] = v.
Proof. by rewrite lk_branch. Qed.
Lemma lk_ext_app q c p : lk (NExt q c) (q ++ p) = lk c p.
Proof. cbn [lk]. rewrite take_app, drop_app. by rewrite decide_True. Qed.
Lemma lk_ext_some q c p : lk (NExt q c) p <> None -> exists p', p = q ++ p' /\ lk c p' <> None.
Proof.
  cbn [lk]. destruct (decide _) as [E|]; [|done]. intros H. exists (drop (length q) p).
  split; [|done]. rewrite <- E at 1. by rewrite take_drop.
Qed.
Lemma lk_ext_None q c p : (forall p', p <> q ++ p') -> lk (NExt q c) p = None.
Proof.
  intros H. destruct (lk (NExt q c) p) eqn:E; [|done].
  destruct (lk_ext_some q c p) as (p' & -> & _); [congruence|]. by destruct (H p').
Qed.
Lemma lk_leaf k v p : lk (NLeaf k v) p = if decide (k = p) then Some v else None.
Proof. done. Qed.
Lemma lk_ext_ext p q c r : lk (NExt p (NExt q c)) r = lk (NExt (p ++ q) c) r.
Proof.
  destruct (lk (NExt p (NExt q c)) r) eqn:E.
  - destruct (lk_ext_some p (NExt q c) r) as (r1 & -> & H1); [congruence|].
    destruct (lk_ext_some q c r1) as (r2 & -> & H2); [done|].
    rewrite !lk_ext_app in E. by rewrite app_assoc, lk_ext_app.
  - destruct (lk (NExt (p ++ q) c) r) eqn:E2; [|done].
    destruct (lk_ext_some (p ++ q) c r) as (r1 & -> & H1); [congruence|].
    rewrite <- app_assoc in E. rewrite !lk_ext_app in E. congruence.
Qed.
Lemma lk_ext_leaf p k v r : lk (NExt p (NLeaf k v)) r = lk (NLeaf (p ++ k) v) r.
Proof.
  rewrite (lk_leaf (p ++ k)). case_decide as Hn; [subst r|].
  - rewrite lk_ext_app, lk_leaf. by rewrite !decide_True.
  - destruct (lk (NExt p (NLeaf k v)) r) eqn:E; [|done].
    destruct (lk_ext_some p (NLeaf k v) r) as (r1 & -> & H1); [congruence|].
    rewrite lk_leaf in H1. case_decide; congruence.
Qed.

Lemma lk_insert_child cs v x c y p : x < length cs -> y <> 16 ->
  lk (NBranch (<[x := c]> cs) v) (y :: p) =
  if decide (y = x) then lk c p else lk (NBranch cs v) (y :: p).
Proof.
  intros Hx Hy. rewrite !lk_branch. destruct (Nat.eqb_spec y 16); [done|].
  destruct (decide (y = x)) as [->|].
  - by rewrite list_lookup_insert.
  - by rewrite list_lookup_insert_ne.
Qed.

Lemma no_children_lookup x : x < 16 -> no_children !! x = Some NEmpty.
Proof. intros. unfold no_children. by apply lookup_replicate_2. Qed.

(** Occupied slots. *)
Lemma empty_dec c : is_empty_node c = true <-> c = NEmpty.
Proof. by destruct c. Qed.
Lemma occ_ge1 cs : 1 <= occupied cs -> exists i c, cs !! i = Some c /\ c <> NEmpty.
Proof.
  induction cs as [|c cs IH]; cbn [occupied]; [lia|].
  destruct (is_empty_node c) eqn:E.
  - intros (i & d & Hi & Hd)%IH. by exists (S i), d.
  - intros _. exists 0, c. split; [done|]. intros ->. done.
Qed.
Lemma occ_ge2 cs : 2 <= occupied cs ->
  exists i j c d, i <> j /\ cs !! i = Some c /\ c <> NEmpty /\ cs !! j = Some d /\ d <> NEmpty.
Proof.
  induction cs as [|c cs IH]; cbn [occupied]; [lia|].
  destruct (is_empty_node c) eqn:E.
  - intros (i & j & a & b & Hij & Hi & Ha & Hj & Hb)%IH.
    exists (S i), (S j), a, b. repeat split; auto.
  - intros H. destruct (occ_ge1 cs) as (i & d & Hi & Hd); [lia|].
    exists 0, (S i), c, d. repeat split; auto. intros ->. done.
Qed.
Lemma occ_pos cs i c : cs !! i = Some c -> c <> NEmpty -> 1 <= occupied cs.
Proof.
  revert i. induction cs as [|d cs IH]; intros [|i] Hi Hc; cbn in *; try done.
  - injection Hi as ->. destruct c; cbn; try lia. done.
  - specialize (IH i Hi Hc). lia.
Qed.
Lemma occ_insert cs i c d : cs !! i = Some d ->
  occupied (<[i := c]> cs) + (if is_empty_node d then 0 else 1) =
  occupied cs + (if is_empty_node c then 0 else 1).
Proof.
  revert i. induction cs as [|a cs IH]; intros [|i] Hi; try done.
  - cbn in Hi. injection Hi as ->. change (<[0 := c]> (d :: cs)) with (c :: cs).
    cbn [occupied]. lia.
  - change (<[S i := c]> (a :: cs)) with (a :: <[i := c]> cs). cbn [occupied].
    specialize (IH i Hi). lia.
Qed.
Lemma occ_no_children : occupied no_children = 0.
Proof. reflexivity. Qed.

Lemma wf_nonempty V L t : wf true V L t -> t <> NEmpty -> exists q, tpath q /\ lk t q <> None.
Proof.
  revert L. induction t as [|k v|p s IH|ts v IH|h] using node_ind'; intros L Hw Hne; inversion Hw; subst.
  - done.
  - exists (b ++ [16]). split; [by apply tpath_nibs|]. rewrite lk_leaf; by rewrite decide_True.
  - edestruct IH as (q & Hq & Hl); eauto. { intros ->. done. }
    exists (p ++ q). rewrite lk_ext_app. split; [|done]. by apply tpath_app.
  - destruct v as [v|].
    + exists [16]. split; [apply tpath_end|]. by rewrite lk_branch_end.
    + destruct (occ_ge1 ts) as (i & c & Hi & Hc); [cbn in *; lia|].
      rewrite Forall_lookup in IH, H2.
      destruct (IH _ _ Hi _ (H2 _ _ Hi) Hc) as (q & Hq & Hl).
      apply lookup_lt_Some in Hi as Hlt.
      exists (i :: q). rewrite tpath_cons, lk_branch. split; [right; lia || (split; [lia|done])|].
      destruct (Nat.eqb_spec i 16); [lia|]. by rewrite Hi.
Qed.

Lemma wf_branch_two V L ts v : wf true V L (NBranch ts v) ->
  exists x y q1 q2, x <> y /\ tpath (x :: q1) /\ tpath (y :: q2) /\
    lk (NBranch ts v) (x :: q1) <> None /\ lk (NBranch ts v) (y :: q2) <> None.
Proof.
  inversion 1; subst. specialize (H7 eq_refl).
  rewrite Forall_lookup in H3.
  assert (Hpt : forall i c, ts !! i = Some c -> c <> NEmpty ->
    i < 16 /\ exists q, tpath (i :: q) /\ lk (NBranch ts v) (i :: q) <> None).
  { intros i c Hi Hc. apply lookup_lt_Some in Hi as Hlt. split; [lia|].
    destruct (wf_nonempty _ _ _ (H3 _ _ Hi) Hc) as (q & Hq & Hl).
    exists q. rewrite tpath_cons, lk_branch. split; [right; split; [lia|done]|].
    destruct (Nat.eqb_spec i 16); [lia|]. by rewrite Hi. }
  destruct v as [v|]; cbn in H7.
  - destruct (occ_ge1 ts) as (i & c & Hi & Hc); [lia|].
    destruct (Hpt i c Hi Hc) as (Hlt & q & Hq & Hl).
    exists i, 16, q, []. split_and!; [lia|done|apply tpath_end|done|]. by rewrite lk_branch_end.
  - destruct (occ_ge2 ts) as (i & j & c & d & Hij & Hi & Hc & Hj & Hd); [lia|].
    destruct (Hpt i c Hi Hc) as (_ & q & Hq & Hl).
    destruct (Hpt j d Hj Hd) as (_ & q2 & Hq2 & Hl2).
    by exists i, j, q, q2.
Qed.

Lemma ext_heads p c q : lk (NExt p c) q <> None -> exists q', q = p ++ q' /\ lk c q' <> None.
Proof. apply lk_ext_some. Qed.

Lemma app_eq_common (p q r s : hex) : p ++ r = q ++ s -> length p <= length q -> exists t, q = p ++ t.
Proof.
  revert q. induction p as [|x p IH]; intros [|y q] E Hl; cbn in *; try lia; eauto.
  injection E as -> E. destruct (IH q E) as [t ->]; [lia|]. eauto.
Qed.

Lemma ext_prefix_le V L p q ts v c :
  wf true V L (NBranch ts v) -> nibs p -> nibs q ->
  (forall r, tpath r -> lk (NExt p (NBranch ts v)) r = lk (NExt q c) r) ->
  length q <= length p.
Proof.
  intros Hw Hp Hq Heq. destruct (Nat.le_gt_cases (length q) (length p)) as [|Hlt]; [done|].
  exfalso. destruct (wf_branch_two _ _ _ _ Hw) as (x & y & q1 & q2 & Hxy & Hx & Hy & Lx & Ly).
  assert (H1 : lk (NExt q c) (p ++ x :: q1) <> None).
  { rewrite <- Heq, lk_ext_app; [done|by apply tpath_app]. }
  assert (H2 : lk (NExt q c) (p ++ y :: q2) <> None).
  { rewrite <- Heq, lk_ext_app; [done|by apply tpath_app]. }
  apply lk_ext_some in H1 as (r1 & E1 & _). apply lk_ext_some in H2 as (r2 & E2 & _).
  destruct (app_eq_common _ _ _ _ E1) as [t ->]; [lia|].
  rewrite <- app_assoc in E1, E2. apply app_inv_head in E1, E2.
  rewrite app_length in Hlt. destruct t as [|z t]; cbn in *; [lia|]. congruence.
Qed.

Ltac two :=
  match goal with
  | H : wf true ?V ?L (NBranch ?ts ?v) |- _ =>
      destruct (wf_branch_two V L ts v H) as (x & y & q1 & q2 & Hxy & Hx & Hy & Lx & Ly)
  end.

Lemma canonical_unique V V' L L' t1 t2 :
  wf true V L t1 -> wf true V' L' t2 -> (forall q, tpath q -> lk t1 q = lk t2 q) -> t1 = t2.
Proof.
  revert L L' t2. induction t1 as [|k v|p s IH|ts v IH|h] using node_ind';
    intros L L' t2 Hw1 Hw2 Heq.
  - destruct (decide (is_empty_node t2)) as [E|E].
    + apply Is_true_true, empty_dec in E. done.
    + destruct (wf_nonempty _ _ _ Hw2) as (q & Hq & Hl). { intros ->. apply E. done. }
      rewrite <- Heq in Hl by done. done.
  - inversion Hw1; subst.
    assert (Hone : forall q, tpath q -> lk t2 q <> None -> q = b ++ [16]).
    { intros q Hq Hl. rewrite <- Heq in Hl by done. rewrite lk_leaf in Hl.
      case_decide; congruence. }
    assert (Hat : lk t2 (b ++ [16]) = Some v).
    { rewrite <- Heq by (by apply tpath_nibs). rewrite lk_leaf; by rewrite decide_True. }
    inversion Hw2; subst.
    + done.
    + rewrite lk_leaf in Hat. case_decide as E; [rewrite E|]; congruence.
    + destruct s as [| | |ts w|]; try done.
      two.
      assert (p ++ x :: q1 = b ++ [16]) as E1.
      { apply Hone; [by apply tpath_app|]. by rewrite lk_ext_app. }
      assert (p ++ y :: q2 = b ++ [16]) as E2.
      { apply Hone; [by apply tpath_app|]. by rewrite lk_ext_app. }
      rewrite <- E1 in E2. apply app_inv_head in E2. congruence.
    + two.
      pose proof (Hone _ Hx Lx). pose proof (Hone _ Hy Ly). congruence.
  - inversion Hw1; subst. destruct s as [| | |ts w|]; try done.
    inversion Hw2; subst.
    + destruct (wf_nonempty _ _ _ Hw1) as (q & Hq & Hl); [done|]. rewrite Heq in Hl by done. done.
    + two.
      assert (E1 : lk (NLeaf (b ++ [16]) v) (p ++ x :: q1) <> None).
      { rewrite <- Heq by (by apply tpath_app). by rewrite lk_ext_app. }
      assert (E2 : lk (NLeaf (b ++ [16]) v) (p ++ y :: q2) <> None).
      { rewrite <- Heq by (by apply tpath_app). by rewrite lk_ext_app. }
      rewrite lk_leaf in E1, E2. case_decide as E3; [|done]. case_decide as E4; [|done].
      rewrite E3 in E4. apply app_inv_head in E4. congruence.
    + destruct s as [| | |ts' w'|]; try done.
      assert (length p0 <= length p).
      { eapply (ext_prefix_le V _ p p0 ts w); eauto. }
      assert (length p <= length p0).
      { eapply (ext_prefix_le V' _ p0 p ts' w'); eauto. intros. symmetry. auto. }
      assert (p = p0) as ->.
      { two.
        assert (E1 : lk (NExt p (NBranch ts w)) (p0 ++ x :: q1) <> None).
        { rewrite Heq by (by apply tpath_app). by rewrite lk_ext_app. }
        apply lk_ext_some in E1 as (r & E1 & _).
        apply app_inj_1 in E1 as [-> _]; [done|lia]. }
      f_equal. eapply IH; eauto. intros q Hq.
      specialize (Heq (p0 ++ q)). rewrite !lk_ext_app in Heq. apply Heq. by apply tpath_app.
    + destruct (wf_branch_two _ _ _ _ Hw2) as (x & y & q1 & q2 & Hxy & Hx & Hy & Lx & Ly).
      rewrite <- Heq in Lx, Ly by done.
      apply lk_ext_some in Lx as (r1 & E1 & _). apply lk_ext_some in Ly as (r2 & E2 & _).
      destruct p; [done|]. cbn in *. congruence.
  - destruct (wf_branch_two _ _ _ _ Hw1) as (x & y & q1 & q2 & Hxy & Hx & Hy & Lx & Ly).
    rewrite Heq in Lx, Ly by done.
    inversion Hw2; subst.
    + done.
    + rewrite lk_leaf in Lx, Ly. case_decide as E3; [|done]. case_decide as E4; [|done]. congruence.
    + apply lk_ext_some in Lx as (r1 & E1 & _). apply lk_ext_some in Ly as (r2 & E2 & _).
      destruct p; [done|]. cbn in *. congruence.
    + inversion Hw1; subst. f_equal.
      * apply list_eq_same_length with (n := 16); [done|done|].
        intros i a b Hi Ha Hb.
        repeat match goal with H : Forall _ _ |- _ => rewrite Forall_lookup in H end.
        eapply (IH i a Ha); eauto. intros q Hq.
        specialize (Heq (i :: q)). rewrite !lk_branch in Heq.
        destruct (Nat.eqb_spec i 16); [lia|]. rewrite Ha, Hb in Heq. apply Heq.
        apply tpath_cons. right. split; [lia|done].
      * specialize (Heq [16] tpath_end). by rewrite !lk_branch_end in Heq.
  - inversion Hw1.
Qed.
