(** Lemmas for the leaf iterator. *)
From Verif Require Import Base JmtNibModel JmtSpec JmtNibSpec JmtNibProof JmtModel JmtIterModel
  JmtHashProof JmtAbsProof JmtCacheProof JmtPutProof JmtOrderProof.
Local Open Scope nat_scope.

Lemma key_ltb_lt k l : key_ltb k l = true <-> bytes_lt k l.
Proof.
  revert l. induction k as [|a k IH]; intros [|b l]; cbn [key_ltb].
  - split; [done|inversion 1].
  - split; [constructor|done].
  - split; [done|inversion 1].
  - destruct (N.ltb_spec (Byte.to_N a) (Byte.to_N b)) as [H|H]; [split; [by constructor|done]|].
    destruct (N.ltb_spec (Byte.to_N b) (Byte.to_N a)) as [H'|H'].
    + split; [done|]. inversion 1; subst; lia.
    + assert (a = b) as -> by (apply byte_N_inj; lia). rewrite IH. split; [by constructor|].
      inversion 1; subst; [lia|done].
Qed.

(** ** First and last nibble with a property *)
Lemma nib_first (P : nib -> Prop) `{forall i, Decision (P i)} i0 : P i0 ->
  exists i, P i /\ (nib_val i <= nib_val i0)%N /\ forall n, (nib_val n < nib_val i)%N -> ~ P n.
Proof.
  remember (nib_val i0) as x eqn:E. revert i0 E. induction x as [x IH] using (well_founded_induction N.lt_wf_0).
  intros i0 -> H0.
  destruct (decide (Exists P (nibs_before i0))) as [Hex|Hno].
  - apply Exists_exists in Hex as (j & Hj & HP). apply elem_before in Hj.
    destruct (IH (nib_val j) Hj j eq_refl HP) as (i & Hi & Hle & Hn). exists i. split_and!; [done|lia|done].
  - exists i0. split_and!; [done|lia|]. intros n Hn HP. apply Hno, Exists_exists. exists n. by rewrite elem_before.
Qed.
Lemma nib_last (P : nib -> Prop) `{forall i, Decision (P i)} i0 : P i0 ->
  exists i, P i /\ (nib_val i0 <= nib_val i)%N /\ forall n, (nib_val i < nib_val n)%N -> ~ P n.
Proof.
  remember (15 - nib_val i0)%N as x eqn:E. revert i0 E. induction x as [x IH] using (well_founded_induction N.lt_wf_0).
  intros i0 -> H0.
  destruct (decide (Exists P (nibs_after i0))) as [Hex|Hno].
  - apply Exists_exists in Hex as (j & Hj & HP). apply elem_after in Hj. pose proof (nib_val_lt j) as Hl.
    destruct (IH (15 - nib_val j)%N ltac:(lia) j eq_refl HP) as (i & Hi & Hle & Hn). exists i. split_and!; [done|lia|done].
  - exists i0. split_and!; [done|lia|]. intros n Hn HP. apply Hno, Exists_exists. exists n. by rewrite elem_after.
Qed.

(** ** Bits *)
Lemma land_bit x n : N.land (N.shiftl 1 n) x = if N.testbit x n then N.shiftl 1 n else 0%N.
Proof.
  apply N.bits_inj. intros m. rewrite N.land_spec, N.shiftl_1_l, N.pow2_bits_eqb.
  destruct (N.eqb_spec n m) as [->|Hne]; cbn [andb].
  - destruct (N.testbit x m); [|by rewrite N.bits_0]. by rewrite N.pow2_bits_true.
  - destruct (N.testbit x n); [|by rewrite N.bits_0]. by rewrite N.pow2_bits_false.
Qed.
Lemma bit_le x n : N.testbit x n = true -> (N.shiftl 1 n <= x)%N.
Proof.
  intros H. rewrite N.shiftl_1_l. destruct (N.eq_dec x 0) as [->|H0]; [by rewrite N.bits_0 in H|].
  assert (n <= N.log2 x)%N.
  { destruct (N.le_gt_cases n (N.log2 x)); [done|]. rewrite N.bits_above_log2 in H by done. done. }
  pose proof (N.log2_spec x ltac:(lia)). etrans; [|apply H2]. by apply N.pow_le_mono_r.
Qed.
Lemma shl1_nib i j : nib_val j = (nib_val i + 1)%N -> shl1 (N.shiftl 1 (nib_val i)) = N.shiftl 1 (nib_val j).
Proof. destruct i as [[] [] [] []], j as [[] [] [] []]; vm_compute; (discriminate || reflexivity). Qed.
Lemma trailing_one i : trailing_zeros (N.shiftl 1 (nib_val i)) = nib_val i.
Proof. destruct i as [[] [] [] []]; vm_compute; reflexivity. Qed.
Lemma leading_one i : leading_zeros (N.shiftl 1 (nib_val i)) = (15 - nib_val i)%N.
Proof. destruct i as [[] [] [] []]; vm_compute; reflexivity. Qed.

Lemma filter_none {A} (P : A -> Prop) `{forall x, Decision (P x)} (l : list A) : (forall x, x ∈ l -> ~ P x) -> filter P l = [].
Proof.
  induction l as [|a l IH]; intros Hn; [done|]. rewrite filter_cons_False by (apply Hn; left).
  apply IH. intros; apply Hn. by right.
Qed.
Lemma filter_all {A} (P : A -> Prop) `{forall x, Decision (P x)} (l : list A) : (forall x, x ∈ l -> P x) -> filter P l = l.
Proof.
  induction l as [|a l IH]; intros Hn; [done|]. rewrite filter_cons_True by (apply Hn; left).
  f_equal. apply IH. intros; apply Hn. by right.
Qed.

Section Bits.
Context (cs : children).
Notation occ i := (is_Some (cs !! i)).
Notation bit i := (N.shiftl 1 (nib_val i)).

Lemma land_occ i : (N.land (bit i) (ebits cs) =? 0)%N = bool_decide (cs !! i = None).
Proof.
  rewrite land_bit, ebits_bit. destruct (cs !! i) as [c|].
  - rewrite bool_decide_true, bool_decide_false by (done || eauto). rewrite N.shiftl_1_l. by apply N.eqb_neq, N.pow_nonzero.
  - rewrite bool_decide_false, bool_decide_true; [done..|]. by intros [? ?].
Qed.
Lemma seek_ok f i j : (nib_val i <= nib_val j)%N -> occ j ->
  (forall n, nib_val i <= nib_val n < nib_val j -> cs !! n = None)%N ->
  N.to_nat (nib_val j - nib_val i) <= f -> seek f (ebits cs) (bit i) = Ok (bit j).
Proof.
  revert i. induction f as [|f IH]; intros i Hij Hj Hn Hf.
  - assert (i = j) as -> by (apply nib_val_inj; lia). cbn [seek]. rewrite land_occ, bool_decide_false; [done|].
    destruct Hj as [? ->]. done.
  - cbn [seek]. rewrite land_occ. destruct (decide (nib_val i = nib_val j)) as [E|E].
    + apply nib_val_inj in E. subst i. rewrite bool_decide_false; [done|]. destruct Hj as [? ->]. done.
    + rewrite bool_decide_true by (apply Hn; lia). pose proof (nib_val_lt j).
      destruct (nib_of_lt (nib_val i + 1)) as (m & _ & Hm); [lia|]. rewrite (shl1_nib i m Hm).
      apply IH; [lia|done| |lia]. intros n Hnn. apply Hn. lia.
Qed.
Lemma ebits_ge i : occ i -> (bit i <= ebits cs)%N.
Proof. intros H. apply bit_le. rewrite ebits_bit. by apply bool_decide_true. Qed.
Lemma u16_ebits : u16_bits (ebits cs) = map nib_val (filter (fun i => occ i) all_nibs).
Proof.
  unfold u16_bits. rewrite u16_list. induction all_nibs as [|i ns IH]; [done|]. cbn [map].
  pose proof (ebits_bit cs i) as E.
  destruct (cs !! i) as [c|] eqn:Ei.
  - rewrite bool_decide_true in E by eauto.
    rewrite !filter_cons_True; [cbn [map]; by rewrite IH|rewrite Ei; eauto|by rewrite E].
  - rewrite bool_decide_false in E by (by intros [? ?]).
    rewrite !filter_cons_False; [done|rewrite Ei; by intros [? ?]|by rewrite E].
Qed.
Lemma leading_ebits i : occ i -> (forall n, nib_val i < nib_val n -> cs !! n = None)%N ->
  leading_zeros (ebits cs) = (15 - nib_val i)%N.
Proof.
  intros Hi Hn. unfold leading_zeros. rewrite u16_ebits, (nibs_split i), filter_app, filter_cons_True by done.
  rewrite (filter_none _ (nibs_after i)).
  2: { intros n Hin [c Hc]. apply elem_after in Hin. rewrite (Hn n Hin) in Hc. done. }
  rewrite map_app. cbn [map]. by rewrite last_snoc.
Qed.
Lemma trailing_ebits i : occ i -> (forall n, nib_val n < nib_val i -> cs !! n = None)%N ->
  trailing_zeros (ebits cs) = nib_val i.
Proof.
  intros Hi Hn. unfold trailing_zeros. rewrite u16_ebits, (nibs_split i), filter_app, (filter_none _ (nibs_before i)).
  2: { intros n Hin [c Hc]. apply elem_before in Hin. rewrite (Hn n Hin) in Hc. done. }
  rewrite filter_cons_True by done. done.
Qed.

Context (nk : nkey) (n : inode) (Hcs : in_children n = cs).
Notation at_bit i := (Visit nk n (ebits cs) (bit i)).
Lemma visit_at_ok i j : (nib_val i <= nib_val j)%N -> occ j ->
  (forall n, nib_val i <= nib_val n < nib_val j -> cs !! n = None)%N ->
  visit_at nk n i = Ok (at_bit j).
Proof.
  intros Hij Hj Hn. unfold visit_at. rewrite Hcs, gen_bitmaps_ok. cbn [rbind fst].
  destruct (N.ltb_spec (ebits cs) (bit i)) as [Hlt|_].
  - pose proof (ebits_ge j Hj). rewrite !N.shiftl_1_l in *.
    pose proof (N.pow_le_mono_r 2 (nib_val i) (nib_val j)). lia.
  - pose proof (nib_val_lt j). rewrite (seek_ok 16 i j Hij Hj Hn) by lia. done.
Qed.
Lemma visit_new_ok i : occ i -> (forall n, nib_val n < nib_val i -> cs !! n = None)%N ->
  visit_new nk n = Ok (at_bit i).
Proof.
  intros Hi Hn. unfold visit_new. rewrite Hcs, gen_bitmaps_ok. cbn [rbind fst].
  pose proof (ebits_ge i Hi) as Hge. rewrite N.shiftl_1_l in Hge. pose proof (N.pow_nonzero 2 (nib_val i) ltac:(done)).
  destruct (N.eqb_spec (ebits cs) 0); [lia|]. by rewrite (trailing_ebits i).
Qed.
Lemma rightmost_true i : occ i -> (forall n, nib_val i < nib_val n -> cs !! n = None)%N ->
  is_rightmost (at_bit i) = Ok true.
Proof.
  intros Hi Hn. unfold is_rightmost. cbn [vi_next vi_bitmap]. rewrite leading_one, (leading_ebits i) by done.
  by rewrite N.ltb_irrefl, N.eqb_refl.
Qed.
Lemma rightmost_false i j : (nib_val i < nib_val j)%N -> occ j -> is_rightmost (at_bit i) = Ok false.
Proof.
  intros Hij Hj. destruct (nib_last (fun x => occ x) j Hj) as (l & Hl & Hle & Hn).
  unfold is_rightmost. cbn [vi_next vi_bitmap]. rewrite leading_one, (leading_ebits l); [|done|].
  2: { intros x Hx. destruct (cs !! x) eqn:E; [|done]. destruct (Hn x Hx). rewrite E. eauto. }
  pose proof (nib_val_lt l). destruct (N.ltb_spec (15 - nib_val i) (15 - nib_val l)); [lia|].
  destruct (N.eqb_spec (15 - nib_val i) (15 - nib_val l)); [lia|done].
Qed.
Lemma advance_ok i j : (nib_val i < nib_val j)%N -> occ j ->
  (forall n, nib_val i < nib_val n < nib_val j -> cs !! n = None)%N -> advance (at_bit i) = Ok (at_bit j).
Proof.
  intros Hij Hj Hn. unfold advance. rewrite (rightmost_false i j) by done. cbn [rbind vi_bitmap vi_next vi_key vi_node].
  pose proof (nib_val_lt j). destruct (nib_of_lt (nib_val i + 1)) as (m & _ & Hm); [lia|]. rewrite (shl1_nib i m Hm).
  rewrite (seek_ok 16 m j); [done|lia|done| |lia]. intros x Hx. apply Hn. lia.
Qed.
End Bits.

(** ** The iterator on one version *)
Section Iter.
Context (sha : bytes -> bytes) (s : store) (u : N) (M : pairs) (ver : path -> N).
Context (HH : Holds sha (st_nodes s) u M ver).
Notation node_of := (node_of sha).
Notation children_of := (children_of sha).
Notation lkeys := (lkeys M).
Notation pend := (pend M).

Let Hw : wfm M := h_wf _ _ _ _ _ HH.

Definition vp (p : path) : N := match p with [] => u | _ => ver p end.
Definition inode_of (p : path) : inode := INode (children_of M ver p) (Some (N.of_nat (pcnt p M))).
Lemma inode_kids p : in_children (inode_of p) = children_of M ver p.
Proof. done. Qed.
Lemma node_int p : 2 <= pcnt p M -> node_of M ver p = NInternal (inode_of p).
Proof. apply node_of_internal. Qed.
Definition vis (p : path) (i : nib) : visit :=
  Visit (vp p, p) (inode_of p) (ebits (children_of M ver p)) (N.shiftl 1 (nib_val i)).
Inductive Stk : list visit -> path -> Prop :=
| Stk_nil : Stk [] []
| Stk_cons st p i : Stk st p -> 2 <= pcnt p M -> pcnt (p ++ [i]) M <> 0 -> Stk (vis p i :: st) (p ++ [i]).

Lemma occ_iff p i : is_Some (children_of M ver p !! i) <-> pcnt (p ++ [i]) M <> 0.
Proof.
  rewrite children_of_lookup. case_decide as H; [split; [by intros [? ?]|done]|]. split; [done|eauto].
Qed.
Lemma occ_none p i : children_of M ver p !! i = None <-> pcnt (p ++ [i]) M = 0.
Proof. rewrite children_of_lookup. case_decide; done. Qed.

Lemma Stk_live st q : Stk st q -> q = [] \/ live [] M q.
Proof.
  inversion 1 as [|st' p i Hs H2 H0]; subst; [by left|right].
  split_and!; [apply prefix_nil|lia|]. right. by rewrite removelast_last.
Qed.
Lemma node_at q : q = [] \/ live [] M q -> st_nodes s !! (vp q, q) = Some (node_of M ver q).
Proof.
  intros [->|Hl]; [apply (h_root _ _ _ _ _ HH)|]. destruct q as [|i q]; [apply (h_root _ _ _ _ _ HH)|].
  by apply (h_live _ _ _ _ _ HH).
Qed.
Lemma Stk_node st q : Stk st q -> st_nodes s !! (vp q, q) = Some (node_of M ver q).
Proof. intros H. apply node_at. by eapply Stk_live. Qed.
Lemma Stk_root st q : Stk st q -> st <> [] -> 2 <= pcnt [] M.
Proof.
  inversion 1 as [|st' p i Hs H2 H0]; subst; [done|]. intros _. etrans; [exact H2|]. apply pcnt_mono, prefix_nil.
Qed.
Lemma Stk_nonnil st q : Stk st q -> st <> [] <-> q <> [].
Proof. inversion 1; subst; [done|]. split; intros _; [by destruct p|done]. Qed.
Lemma Stk_snoc st p i : Stk st p -> 2 <= pcnt p M -> pcnt (p ++ [i]) M <> 0 -> Stk (vis p i :: st) (p ++ [i]).
Proof. by constructor. Qed.
Lemma vp_snoc p i : vp (p ++ [i]) = ver (p ++ [i]).
Proof. by destruct p. Qed.
Lemma first_child p : 2 <= pcnt p M ->
  exists i, pcnt (p ++ [i]) M <> 0 /\ forall n, (nib_val n < nib_val i)%N -> pcnt (p ++ [n]) M = 0.
Proof.
  intros H2. destruct (decide (Exists (fun i => pcnt (p ++ [i]) M <> 0) all_nibs)) as [Hex|Hno].
  - apply Exists_exists in Hex as (i0 & _ & H0).
    destruct (nib_first (fun i => pcnt (p ++ [i]) M <> 0) i0 H0) as (i & Hi & _ & Hn).
    exists i. split; [done|]. intros n Hlt. specialize (Hn n Hlt). lia.
  - exfalso. pose proof (pcnt_sum M p Hw (pcnt_short M p Hw H2)) as Hs.
    assert (forall l, (forall i, i ∈ l -> pcnt (p ++ [i]) M = 0) ->
      sum_list_with (fun i => pcnt (p ++ [i]) M) l = 0) as Hz.
    { induction l as [|a l IH]; intros Hl; cbn [sum_list_with]; [done|]. rewrite Hl, IH; [done| |left].
      intros. apply Hl. by right. }
    rewrite Hz in Hs; [lia|]. intros i Hi. destruct (decide (pcnt (p ++ [i]) M = 0)) as [|Hne]; [done|].
    exfalso. apply Hno, Exists_exists. eauto.
Qed.

Lemma cleanup_ok st q : Stk st q -> exists st', cleanup st = Ok st' /\
  ((st' = [] /\ pend q = []) \/ exists q', st' <> [] /\ Stk st' q' /\ pend q = lkeys q' ++ pend q').
Proof.
  induction 1 as [|st p i Hs IH H2 H0]; cbn [cleanup].
  { exists []. split; [done|]. left. done. }
  destruct (decide (Exists (fun j => pcnt (p ++ [j]) M <> 0) (nibs_after i))) as [Hex|Hno].
  - apply Exists_exists in Hex as (j0 & Hj0 & Hc0). apply elem_after in Hj0.
    destruct (nib_first (fun j => (nib_val i < nib_val j)%N /\ pcnt (p ++ [j]) M <> 0) j0 (conj Hj0 Hc0))
      as (j & [Hij Hcj] & _ & Hn).
    assert (forall n, (nib_val i < nib_val n < nib_val j)%N -> pcnt (p ++ [n]) M = 0) as Hn'.
    { intros n [Hn1 Hn2]. specialize (Hn n Hn2). destruct (decide (pcnt (p ++ [n]) M = 0)); [done|]. tauto. }
    unfold vis at 1. rewrite (rightmost_false (children_of M ver p) (vp p, p) (inode_of p) i j) by (done || by apply occ_iff).
    cbn [rbind]. unfold vis at 1. rewrite (advance_ok (children_of M ver p) (vp p, p) (inode_of p) i j);
      [|done|by apply occ_iff|intros; apply occ_none; by apply Hn'].
    cbn [rbind]. eexists. split; [reflexivity|]. right. exists (p ++ [j]). split; [done|]. split; [by apply Stk_snoc|].
    by apply pend_next.
  - assert (forall n, (nib_val i < nib_val n)%N -> pcnt (p ++ [n]) M = 0) as Hn.
    { intros n Hlt. destruct (decide (pcnt (p ++ [n]) M = 0)); [done|]. exfalso. apply Hno, Exists_exists.
      exists n. by rewrite elem_after. }
    unfold vis at 1. rewrite (rightmost_true (children_of M ver p) (vp p, p) (inode_of p) i);
      [|by apply occ_iff|intros; apply occ_none; by apply Hn].
    cbn [rbind]. rewrite (pend_last M p i Hn). done.
Qed.

(** *** One call of [next] *)
Context (val : bytes -> bytes).
Context (Hval : forall q k h, q = [] \/ live [] M q -> subm (path_bits q) M = {[k := h]} ->
  st_get_value s (vp q) k = Ok (val k)).

Definition State (it : iter) (l : list bytes) : Prop :=
  it_version it = u /\
  ((it_done it = true /\ l = []) \/
   (it_done it = false /\ it_stack it = [] /\ 2 <= pcnt [] M /\ l = []) \/
   (it_done it = false /\ it_stack it = [] /\ pcnt [] M = 1 /\ l = lkeys []) \/
   (it_done it = false /\ it_stack it <> [] /\ exists q, Stk (it_stack it) q /\ l = lkeys q ++ pend q)).

Lemma State_cleanup st q : Stk st q -> 2 <= pcnt [] M ->
  exists st', cleanup st = Ok st' /\ State (Iter u st' false) (pend q) /\ (st' = [] -> pend q = []).
Proof.
  intros Hs H2. destruct (cleanup_ok st q Hs) as (st' & E & [[-> Hp]|(q' & Hne & Hs' & Hp)]).
  - exists []. split; [done|]. split; [|done]. split; [done|]. right; left. cbn. done.
  - exists st'. split; [done|]. split; [|done]. split; [done|]. do 3 right. cbn. eauto.
Qed.

Lemma it_loop_ok f : forall st q, Stk st q -> st <> [] -> 65 <= f + length q ->
  exists k l it', lkeys q ++ pend q = k :: l /\ it_loop f s u st = Ok (Some (inl (k, val k)), it') /\ State it' l.
Proof.
  induction f as [|f IH]; intros st q Hs Hne Hf.
  - exfalso. destruct (Stk_live _ _ Hs) as [->|Hl]; [cbn [length] in Hf; lia|].
    pose proof (live_pos _ _ _ Hl) as Hp. apply cnt_pos_inv in Hp as (k & x & Hk & Hq).
    rewrite key_bits_nibs in Hq. apply path_bits_prefix in Hq. apply prefix_length in Hq.
    rewrite nibs_length, (Hw _ _ Hk) in Hq. lia.
  - pose proof (Stk_root _ _ Hs Hne) as Hroot. pose proof (Stk_node _ _ Hs) as Hnode.
    pose proof (Stk_live _ _ Hs) as Hlv.
    inversion Hs as [|st0 p i Hs0 H2 H0]; subst; [done|]. cbn [it_loop vis vi_next vi_node vi_key].
    rewrite trailing_one, nib_of_val. rewrite inode_kids, children_of_lookup, decide_False by done.
    unfold child_key. cbn [snd JmtAbsProof.child_of c_ver]. rewrite vp_snoc in Hnode. rewrite Hnode.
    destruct (decide (2 <= pcnt (p ++ [i]) M)) as [Hi|Hi].
    + rewrite node_int by done.
      destruct (first_child _ Hi) as (j & Hj & Hfirst).
      rewrite (visit_new_ok (children_of M ver (p ++ [i])) (ver (p ++ [i]), p ++ [i]) (inode_of (p ++ [i])) eq_refl j);
        [|by apply occ_iff|intros; apply occ_none; by apply Hfirst].
      cbn [rbind]. rewrite <-vp_snoc. change (Visit _ _ _ _) with (vis (p ++ [i]) j).
      rewrite (enter_first M Hw (p ++ [i]) j Hi Hfirst).
      apply IH; [by apply Stk_snoc|done|]. rewrite app_length. cbn [length]. rewrite app_length in *. cbn [length] in *. lia.
    + destruct (cnt_1 (path_bits (p ++ [i])) M) as (k & x & E); [lia|].
      rewrite (node_of_leaf sha _ _ _ _ _ E). cbn [fst]. rewrite <-vp_snoc, (Hval _ _ _ Hlv E).
      destruct (State_cleanup _ _ Hs Hroot) as (st' & Ec & Hst & _).
      change (Visit _ _ _ _) with (vis p i). rewrite Ec. cbn [rbind].
      rewrite (lkeys_1 M _ _ _ E). eexists _, _, _. split; [reflexivity|]. split; [reflexivity|]. done.
Qed.

Lemma next_ok it l : State it l ->
  match l with
  | [] => it_next s it = Ok (None, it)
  | k :: l' => exists it', it_next s it = Ok (Some (inl (k, val k)), it') /\ State it' l'
  end.
Proof.
  intros [Hv [[Hd ->]|[(Hd & Hst & H2 & ->)|[(Hd & Hst & H1 & ->)|(Hd & Hst & q & Hs & ->)]]]]; unfold it_next; rewrite Hd.
  - done.
  - rewrite Hst, Hv, (h_root _ _ _ _ _ HH), node_int by done. done.
  - destruct (cnt_1 _ _ H1) as (k & x & E). rewrite (lkeys_1 M _ _ _ E).
    rewrite Hst, Hv, (h_root _ _ _ _ _ HH), (node_of_leaf sha _ _ _ _ _ E).
    pose proof (Hval [] k x (or_introl eq_refl) E) as HV. cbn [vp] in HV. rewrite HV.
    eexists. split; [reflexivity|]. split; [done|]. left. done.
  - destruct (it_loop_ok 65 _ _ Hs Hst ltac:(lia)) as (k & l & it' & El & Eit & HS). rewrite El.
    exists it'. split; [|done]. destruct (it_stack it) as [|vi st] eqn:Es; [done|]. by rewrite Hv.
Qed.

(** *** Starting from a key *)
Lemma from_pend start p : p `prefix_of` nibs start -> keys_from start (pend p) = pend p.
Proof.
  induction p as [|i p IH] using rev_ind; intros Hp; [done|]. rewrite pend_snoc. unfold keys_from in *.
  rewrite filter_app, IH by (etrans; [apply prefix_snoc_self|exact Hp]). f_equal. apply filter_all.
  intros k Hk. apply elem_of_list_In, in_flat_map in Hk as (j & Hj & Hk). apply elem_of_list_In, elem_after in Hj.
  apply elem_of_list_In in Hk. apply (lkeys_elem M Hw) in Hk as [_ Hk]. apply klt_asym. by apply (prefix_klt p i j).
Qed.
Lemma from_step start p i : 2 <= pcnt p M -> p ++ [i] `prefix_of` nibs start ->
  keys_from start (lkeys p) ++ pend p = keys_from start (lkeys (p ++ [i])) ++ pend (p ++ [i]).
Proof.
  intros H2 Hp. rewrite (lkeys_2 M Hw p H2), pend_snoc, app_assoc. f_equal. unfold keys_from.
  rewrite (nibs_split i) at 1. rewrite flat_map_app, filter_app. cbn [flat_map]. rewrite filter_app.
  rewrite filter_none; [cbn [app]; f_equal; apply filter_all|].
  - intros k Hk. apply elem_of_list_In, in_flat_map in Hk as (j & Hj & Hk). apply elem_of_list_In, elem_after in Hj.
    apply elem_of_list_In in Hk. apply (lkeys_elem M Hw) in Hk as [_ Hk]. apply klt_asym. by apply (prefix_klt p i j).
  - intros k Hk Hn. apply elem_of_list_In, in_flat_map in Hk as (j & Hj & Hk). apply elem_of_list_In, elem_before in Hj.
    apply elem_of_list_In in Hk. apply (lkeys_elem M Hw) in Hk as [_ Hk]. apply Hn. by apply (prefix_klt p j i).
Qed.

Lemma leaf_start start p st k x : Stk st p -> subm (path_bits p) M = {[k := x]} ->
  exists it, (if key_ltb k start
      then rbind (cleanup st) (fun st =>
             Ok (Iter u st (match st with [] => true | _ => false end)))
      else Ok (Iter u st false)) = Ok it /\ State it (keys_from start (lkeys p) ++ pend p).
Proof.
  intros Hs E. rewrite (lkeys_1 M _ _ _ E). unfold keys_from.
  destruct (key_ltb k start) eqn:Elt.
  - apply key_ltb_lt in Elt. rewrite filter_cons_False by (intros Hn; exact (Hn Elt)). cbn [filter list_filter app].
    destruct (cleanup_ok _ _ Hs) as (st' & -> & [[-> Hpe]|(q' & Hne & Hs' & Hpe)]); cbn [rbind].
    + eexists. split; [reflexivity|]. split; [done|]. left. done.
    + eexists. split; [reflexivity|]. split; [done|]. do 3 right. cbn [it_done it_stack].
      destruct st' as [|vi st']; [done|]. split; [done|]. split; [done|]. exists q'. done.
  - assert (~ bytes_lt k start) as Hn by (rewrite <-key_ltb_lt, Elt; done).
    rewrite filter_cons_True by done. cbn [filter list_filter].
    eexists. split; [reflexivity|]. split; [done|]. right; right. cbn [it_done it_stack].
    destruct st as [|vi st].
    + left. inversion Hs; subst. rewrite (lkeys_1 M _ _ _ E). split_and!; [done..| |done].
      by apply (cnt_single _ _ _ _ E).
    + right. split; [done|]. split; [done|]. exists p. split; [done|]. by rewrite (lkeys_1 M _ _ _ E).
Qed.
Lemma descend_ok start : length start = 32 -> forall rest p st, Stk st p -> p ++ rest = nibs start ->
  exists it, it_descend s u start rest (vp p, p) st = Ok it /\ State it (keys_from start (lkeys p) ++ pend p).
Proof.
  intros Hlen rest. induction rest as [|i rest IH]; intros p st Hs Hp.
  all: assert (p `prefix_of` nibs start) as Hpre by (rewrite <-Hp; by eexists).
  all: cbn [it_descend]; unfold st_get_node; rewrite (Stk_node _ _ Hs); cbn [rbind].
  all: destruct (decide (pcnt p M = 0)) as [H0|H0].
  1, 3: rewrite node_of_null by done; inversion Hs as [|st0 p0 i0 Hs0 H2 Hc]; subst; [|done];
    eexists; (split; [reflexivity|]); (split; [done|]); left; (split; [done|]); by rewrite lkeys_0 by done.
  all: destruct (decide (pcnt p M = 1)) as [H1|H1].
  1, 3: destruct (cnt_1 _ _ H1) as (k & x & E); rewrite (node_of_leaf sha _ _ _ _ _ E); by apply (leaf_start start p st k x).
  - exfalso. pose proof (pcnt_short M p Hw ltac:(lia)) as Hsh. rewrite app_nil_r in Hp.
    pose proof (nibs_length start) as L. rewrite <-Hp, Hlen in L. lia.
  - assert (2 <= pcnt p M) as H2 by lia. rewrite node_int by done. rewrite inode_kids.
    assert (p ++ [i] `prefix_of` nibs start) as Hpi by (rewrite <-Hp; exists rest; by rewrite <-app_assoc).
    rewrite (from_step start p i H2 Hpi). rewrite children_of_lookup. case_decide as Hc.
    + rewrite (lkeys_0 M _ Hc). cbn [app]. rewrite gen_bitmaps_ok. cbn [rbind fst].
      destruct (first_child p H2) as (i1 & Hi1 & _).
      destruct (nib_last (fun j => pcnt (p ++ [j]) M <> 0) i1 Hi1) as (l & Hl & _ & Hn).
      rewrite (leading_ebits (children_of M ver p) l); [|by apply occ_iff|].
      2: { intros x Hx. apply occ_none. specialize (Hn x Hx). lia. }
      pose proof (nib_val_lt l) as Hll. destruct (N.ltb_spec 15 (15 - nib_val l)) as [|_]; [lia|].
      replace (15 - (15 - nib_val l))%N with (nib_val l) by lia.
      destruct (N.ltb_spec (nib_val i) (nib_val l)) as [Hil|Hil].
      * destruct (nib_first (fun j => (nib_val i < nib_val j)%N /\ pcnt (p ++ [j]) M <> 0) l (conj Hil Hl))
          as (j & [Hij Hcj] & _ & Hnj).
        assert (forall n, (nib_val i < nib_val n < nib_val j)%N -> pcnt (p ++ [n]) M = 0) as Hn'.
        { intros n [Hn1 Hn2]. specialize (Hnj n Hn2). destruct (decide (pcnt (p ++ [n]) M = 0)); [done|]. tauto. }
        rewrite (visit_at_ok (children_of M ver p) (vp p, p) (inode_of p) eq_refl i j); [|lia|by apply occ_iff|].
        2: { intros n [Hn1 Hn2]. apply occ_none. destruct (decide (nib_val n = nib_val i)) as [En|En].
             - apply nib_val_inj in En. by subst n.
             - apply Hn'. lia. }
        cbn [rbind]. eexists. split; [reflexivity|]. split; [done|]. do 3 right. cbn [it_done it_stack].
        split; [done|]. split; [done|]. exists (p ++ [j]). split; [by apply (Stk_snoc st p j)|]. by apply pend_next.
      * rewrite (pend_last M p i). 2: { intros n Hlt. specialize (Hn n ltac:(lia)). lia. }
        destruct (State_cleanup st p Hs) as (st' & -> & HS & _).
        { etrans; [exact H2|]. apply pcnt_mono, prefix_nil. }
        cbn [rbind]. eexists. split; [reflexivity|done].
    + cbn [JmtAbsProof.child_of c_ver].
      rewrite (visit_at_ok (children_of M ver p) (vp p, p) (inode_of p) eq_refl i i); [|lia|by apply occ_iff|lia].
      cbn [rbind]. unfold child_key. cbn [snd]. rewrite <-vp_snoc. change (Visit _ _ _ _) with (vis p i).
      apply IH; [by apply Stk_snoc|]. by rewrite <-app_assoc.
Qed.

Lemma iter_new_ok start : length start = 32 ->
  exists it, iter_new s u start = Ok it /\ State it (keys_from start (lkeys [])).
Proof.
  intros Hl. destruct (descend_ok start Hl (nibs start) [] [] Stk_nil eq_refl) as (it & E & HS).
  exists it. split; [exact E|]. rewrite app_nil_r in HS. exact HS.
Qed.

(** *** Starting from an index *)
Lemma skip_ok p idx (ns : list nib) : StronglySorted (fun i j => nib_val i < nib_val j)%N ns -> forall sk,
  sk <= idx -> idx < sk + length (flat_map (fun i => lkeys (p ++ [i])) ns) ->
  exists i sk', skip_leaves (omap (fun i => if decide (pcnt (p ++ [i]) M = 0) then None
       else Some (i, JmtAbsProof.child_of sha M ver (p ++ [i]))) ns) (N.of_nat sk) (N.of_nat idx)
     = Ok (i, JmtAbsProof.child_of sha M ver (p ++ [i]), N.of_nat sk') /\
  pcnt (p ++ [i]) M <> 0 /\ sk' <= idx /\ idx < sk' + pcnt (p ++ [i]) M /\ i ∈ ns /\
  drop (idx - sk) (flat_map (fun i => lkeys (p ++ [i])) ns) =
  drop (idx - sk') (lkeys (p ++ [i])) ++
  flat_map (fun i => lkeys (p ++ [i])) (filter (fun j => nib_val i < nib_val j)%N ns).
Proof.
  induction 1 as [|a ns Hss IH Hf]; intros sk H1 H2; [cbn [flat_map length] in H2; lia|].
  cbn [flat_map] in H2 |- *. rewrite app_length, (lkeys_length M Hw) in H2. cbn [omap list_omap].
  assert (forall i sk', pcnt (p ++ [a]) M <= idx - sk -> i ∈ ns ->
     drop (idx - (sk + pcnt (p ++ [a]) M)) (flat_map (fun i => lkeys (p ++ [i])) ns) =
     drop (idx - sk') (lkeys (p ++ [i])) ++
       flat_map (fun i => lkeys (p ++ [i])) (filter (fun j => nib_val i < nib_val j)%N ns) ->
     drop (idx - sk) (lkeys (p ++ [a]) ++ flat_map (fun i => lkeys (p ++ [i])) ns) =
     drop (idx - sk') (lkeys (p ++ [i])) ++
       flat_map (fun i => lkeys (p ++ [i])) (filter (fun j => nib_val i < nib_val j)%N (a :: ns))) as Hdrop.
  { intros i sk' Hle Hin E. rewrite drop_app_ge; rewrite (lkeys_length M Hw); [|lia].
    rewrite filter_cons_False. 2: { rewrite Forall_forall in Hf. specialize (Hf i Hin). lia. }
    rewrite <-E. f_equal. lia. }
  case_decide as Hc.
  - rewrite Hc in *. destruct (IH sk) as (i & sk' & E & Hi & Hs1 & Hs2 & Hin & Hd); [lia..|].
    exists i, sk'. split_and!; [done..|by right|]. apply Hdrop; [lia|done|]. by rewrite Nat.add_0_r.
  - cbn [skip_leaves]. rewrite child_count by done.
    destruct (N.leb_spec (N.of_nat sk + N.of_nat (pcnt (p ++ [a]) M)) (N.of_nat idx)) as [Hle|Hgt].
    + destruct (IH (sk + pcnt (p ++ [a]) M)) as (i & sk' & E & Hi & Hs1 & Hs2 & Hin & Hd); [lia..|].
      rewrite <-Nat2N.inj_add. exists i, sk'. split_and!; [done..|by right|]. apply Hdrop; [lia|done|done].
    + exists a, sk. split_and!; [done|done|lia|lia|left|].
      rewrite drop_app_le by (rewrite (lkeys_length M Hw); lia). f_equal.
      rewrite filter_cons_False by lia. rewrite filter_all; [done|]. intros j Hj. rewrite Forall_forall in Hf.
      by apply Hf.
Qed.

Lemma index_ok idx f : forall p st sk, Stk st p -> sk <= idx -> idx < sk + pcnt p M -> 65 <= f + length p ->
  exists it, it_index f s u (N.of_nat idx) (vp p, p) (node_of M ver p) (N.of_nat sk) st = Ok it /\
    State it (drop (idx - sk) (lkeys p) ++ pend p).
Proof.
  induction f as [|f IH]; intros p st sk Hs H1 H2 Hf.
  - exfalso. assert (0 < pcnt p M) as Hp by lia. apply cnt_pos_inv in Hp as (k & x & Hk & Hq).
    rewrite key_bits_nibs in Hq. apply path_bits_prefix in Hq. apply prefix_length in Hq.
    rewrite nibs_length, (Hw _ _ Hk) in Hq. lia.
  - cbn [it_index]. destruct (decide (2 <= pcnt p M)) as [Hc|Hc].
    + rewrite node_int by done. rewrite inode_kids. rewrite children_sorted_of. unfold children_list.
      destruct (skip_ok p idx all_nibs all_nibs_sorted sk H1) as (i & sk' & E & Hi & Hs1 & Hs2 & _ & Hd).
      { rewrite <-(lkeys_2 M Hw) by done. by rewrite (lkeys_length M Hw). }
      rewrite E. cbn [rbind]. cbn [JmtAbsProof.child_of c_ver].
      rewrite (visit_at_ok (children_of M ver p) (vp p, p) (inode_of p) eq_refl i i); [|lia|by apply occ_iff|lia].
      cbn [rbind]. unfold child_key. cbn [snd]. rewrite <-vp_snoc. change (Visit _ _ _ _) with (vis p i).
      pose proof (Stk_snoc st p i Hs Hc Hi) as Hs'. unfold st_get_node. rewrite (Stk_node _ _ Hs'). cbn [rbind].
      rewrite (lkeys_2 M Hw p Hc), Hd, <-app_assoc. change (filter _ all_nibs) with (nibs_after i).
      rewrite <-pend_snoc. apply IH; [done..|]. rewrite app_length. cbn [length]. lia.
    + assert (pcnt p M = 1) as Hc1 by lia. destruct (cnt_1 _ _ Hc1) as (k & x & E).
      rewrite (node_of_leaf sha _ _ _ _ _ E). assert (idx = sk) as -> by lia. rewrite N.eqb_refl, Nat.sub_diag.
      eexists. split; [reflexivity|]. split; [done|]. right; right. cbn [it_done it_stack]. rewrite drop_0.
      destruct st as [|vi st]; [left; inversion Hs; subst; rewrite app_nil_r; done|right].
      split; [done|]. split; [done|]. eauto.
Qed.

Lemma iter_index_ok idx : exists it, iter_new_by_index s u (N.of_nat idx) = Ok it /\ State it (drop idx (lkeys [])).
Proof.
  unfold iter_new_by_index, st_get_node. rewrite (h_root _ _ _ _ _ HH). cbn [rbind].
  rewrite node_of_leaf_count. destruct (N.leb_spec (N.of_nat (pcnt [] M)) (N.of_nat idx)) as [Hle|Hgt].
  - eexists. split; [reflexivity|]. split; [done|]. left. split; [done|]. apply drop_ge. rewrite (lkeys_length M Hw). lia.
  - destruct (index_ok idx 65 [] [] 0 Stk_nil) as (it & E & HS); [lia..|].
    exists it. split; [exact E|]. rewrite Nat.sub_0_r, app_nil_r in HS. exact HS.
Qed.
End Iter.
