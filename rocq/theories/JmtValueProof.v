(** The value history of the store. *)
From Verif Require Import Base JmtSpec JmtModel.
Local Open Scope N_scope.

(** The recorded writes of one key: version and value, oldest first. *)
Fixpoint entries (k : bytes) (v : N) (sets : list (list write)) : list (N * option bytes) :=
  match sets with
  | [] => []
  | ws :: sets' =>
      match last_write_in k ws with Some x => [(v, x)] | None => [] end ++ entries k (v + 1) sets'
  end.
Lemma entries_app k v a b : entries k v (a ++ b) = entries k v a ++ entries k (v + N.of_nat (length a)) b.
Proof.
  revert v. induction a as [|ws a IH]; intros v.
  - cbn [length app entries]. by replace (v + N.of_nat 0) with v by lia.
  - cbn [app entries length]. rewrite IH, <-app_assoc. do 3 f_equal. lia.
Qed.
Lemma entries_elem k v sets w x :
  (w, x) ∈ entries k v sets <->
  v <= w /\ exists ws, sets !! N.to_nat (w - v) = Some ws /\ last_write_in k ws = Some x.
Proof.
  revert v. induction sets as [|ws sets IH]; intros v; cbn [entries].
  - rewrite elem_of_nil. split; [done|]. intros (_ & ws & H & _). by rewrite lookup_nil in H.
  - rewrite elem_of_app, IH. split.
    + intros [H|(Hle & ws' & Hl & He)].
      * destruct (last_write_in k ws) eqn:E; [|by apply elem_of_nil in H].
        apply elem_of_list_singleton in H. injection H as -> ->. split; [lia|].
        exists ws. by rewrite N.sub_diag.
      * split; [lia|]. exists ws'. split; [|done].
        replace (N.to_nat (w - v)) with (S (N.to_nat (w - (v + 1)))) by lia. done.
    + intros (Hle & ws' & Hl & He). destruct (decide (w = v)) as [->|Hne].
      * rewrite N.sub_diag in Hl. cbn in Hl. injection Hl as ->. left. rewrite He. by apply elem_of_list_singleton.
      * right. split; [lia|]. exists ws'. split; [|done].
        replace (N.to_nat (w - v)) with (S (N.to_nat (w - (v + 1)))) in Hl by lia. done.
Qed.
Lemma entries_ge k v sets e : e ∈ entries k v sets -> v <= fst e < v + N.of_nat (length sets).
Proof.
  destruct e as [w x]. rewrite entries_elem. intros (? & ws & Hl & _). apply lookup_lt_Some in Hl. cbn. lia.
Qed.
Definition lt_ver (a b : N * option bytes) : Prop := fst a < fst b.
Lemma entries_sorted k v sets : StronglySorted lt_ver (entries k v sets).
Proof.
  revert v. induction sets as [|ws sets IH]; intros v; cbn [entries]; [constructor|].
  destruct (last_write_in k ws); cbn [app]; [|apply IH]. constructor; [apply IH|].
  apply Forall_forall. intros e He%entries_ge. unfold lt_ver. cbn. lia.
Qed.

(** Two version-sorted lists with the same elements are equal. *)
Lemma sorted_eq (l1 l2 : list (N * option bytes)) :
  StronglySorted lt_ver l1 -> StronglySorted lt_ver l2 -> (forall e, e ∈ l1 <-> e ∈ l2) -> l1 = l2.
Proof.
  intros H1. revert l2. induction H1 as [|a l1 Hs1 IH Hf1]; intros l2 H2 He.
  - destruct l2 as [|b l2]; [done|]. exfalso. apply (not_elem_of_nil b), He. left.
  - destruct H2 as [|b l2 Hs2 Hf2].
    { exfalso. apply (not_elem_of_nil a), He. left. }
    assert (a = b) as ->.
    { assert (a ∈ b :: l2) as Ha by (apply He; left). assert (b ∈ a :: l1) as Hb by (apply He; left).
      apply elem_of_cons in Ha as [->|Ha]; [done|]. apply elem_of_cons in Hb as [->|Hb]; [done|].
      rewrite Forall_forall in Hf1, Hf2. apply Hf1 in Hb. apply Hf2 in Ha. unfold lt_ver in *. lia. }
    f_equal. apply IH; [done|]. intros e. rewrite Forall_forall in Hf1, Hf2. split; intros Hin.
    + assert (e ∈ b :: l2) as Hc by (apply He; by right). apply elem_of_cons in Hc as [->|?]; [|done].
      apply Hf1 in Hin. unfold lt_ver in Hin. lia.
    + assert (e ∈ b :: l1) as Hc by (apply He; by right). apply elem_of_cons in Hc as [->|?]; [|done].
      apply Hf2 in Hin. unfold lt_ver in Hin. lia.
Qed.

(** ** Reading *)
Lemma elem_rev {A} (e : A) l : e ∈ rev l <-> e ∈ l.
Proof. rewrite !elem_of_list_In. symmetry. apply in_rev. Qed.
Fixpoint hist_hit (l : list (N * option bytes)) (max : N) : option (option bytes) :=
  match l with
  | [] => None
  | (v, x) :: l' => if v <=? max then Some x else hist_hit l' max
  end.
Lemma hist_find_hit l max : hist_find l max = match hist_hit l max with Some x => x | None => None end.
Proof. induction l as [|[v x] l IH]; cbn; [done|]. destruct (v <=? max); [by destruct x|done]. Qed.
Lemma hist_hit_app a b max :
  hist_hit (a ++ b) max = match hist_hit a max with Some x => Some x | None => hist_hit b max end.
Proof. induction a as [|[v x] a IH]; cbn; [done|]. by destruct (v <=? max). Qed.
Lemma hist_hit_none l max : (forall e, e ∈ l -> max < fst e) -> hist_hit l max = None.
Proof.
  induction l as [|[v x] l IH]; intros H; cbn; [done|].
  assert (max < v) as Hv by (apply (H (v, x)); left).
  replace (v <=? max) with false by (symmetry; apply N.leb_gt; lia). apply IH. intros e He. apply H. by right.
Qed.
Lemma hist_hit_entries k v sets max : v <= max ->
  hist_hit (rev (entries k v sets)) max = last_write k (take (S (N.to_nat (max - v))) sets).
Proof.
  revert v. induction sets as [|ws sets IH]; intros v Hv; [by cbn|].
  cbn [entries take last_write]. rewrite rev_app_distr, hist_hit_app.
  assert (hist_hit (rev (entries k (v + 1) sets)) max = last_write k (take (N.to_nat (max - v)) sets)) as E.
  { destruct (decide (v = max)) as [->|Hne].
    - rewrite N.sub_diag. cbn. apply hist_hit_none. intros e He%elem_rev%entries_ge. lia.
    - rewrite IH by lia. do 2 f_equal. lia. }
  rewrite E. destruct (last_write k (take _ sets)); [done|].
  destruct (last_write_in k ws) as [x|]; cbn; [|done].
  by replace (v <=? max) with true by (symmetry; apply N.leb_le; lia).
Qed.

Definition hist_ok (s : store) (sets : list (list write)) : Prop :=
  forall k, st_hist s !! k = match entries k 0 sets with [] => None | l => Some l end.
Lemma hist_ok_read s sets max k : hist_ok s sets -> st_get_value_option s max k = value_at k sets max.
Proof.
  intros H. unfold st_get_value_option, value_at. rewrite H.
  pose proof (hist_hit_entries k 0 sets max ltac:(lia)) as E. rewrite N.sub_0_r in E. rewrite <-E.
  destruct (entries k 0 sets) as [|e l]; [done|]. rewrite hist_find_hit.
  destruct (hist_hit _ _) as [[x|]|]; done.
Qed.

(** The value of a key by last write is its value in the contents. *)
Lemma apply_set_lookup m ws k :
  apply_set m ws !! k = match last_write_in k ws with Some x => x | None => m !! k end.
Proof.
  unfold apply_set. revert m. induction ws as [|[k' x] ws IH]; intros m; cbn [fold_left last_write_in]; [done|].
  rewrite IH. destruct (last_write_in k ws); [done|]. unfold apply_write. cbn [fst snd].
  case_decide as Hk.
  - subst. destruct x; [by rewrite lookup_insert|by rewrite lookup_delete].
  - destruct x; [by rewrite lookup_insert_ne|by rewrite lookup_delete_ne].
Qed.
Lemma fold_sets_lookup m sets k :
  fold_left apply_set sets m !! k = match last_write k sets with Some x => x | None => m !! k end.
Proof.
  revert m. induction sets as [|ws sets IH]; intros m; cbn [fold_left last_write]; [done|].
  rewrite IH. destruct (last_write k sets); [done|]. apply apply_set_lookup.
Qed.
Lemma contents_value sets v k : contents_at sets v !! k = value_at k sets v.
Proof.
  unfold contents_at, value_at. rewrite fold_sets_lookup, lookup_empty. by destruct (last_write k _) as [[x|]|].
Qed.

(** ** Writing *)
Definition of_key (k : bytes) (vals : list (N * bytes * option bytes)) : list (N * option bytes) :=
  omap (fun e : N * bytes * option bytes =>
          if decide (snd (fst e) = k) then Some (fst (fst e), snd e) else None) vals.
Lemma of_key_cons k w k' x vals :
  of_key k ((w, k', x) :: vals) = if decide (k' = k) then (w, x) :: of_key k vals else of_key k vals.
Proof. unfold of_key. cbn. by case_decide. Qed.
Lemma of_key_elem k vals w x : (w, x) ∈ of_key k vals <-> (w, k, x) ∈ vals.
Proof.
  unfold of_key. rewrite elem_of_list_omap. split.
  - intros ([[w' k'] x'] & Hin & E). cbn in E. case_decide; [|done]. by simplify_eq.
  - intros Hin. exists (w, k, x). split; [done|]. cbn. by rewrite decide_True.
Qed.

Lemma unsnoc_app {A} (l : list A) x : JmtNibModel.unsnoc (l ++ [x]) = Some (l, x).
Proof. unfold JmtNibModel.unsnoc. rewrite rev_app_distr. cbn. by rewrite rev_involutive. Qed.
Lemma hist_put_append l v x : (forall e, e ∈ l -> fst e < v) -> hist_put (Some l) v x = Ok (l ++ [(v, x)]).
Proof.
  intros H. unfold hist_put. destruct l as [|e l] using rev_ind; [done|]. clear IHl.
  rewrite unsnoc_app. destruct e as [lv y].
  assert (lv < v) as Hlt by (apply (H (lv, y)); apply elem_of_app; right; by apply elem_of_list_singleton).
  replace (v <? lv) with false by (symmetry; apply N.ltb_ge; lia).
  by replace (v =? lv) with false by (symmetry; apply N.eqb_neq; lia).
Qed.

Lemma hist_puts_ok vals h :
  (forall k, StronglySorted lt_ver (of_key k vals)) ->
  (forall k l e e', h !! k = Some l -> e ∈ l -> e' ∈ of_key k vals -> fst e < fst e') ->
  exists h', hist_puts vals h = Ok h' /\
    forall k, h' !! k = match of_key k vals with [] => h !! k | l => Some (default [] (h !! k) ++ l) end.
Proof.
  revert h. induction vals as [|[[w k0] x] vals IH]; intros h Hs Hh; [by exists h|].
  cbn [hist_puts].
  assert (hist_put (h !! k0) w x = Ok (default [] (h !! k0) ++ [(w, x)])) as E.
  { destruct (h !! k0) as [l|] eqn:El; [|done]. cbn [from_option id]. apply hist_put_append.
    intros e He. apply (Hh k0 l e (w, x) El He). rewrite of_key_cons, decide_True by done. left. }
  rewrite E. cbn [rbind].
  destruct (IH (<[k0 := default [] (h !! k0) ++ [(w, x)]]> h)) as (h' & E' & Hh').
  - intros k. specialize (Hs k). rewrite of_key_cons in Hs. case_decide; [|done]. by inversion Hs.
  - intros k l e e' Hl He He'. destruct (decide (k0 = k)) as [<-|Hne].
    + rewrite lookup_insert in Hl. injection Hl as <-. apply elem_of_app in He as [He|He].
      * destruct (h !! k0) as [l|] eqn:El; [|by apply elem_of_nil in He].
        apply (Hh k0 l e e' El He). rewrite of_key_cons, decide_True by done. by right.
      * apply elem_of_list_singleton in He as ->. specialize (Hs k0).
        rewrite of_key_cons, decide_True in Hs by done. inversion Hs as [|? ? _ Hf]; subst.
        rewrite Forall_forall in Hf. by apply Hf in He'.
    + rewrite lookup_insert_ne in Hl by done. apply (Hh k l e e' Hl He).
      rewrite of_key_cons, decide_False by done. done.
  - exists h'. split; [done|]. intros k. rewrite Hh', of_key_cons. destruct (decide (k0 = k)) as [<-|Hne].
    + rewrite lookup_insert. cbn [from_option id]. destruct (of_key k0 vals); [done|]. by rewrite <-app_assoc.
    + by rewrite lookup_insert_ne.
Qed.

Lemma values_elem m w k x : (w, k, x) ∈ values_sorted m <-> m !! (w, k) = Some x.
Proof. unfold values_sorted. rewrite merge_sort_Permutation. apply elem_of_map_to_list. Qed.
Lemma values_of_key_sorted m k : StronglySorted lt_ver (of_key k (values_sorted m)).
Proof.
  assert (StronglySorted le_ver (values_sorted m)) as Hs.
  { apply StronglySorted_merge_sort.
    - intros a b c. unfold le_ver. lia.
    - intros a b. unfold le_ver. lia. }
  assert (NoDup (fst <$> values_sorted m)) as Hd.
  { unfold values_sorted. rewrite merge_sort_Permutation. apply NoDup_fst_map_to_list. }
  revert Hs Hd. generalize (values_sorted m). intros l. induction l as [|[[w k'] x] l IH]; intros Hs Hd; [constructor|].
  rewrite of_key_cons. inversion Hs as [|? ? Hs' Hf]; subst. cbn in Hd. apply NoDup_cons in Hd as [Hn Hd].
  case_decide as Hk; [|by apply IH]. subst k'. constructor; [by apply IH|].
  apply Forall_forall. intros [w' x'] Hin%of_key_elem. rewrite Forall_forall in Hf.
  pose proof (Hf _ Hin) as Hle. unfold le_ver in Hle. cbn in Hle. unfold lt_ver. cbn.
  assert (w <> w'); [|lia]. intros <-. apply Hn. apply elem_of_list_fmap. by exists (w, k, x').
Qed.

Lemma write_values_ok s sets sets' values :
  hist_ok s sets ->
  (forall w k, values !! (w, k) =
     if decide (N.of_nat (length sets) <= w)
     then match sets' !! N.to_nat (w - N.of_nat (length sets)) with
          | Some ws => last_write_in k ws | None => None end
     else None) ->
  exists h', hist_puts (values_sorted values) (st_hist s) = Ok h' /\
    forall k, h' !! k = match entries k 0 (sets ++ sets') with [] => None | l => Some l end.
Proof.
  intros Hs Hv. set (n := N.of_nat (length sets)) in *.
  assert (forall k, of_key k (values_sorted values) = entries k n sets') as Ek.
  { intros k. apply sorted_eq; [apply values_of_key_sorted|apply entries_sorted|].
    intros [w x]. rewrite of_key_elem, values_elem, entries_elem, Hv. case_decide as Hle.
    - destruct (sets' !! _) as [ws|]; naive_solver.
    - naive_solver. }
  destruct (hist_puts_ok (values_sorted values) (st_hist s)) as (h' & E & Hh).
  - intros k. apply values_of_key_sorted.
  - intros k l e e' Hl He He'. rewrite Ek in He'. apply entries_ge in He'. rewrite Hs in Hl.
    assert (e ∈ entries k 0 sets) as He2 by (destruct (entries k 0 sets); [done|by injection Hl as <-]).
    apply entries_ge in He2. fold n in He2. lia.
  - exists h'. split; [done|]. intros k. rewrite Hh, Ek, Hs, entries_app. fold n.
    replace (0 + n) with n by lia. destruct (entries k n sets') as [|e' l'] eqn:E2.
    + by rewrite app_nil_r.
    + destruct (entries k 0 sets) as [|e l]; done.
Qed.
