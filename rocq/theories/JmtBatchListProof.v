(** Lemmas on the lists of a batch: collecting into a [BTreeMap], and the ranges
    of equal nibbles as groups. *)
From Verif Require Import Base JmtNibModel JmtSpec JmtNibSpec JmtNibProof JmtNibMoreProof JmtModel JmtIterModel
  JmtIterProof JmtOrderProof JmtHashProof JmtAbsProof JmtNibProps JmtBatchModel.
Local Open Scope nat_scope.

(** ** [bt_collect] *)
Notation kv := (bytes * bytes)%type.
Definition asc (l : list kv) : Prop := StronglySorted (fun a b => bytes_lt (fst a) (fst b)) l.

Lemma bt_insert_fst k x l k' x' : (k', x') ∈ bt_insert k x l -> k' = k \/ (k', x') ∈ l.
Proof.
  induction l as [|[a b] l IH]; cbn [bt_insert].
  - intros H%elem_of_list_singleton. left. congruence.
  - destruct (key_ltb k a); [|destruct (key_ltb a k)].
    + intros [H|H]%elem_of_cons; [left; congruence|by right].
    + intros [H|H]%elem_of_cons; [right; rewrite H; left|]. destruct (IH H) as [?|?]; [by left|by right; right].
    + intros [H|H]%elem_of_cons; [left; congruence|right; by right].
Qed.
Lemma bt_insert_asc k x l : asc l -> asc (bt_insert k x l).
Proof.
  unfold asc. induction 1 as [|[a b] l Hl IH Ha]; cbn [bt_insert]; [by repeat constructor|].
  destruct (key_ltb k a) eqn:E1; [|destruct (key_ltb a k) eqn:E2].
  - apply key_ltb_lt in E1. constructor; [by constructor|]. constructor; [done|].
    eapply Forall_impl; [exact Ha|]. intros [c d] H. cbn [fst] in *. by eapply klt_trans.
  - apply key_ltb_lt in E2. constructor; [done|]. rewrite Forall_forall in Ha |- *. intros [c d] H.
    apply bt_insert_fst in H as [->|H]; [done|]. by apply (Ha (c, d)).
  - destruct (klt_total k a) as [H|[->|H]].
    + apply key_ltb_lt in H. congruence.
    + constructor; done.
    + apply key_ltb_lt in H. congruence.
Qed.
Lemma bt_insert_elem k x l k' x' : asc l ->
  (k', x') ∈ bt_insert k x l <-> (k' = k /\ x' = x) \/ (k' <> k /\ (k', x') ∈ l).
Proof.
  unfold asc. induction 1 as [|[a b] l Hl IH Ha]; cbn [bt_insert].
  - rewrite elem_of_list_singleton, elem_of_nil. naive_solver.
  - rewrite Forall_forall in Ha.
    destruct (key_ltb k a) eqn:E1; [|destruct (key_ltb a k) eqn:E2].
    + apply key_ltb_lt in E1. rewrite elem_of_cons. split.
      * intros [H|H]; [left; naive_solver|]. right. split; [|done]. intros ->.
        apply elem_of_cons in H as [H|H].
        -- injection H as -> ->. by apply klt_irrefl in E1.
        -- apply Ha in H. cbn [fst] in H. by apply (klt_asym k a).
      * intros [[-> ->]|[_ H]]; [by left|by right].
    + apply key_ltb_lt in E2. rewrite !elem_of_cons, IH. split.
      * intros [H|[H|H]]; [|by left|tauto]. injection H as -> ->. right. split; [|by left].
        intros ->. by apply klt_irrefl in E2.
      * tauto.
    + assert (k = a) as ->.
      { destruct (klt_total k a) as [H|[H|H]]; [|done|]; apply key_ltb_lt in H; congruence. }
      rewrite !elem_of_cons. split.
      * intros [H|H]; [left; naive_solver|]. right. split; [|by right]. intros ->.
        apply Ha in H. cbn [fst] in H. by apply klt_irrefl in H.
      * intros [[-> ->]|[Hne [H|H]]]; [by left|congruence|by right].
Qed.

Definition somes (kvs : list kv) : list write := map (fun p => (fst p, Some (snd p))) kvs.
Lemma last_write_in_snoc k ws k' x : last_write_in k (ws ++ [(k', x)]) =
  if decide (k' = k) then Some x else last_write_in k ws.
Proof.
  induction ws as [|[a b] ws IH]; cbn [app last_write_in].
  - by case_decide.
  - rewrite IH. case_decide; [done|]. done.
Qed.
Lemma bt_collect_ok kvs : asc (bt_collect kvs) /\
  forall k x, (k, x) ∈ bt_collect kvs <-> last_write_in k (somes kvs) = Some (Some x).
Proof.
  induction kvs as [|[a b] kvs IH] using rev_ind.
  - split; [constructor|]. intros k x. cbn. rewrite elem_of_nil. split; [done|congruence].
  - destruct IH as [IH1 IH2]. unfold bt_collect in *. rewrite fold_left_app. cbn [fold_left fst snd].
    split; [by apply bt_insert_asc|]. intros k x. rewrite bt_insert_elem by done. rewrite IH2.
    unfold somes. rewrite map_app. cbn [map fst snd]. rewrite last_write_in_snoc. case_decide as Hk.
    + subst a. split; [intros [[_ ->]|[? _]]; done|]. intros H. left. split; [done|congruence].
    + split; [intros [[? _]|[_ ?]]; [congruence|done]|]. intros H. right. split; [congruence|done].
Qed.
Lemma last_write_in_elem k ws y : last_write_in k ws = Some y -> (k, y) ∈ ws.
Proof.
  induction ws as [|[a b] ws IH]; cbn [last_write_in]; [done|].
  destruct (last_write_in k ws) as [z|].
  - intros H. right. apply IH. congruence.
  - case_decide; [|done]. intros [=]. subst. left.
Qed.
Lemma asc_unique l k x y : asc l -> (k, x) ∈ l -> (k, y) ∈ l -> x = y.
Proof.
  unfold asc. induction 1 as [|[a b] l Hl IH Ha]; [by intros ?%elem_of_nil|].
  rewrite Forall_forall in Ha. intros [E1|H1]%elem_of_cons [E2|H2]%elem_of_cons.
  - congruence.
  - injection E1 as -> ->. apply Ha in H2. cbn [fst] in H2. by apply klt_irrefl in H2.
  - injection E2 as -> ->. apply Ha in H1. cbn [fst] in H1. by apply klt_irrefl in H1.
  - by apply IH.
Qed.
Lemma last_write_in_sorted kvs k : last_write_in k (somes (bt_collect kvs)) = last_write_in k (somes kvs).
Proof.
  destruct (bt_collect_ok kvs) as [Ha He].
  assert (forall l, last_write_in k (somes l) <> Some None) as Hn.
  { intros l H. apply last_write_in_elem in H. apply elem_of_list_fmap in H as ([c d] & E & _). cbn in E. congruence. }
  assert (forall x, last_write_in k (somes (bt_collect kvs)) = Some (Some x) <-> (k, x) ∈ bt_collect kvs) as Hs.
  { intros x. split.
    - intros H. apply last_write_in_elem in H. apply elem_of_list_fmap in H as ([c d] & E & H). cbn in E.
      injection E as -> ->. done.
    - intros H. destruct (last_write_in k (somes (bt_collect kvs))) as [[y|]|] eqn:E.
      + apply last_write_in_elem in E. apply elem_of_list_fmap in E as ([c d] & E & H'). cbn in E.
        injection E as -> ->. by rewrite (asc_unique _ _ _ _ Ha H H').
      + by apply Hn in E.
      + exfalso. clear -H E. induction (bt_collect kvs) as [|[a b] l IH]; [by apply elem_of_nil in H|].
        cbn [somes map fst snd last_write_in] in E. fold (somes l) in E.
        destruct (last_write_in k (somes l)) as [z|]; [done|].
        apply elem_of_cons in H as [H|H]; [|by apply IH]. injection H as -> ->. by rewrite decide_True in E. }
  destruct (last_write_in k (somes kvs)) as [[x|]|] eqn:E.
  - apply Hs, He. done.
  - by apply Hn in E.
  - destruct (last_write_in k (somes (bt_collect kvs))) as [[x|]|] eqn:E'; [|by apply Hn in E'|done].
    pose proof (proj1 (Hs x) eq_refl) as X. apply He in X. congruence.
Qed.
Lemma asc_sorted l : asc l -> sorted_keys l.
Proof.
  unfold asc. induction 1 as [|[a b] l Hl IH Ha]; intros i j ki kj Hij Hi Hj; [done|].
  rewrite Forall_forall in Ha. destruct j as [|j]; [lia|]. cbn in Hj.
  apply fmap_Some in Hj as ([c d] & Hj & ->). destruct i as [|i].
  - cbn in Hi. injection Hi as <-. apply (Ha (c, d)). by eapply elem_of_list_lookup_2.
  - cbn in Hi. apply (IH i j); [lia|done|]. exact (f_equal (fmap (M := option) fst) Hj).
Qed.
Lemma sorted_map (h : bytes -> bytes) (l : list kv) : sorted_keys l -> sorted_keys (map (fun p => (fst p, h (snd p))) l).
Proof.
  intros H i j ki kj Hij. change (map ?g l) with (g <$> l). rewrite !list_lookup_fmap.
  intros Hi Hj. apply (H i j); [done|..].
  - destruct (l !! i); done.
  - destruct (l !! j); done.
Qed.

(** ** Groups *)
Fixpoint each_group {A} (step : nib -> list kv -> A -> res jerr A) (gs : list (nib * list kv)) (a : A) : res jerr A :=
  match gs with
  | [] => Ok a
  | (i, sub) :: gs' => rbind (step i sub a) (each_group step gs')
  end.

Lemma nib_at p k i : p `prefix_of` nibs k -> p ++ [i] `prefix_of` nibs k <-> nibs k !! length p = Some i.
Proof.
  intros Hp. split.
  - intros H. apply prefix_snoc_lookup in H as [_ H]. exact H.
  - intros H. apply prefix_lookup; [|done..]. by eapply lookup_lt_Some.
Qed.
Lemma digit_nib k ix i : digits k !! ix = Some (nib_val i) <-> nibs k !! ix = Some i.
Proof.
  rewrite <-nibs_digits. change (map nib_val (nibs k)) with (nib_val <$> nibs k). rewrite list_lookup_fmap.
  destruct (nibs k !! ix) as [j|]; cbn; [|done]. split; [|congruence]. intros E. f_equal. apply nib_val_inj. congruence.
Qed.

Section Groups.
Context (p : path) (kvs : list kv).
Hypothesis Hp : length p < 64.
Hypothesis Hk : forall x, x ∈ kvs -> length (fst x) = 32 /\ p `prefix_of` nibs (fst x).
Hypothesis Hs : sorted_keys kvs.

Lemma slice_elem l r x : r < length kvs -> x ∈ take (S r - l) (drop l kvs) <-> exists m, l <= m <= r /\ kvs !! m = Some x.
Proof.
  intros Hr. rewrite elem_of_list_lookup. split.
  - intros [j Hj]. apply lookup_take_Some in Hj as [Hj Hlt]. rewrite lookup_drop in Hj.
    exists (l + j). split; [lia|done].
  - intros (m & Hm & Hj). exists (m - l). apply lookup_take_Some. split; [|lia].
    rewrite lookup_drop. by replace (l + (m - l)) with m by lia.
Qed.
Lemma slice_sorted l r : sorted_keys (take (S r - l) (drop l kvs)).
Proof.
  intros i j ki kj Hij Hi Hj. apply fmap_Some in Hi as (x & Hi & ->). apply fmap_Some in Hj as (y & Hj & ->).
  apply lookup_take_Some in Hi as [Hi _]. apply lookup_take_Some in Hj as [Hj _]. rewrite lookup_drop in Hi, Hj.
  apply (Hs (l + i) (l + j)); [lia|by rewrite Hi|by rewrite Hj].
Qed.

Lemma groups_of rs : forall from,
  tiles from (length kvs) rs ->
  (forall l r, (l, r) ∈ rs -> exists x, forall m,
      l <= m <= r <-> (fst <$> kvs !! m) ≫= (fun k => digits k !! length p) = Some x) ->
  exists gs,
    (forall A (step : nib -> list kv -> A -> res jerr A) a,
       each_range step kvs (length p) rs a = each_group step gs a) /\
    NoDup (map fst gs) /\
    (forall i sub, (i, sub) ∈ gs -> sub <> [] /\ sorted_keys sub /\
       (forall x, x ∈ sub <-> x ∈ kvs /\ p ++ [i] `prefix_of` nibs (fst x)) /\
       exists m x, from <= m /\ kvs !! m = Some x /\ nibs (fst x) !! length p = Some i) /\
    (forall m x, from <= m -> kvs !! m = Some x -> exists i sub, (i, sub) ∈ gs /\ x ∈ sub).
Proof.
  induction rs as [|[l r] rs IH]; intros from Ht Hr.
  - cbn [tiles] in Ht. subst from. exists []. split_and!; [done|constructor|by intros ? ? ?%elem_of_nil|].
    intros m x Hm Hx. apply lookup_lt_Some in Hx. lia.
  - cbn [tiles] in Ht. destruct Ht as (-> & [Hlr Hrk] & Ht).
    destruct (IH (S r) Ht) as (gs & E & Hnd & Hg & Hc).
    { intros l' r' H'. apply Hr. by right. }
    destruct (Hr from r) as [d Hd]; [left|].
    destruct (lookup_lt_is_Some_2 kvs from) as [[k y] Hky]; [lia|].
    destruct (Hk _ (elem_of_list_lookup_2 _ _ _ Hky)) as [Hlen Hpk]. cbn [fst] in Hlen, Hpk.
    destruct (lookup_lt_is_Some_2 (nibs k) (length p)) as [i Hi]; [rewrite nibs_length; lia|].
    assert (d = nib_val i) as ->.
    { pose proof (proj1 (Hd from) ltac:(lia)) as X. rewrite Hky in X. change (digits k !! length p = Some d) in X.
      apply digit_nib in Hi. congruence. }
    set (sub := take (S r - from) (drop from kvs)).
    assert (forall x, x ∈ sub <-> x ∈ kvs /\ p ++ [i] `prefix_of` nibs (fst x)) as Hsub.
    { intros x. unfold sub. rewrite slice_elem by done. split.
      - intros (m & Hm & Hx). pose proof (elem_of_list_lookup_2 _ _ _ Hx) as Hin. split; [done|].
        apply nib_at; [by apply Hk|]. apply digit_nib. apply Hd in Hm. by rewrite Hx in Hm.
      - intros [Hin Hpi]. apply elem_of_list_lookup in Hin as [m Hm]. exists m. split; [|done].
        apply Hd. rewrite Hm. cbn. apply digit_nib. apply prefix_snoc_lookup in Hpi as [_ Hpi]. done. }
    exists ((i, sub) :: gs). split_and!.
    + intros A step a. cbn [each_range each_group]. rewrite Hky, get_nibble_lookup, Hi.
      unfold slice. replace ((from <=? S r) && (S r <=? length kvs)) with true; cycle 1.
      { symmetry. apply andb_true_iff. split; apply Nat.leb_le; lia. }
      cbn [rbind]. fold sub. destruct (step i sub a) as [a'| | |]; cbn [rbind]; [apply E|done..].
    + cbn [map fst]. constructor; [|done]. intros ([i' sub'] & -> & Hin)%elem_of_list_fmap. cbn [fst] in Hi, Hd, Hsub.
      destruct (Hg _ _ Hin) as (_ & _ & _ & m & x & Hm & Hx & Hi'). cbn [fst] in *.
      assert (from <= m <= r); [|lia]. apply Hd. rewrite Hx. cbn. by apply digit_nib.
    + intros i' sub' [H|H]%elem_of_cons.
      * injection H as -> ->. split_and!; [|apply slice_sorted|done|].
        -- intros X. assert ((k, y) ∈ sub) as Y.
           { apply slice_elem; [done|]. exists from. split; [lia|done]. }
           rewrite X in Y. by apply elem_of_nil in Y.
        -- exists from, (k, y). split_and!; [lia|done|done].
      * destruct (Hg _ _ H) as (G1 & G2 & G3 & m & x & Hm & G4). split_and!; [done..|].
        exists m, x. split; [lia|done].
    + intros m x Hm Hx. destruct (decide (m <= r)) as [Hle|Hle].
      * exists i, sub. split; [left|]. apply slice_elem; [done|]. exists m. split; [lia|done].
      * destruct (Hc m x) as (i' & sub' & H1 & H2); [lia|done|]. exists i', sub'. split; [by right|done].
Qed.

Lemma ranges_ok : exists rs gs, ranges kvs (length p) = Ok rs /\
    (forall A (step : nib -> list kv -> A -> res jerr A) a,
       each_range step kvs (length p) rs a = each_group step gs a) /\
    NoDup (map fst gs) /\
    (forall i sub, (i, sub) ∈ gs -> sub <> [] /\ sorted_keys sub /\
       forall x, x ∈ sub <-> x ∈ kvs /\ p ++ [i] `prefix_of` nibs (fst x)) /\
    (forall x, x ∈ kvs -> exists i sub, (i, sub) ∈ gs /\ x ∈ sub).
Proof.
  destruct (C46_ranges_partition kvs (length p) Hp) as (rs & E & Ht & Hr).
  { apply Forall_forall. intros x Hx. by apply Hk. }
  { done. }
  { exists (map nib_val p). apply Forall_forall. intros x Hx. destruct (Hk _ Hx) as [_ [t Et]].
    rewrite <-nibs_digits, Et, map_app. rewrite take_app_alt; [done|]. by rewrite map_length. }
  destruct (groups_of rs 0 Ht Hr) as (gs & H1 & H2 & H3 & H4).
  exists rs, gs. split_and!; [unfold ranges; by rewrite E|done|done| |].
  - intros i sub H. destruct (H3 _ _ H) as (? & ? & ? & _). done.
  - intros x [m Hm]%elem_of_list_lookup. apply (H4 m x); [lia|done].
Qed.
End Groups.
