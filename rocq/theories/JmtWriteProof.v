(** Lemmas about writing to the store entry by entry. *)
From Coq Require Import Sorting.Sorted.
From stdpp Require Import sorting.
From Verif Require Import Base JmtNibModel JmtModel JmtNibProof JmtPurgeProof JmtValueProof JmtMoreProof JmtWriteModel.
Local Open Scope N_scope.

(** ** The history of one key *)
Definition keyed (k : bytes) (vals : list (N * bytes * option bytes)) : list (N * option bytes) :=
  flat_map (fun '((v, k'), x) => if decide (k' = k) then [(v, x)] else []) vals.
Fixpoint key_puts (l : list (N * option bytes)) (o : option (list (N * option bytes))) : res jerr (option (list (N * option bytes))) :=
  match l with
  | [] => Ok o
  | (v, x) :: l' => rbind (hist_put o v x) (fun h => key_puts l' (Some h))
  end.
Lemma keyed_elem k vals v x : (v, x) ∈ keyed k vals <-> (v, k, x) ∈ vals.
Proof.
  unfold keyed. rewrite elem_of_list_In, in_flat_map. split.
  - intros ([[v' k'] x'] & Hin & Hx). case_decide as Hd; [|done]. destruct Hx as [E|[]]. injection E as -> ->. subst k'.
    by apply elem_of_list_In.
  - intros Hin. exists (v, k, x). split; [by apply elem_of_list_In|]. rewrite decide_True by done. by left.
Qed.
Lemma hist_puts_keyed vals : forall h h',
  hist_puts vals h = Ok h' <-> forall k, key_puts (keyed k vals) (h !! k) = Ok (h' !! k).
Proof.
  induction vals as [|[[v k] x] vals IH]; intros h h'.
  - cbn. split; [by intros [= ->]|]. intros H. f_equal. apply map_eq. intros k. specialize (H k). by injection H.
  - cbn [hist_puts]. assert (forall k0, keyed k0 ((v, k, x) :: vals) = (if decide (k = k0) then [(v, x)] else []) ++ keyed k0 vals) as Hk by done.
    split.
    + intros E. apply rbind_inv in E as (l & El & E). rewrite IH in E. intros k0. rewrite Hk. specialize (E k0).
      case_decide as Hd; cbn [app key_puts].
      * subst k0. rewrite El. cbn [rbind]. by rewrite lookup_insert in E.
      * by rewrite lookup_insert_ne in E.
    + intros H. pose proof (H k) as H0. rewrite Hk, decide_True in H0 by done. cbn [app key_puts] in H0.
      apply rbind_inv in H0 as (l & El & H0). rewrite El. cbn [rbind]. apply IH. intros k0.
      destruct (decide (k = k0)) as [<-|Hne]; [by rewrite lookup_insert|rewrite lookup_insert_ne by done].
      specialize (H k0). rewrite Hk, decide_False in H by done. exact H.
Qed.

(** ** Values in the order of a map *)
Definition ver_lt (a b : N * option bytes) : Prop := fst a < fst b.
(** An order of the entries of [m] that is by version first. *)
Definition lists_values (m : gmap (N * bytes) (option bytes)) (l : list (N * bytes * option bytes)) : Prop :=
  l ≡ₚ map_to_list m /\ StronglySorted le_ver l.
Lemma values_sorted_lists m : lists_values m (values_sorted m).
Proof.
  split; [apply merge_sort_Permutation|]. apply StronglySorted_merge_sort.
  - intros a b c. unfold le_ver. lia.
  - intros a b. unfold le_ver. lia.
Qed.
Lemma lists_elem m l v k x : lists_values m l -> (v, k, x) ∈ l <-> m !! (v, k) = Some x.
Proof. intros [Hp _]. rewrite Hp. apply elem_of_map_to_list. Qed.
Lemma ver_lt_unique l l' : StronglySorted ver_lt l -> StronglySorted ver_lt l' -> (forall a, a ∈ l <-> a ∈ l') -> l = l'.
Proof.
  assert (forall l, StronglySorted ver_lt l -> NoDup l) as Hnd.
  { intros l0 H. induction H as [|a l0 H IH Hf]; constructor; [|done]. intros Hin.
    rewrite Forall_forall in Hf. specialize (Hf a Hin). unfold ver_lt in Hf. lia. }
  intros H H' Hi. assert (AntiSymm eq ver_lt) by (intros a b; unfold ver_lt; lia).
  apply (StronglySorted_unique ver_lt); [done..|]. apply NoDup_Permutation; [by apply Hnd..|exact Hi].
Qed.
Lemma keyed_sorted m l k : lists_values m l -> StronglySorted ver_lt (keyed k l).
Proof.
  intros [Hp Hs]. assert (NoDup l.*1) as Hd by (rewrite Hp; apply NoDup_fst_map_to_list). clear Hp.
  induction Hs as [|[[v k'] x] l Hs IH Hf]; [constructor|]. cbn in Hd. apply NoDup_cons in Hd as [Hni Hd].
  change (StronglySorted ver_lt ((if decide (k' = k) then [(v, x)] else []) ++ keyed k l)).
  case_decide as Hk; cbn [app]; [|by apply IH]. subst k'. constructor; [by apply IH|].
  apply Forall_forall. intros [v' x'] Hin. apply keyed_elem in Hin. unfold ver_lt. cbn [fst].
  rewrite Forall_forall in Hf. pose proof (Hf _ Hin) as Hle. unfold le_ver in Hle. cbn [fst] in Hle.
  assert (v <> v') as Hne; [|lia]. intros <-. apply Hni. apply elem_of_list_fmap. by exists (v, k, x').
Qed.
Lemma lists_keyed m l l' k : lists_values m l -> lists_values m l' -> keyed k l = keyed k l'.
Proof.
  intros H H'. apply ver_lt_unique; [by eapply keyed_sorted..|]. intros [v x].
  by rewrite !keyed_elem, (lists_elem m l), (lists_elem m l').
Qed.
(** The order of the keys does not matter. *)
Lemma hist_puts_order m l l' h h' : lists_values m l -> lists_values m l' -> hist_puts l h = Ok h' -> hist_puts l' h = Ok h'.
Proof. intros H H'. rewrite !hist_puts_keyed. intros E k. by rewrite <-(lists_keyed m l l' k). Qed.

(** ** Writing and writing again *)
Lemma hist_put_last o v x l : hist_put o v x = Ok l -> exists i, l = i ++ [(v, x)].
Proof.
  unfold hist_put. destruct o as [l0|]; [|intros [= <-]; by exists []]. destruct (unsnoc l0) as [[i [lv y]]|]; [|intros [= <-]; by exists []].
  destruct (v <? lv); [done|]. destruct (N.eqb_spec v lv) as [->|]; intros [= <-]; by eexists.
Qed.
Lemma hist_put_again o v x y l : hist_put o v x = Ok l -> hist_put (Some l) v y = hist_put o v y.
Proof.
  unfold hist_put at 1. intros E. unfold hist_put.
  assert (forall i : list (N * option bytes), l = i ++ [(v, x)] ->
    match unsnoc l with None => Ok [(v, y)] | Some (init, (lv, _)) =>
      if v <? lv then Err ValuesOutOfOrder else if v =? lv then Ok (init ++ [(lv, y)]) else Ok (l ++ [(v, y)]) end
    = Ok (i ++ [(v, y)])) as H.
  { intros i ->. rewrite unsnoc_app, N.ltb_irrefl, N.eqb_refl. done. }
  destruct o as [l0|]; [|injection E as <-; by apply (H [])].
  destruct (unsnoc l0) as [[i [lv z]]|]; [|injection E as <-; by apply (H [])].
  destruct (v <? lv); [done|]. destruct (N.eqb_spec v lv) as [->|]; injection E as <-; by apply H.
Qed.
Lemma hist_put_above l w y v x l' : hist_put (Some (l ++ [(w, y)])) v x = Ok l' -> w <= v.
Proof. unfold hist_put. rewrite unsnoc_app. destruct (N.ltb_spec v w); [done|]. lia. Qed.
Lemma key_puts_app a b o : key_puts (a ++ b) o = rbind (key_puts a o) (fun o' => key_puts b o').
Proof.
  revert o. induction a as [|[v x] a IH]; intros o; [done|]. cbn [app key_puts].
  destruct (hist_put o v x); cbn [rbind]; [apply IH|done..].
Qed.
Lemma sorted_app a b : StronglySorted ver_lt a -> StronglySorted ver_lt b ->
  (forall e f, e ∈ a -> f ∈ b -> ver_lt e f) -> StronglySorted ver_lt (a ++ b).
Proof.
  intros Ha Hb H. induction Ha as [|e a Ha IH Hf]; [done|]. cbn [app]. constructor.
  - apply IH. intros e0 f He0. apply H. by right.
  - apply Forall_app. split; [done|]. apply Forall_forall. intros f Hin. apply H; [by left|done].
Qed.
Lemma sorted_app_inv a b : StronglySorted ver_lt (a ++ b) -> StronglySorted ver_lt a /\
  forall e f, e ∈ a -> f ∈ b -> ver_lt e f.
Proof.
  induction a as [|e a IH]; intros H; [split; [constructor|intros ?? []%elem_of_nil]|].
  cbn [app] in H. apply StronglySorted_inv in H as [H Hf]. destruct (IH H) as [H1 H2]. apply Forall_app in Hf as [F1 F2]. split.
  - by constructor.
  - intros e0 f [->|He]%elem_of_cons Hin; [|by apply H2]. rewrite Forall_forall in F2. by apply F2.
Qed.
(** Two ascending lists of entries one after the other, or merged. *)
Lemma key_puts_merge l1 l2 l o o1 o2 : StronglySorted ver_lt l1 -> StronglySorted ver_lt l2 -> StronglySorted ver_lt l ->
  (forall v x, (v, x) ∈ l <-> (v, x) ∈ l2 \/ ((v, x) ∈ l1 /\ forall y, (v, y) ∉ l2)) ->
  key_puts l1 o = Ok o1 -> key_puts l2 o1 = Ok o2 -> key_puts l o = Ok o2.
Proof.
  intros S1 S2 S Hl E1 E2. destruct l2 as [|[w2 y2] l2].
  { injection E2 as <-. assert (l = l1) as -> by (apply ver_lt_unique; [done..|]; intros [v x]; rewrite Hl; split;
      [by intros [[]%elem_of_nil|[? _]]|intros H; right; split; [done|by intros y []%elem_of_nil]]). done. }
  destruct l1 as [|[w y] l1 _] using rev_ind.
  { injection E1 as <-. assert (l = (w2, y2) :: l2) as -> by (apply ver_lt_unique; [done..|]; intros [v x]; rewrite Hl; split;
      [by intros [?|[[]%elem_of_nil _]]|by left]). done. }
  rewrite key_puts_app in E1. apply rbind_inv in E1 as (oa & Ea & E1). cbn [key_puts] in E1.
  apply rbind_inv in E1 as (h1 & Eh & E1). injection E1 as <-.
  pose proof E2 as E2'. cbn [key_puts] in E2. apply rbind_inv in E2 as (h2 & Eh2 & E2).
  destruct (sorted_app_inv _ _ S1) as [Sa Ha].
  assert (forall e, e ∈ l1 -> fst e < w) as Hlt1.
  { intros e He. apply (Ha e (w, y) He). by apply elem_of_list_singleton. }
  assert (forall e, e ∈ l2 -> w2 < fst e) as Hlt2.
  { intros e He. apply StronglySorted_inv in S2 as [_ F]. rewrite Forall_forall in F. by apply (F e). }
  assert (w <= w2) as Hle.
  { destruct (hist_put_last _ _ _ _ Eh) as [i ->]. by eapply hist_put_above. }
  destruct (decide (w = w2)) as [->|Hne].
  - assert (l = l1 ++ (w2, y2) :: l2) as ->.
    { apply ver_lt_unique; [done| |].
      - apply sorted_app; [done..|]. intros e f He [->|Hf]%elem_of_cons; [by apply Hlt1|]. specialize (Hlt1 e He). specialize (Hlt2 f Hf). unfold ver_lt. lia.
      - intros [v x]. rewrite Hl, !elem_of_app, elem_of_list_singleton. split.
        + intros [?|[[?|E] Hno]]; [by right|by left|]. injection E as -> ->. destruct (Hno y2). by left.
        + intros [H|H]; [|by left]. right. split; [by left|]. intros z [E|Hz]%elem_of_cons.
          * injection E as -> ->. specialize (Hlt1 _ H). cbn in Hlt1. lia.
          * specialize (Hlt1 _ H). specialize (Hlt2 _ Hz). cbn in *. lia. }
    rewrite key_puts_app, Ea. cbn [rbind key_puts]. rewrite <-(hist_put_again oa w2 y y2 h1 Eh), Eh2. done.
  - assert (l = (l1 ++ [(w, y)]) ++ (w2, y2) :: l2) as ->.
    { assert (forall e f, e ∈ l1 ++ [(w, y)] -> f ∈ (w2, y2) :: l2 -> fst e < fst f) as Hd.
      { intros e f [He|He]%elem_of_app [->|Hf]%elem_of_cons; try (apply elem_of_list_singleton in He as ->); cbn [fst].
        - specialize (Hlt1 e He). lia.
        - specialize (Hlt1 e He). specialize (Hlt2 f Hf). lia.
        - lia.
        - specialize (Hlt2 f Hf). lia. }
      apply ver_lt_unique; [done| |].
      - apply sorted_app; [done..|]. exact Hd.
      - intros [v x]. rewrite Hl, (elem_of_app (l1 ++ [(w, y)])). split; [tauto|].
        intros [H|H]; [|by left]. right. split; [done|]. intros z Hz. specialize (Hd _ _ H Hz). cbn in Hd. lia. }
    rewrite !key_puts_app, Ea. cbn [rbind key_puts]. rewrite Eh. cbn [rbind]. exact E2'.
Qed.
Lemma hist_puts_merge v1 v2 h h1 h2 : hist_puts (values_sorted v1) h = Ok h1 -> hist_puts (values_sorted v2) h1 = Ok h2 ->
  hist_puts (values_sorted (merge_values v1 v2)) h = Ok h2.
Proof.
  rewrite !hist_puts_keyed. intros E1 E2 k. pose proof (values_sorted_lists v1) as L1. pose proof (values_sorted_lists v2) as L2.
  pose proof (values_sorted_lists (merge_values v1 v2)) as L.
  apply (key_puts_merge (keyed k (values_sorted v1)) (keyed k (values_sorted v2)) _ _ (h1 !! k) (h2 !! k));
    [by eapply keyed_sorted..| |done|done].
  intros v x. rewrite !keyed_elem, (lists_elem _ _ v k x L), (lists_elem _ _ v k x L1), (lists_elem _ _ v k x L2). unfold merge_values.
  rewrite lookup_union_Some_raw. split; intros [?|[H1 H2]]; [by left| |by left|]; right.
  - split; [done|]. intros y Hy. rewrite keyed_elem, (lists_elem _ _ v k y L2) in Hy. congruence.
  - split; [|done]. destruct (v2 !! (v, k)) as [y|] eqn:Ey; [|done]. destruct (H2 y). by rewrite keyed_elem, (lists_elem _ _ v k y L2).
Qed.

(** ** What a write leaves behind *)
Lemma insert_nodes_ok over : forall l n, NoDup l.*1 -> over = true \/ (forall nk, nk ∈ l.*1 -> n !! nk = None) ->
  insert_nodes over l n = (Ok tt, list_to_map l ∪ n).
Proof.
  induction l as [|[nk nd] l IH]; intros n Hd Hn; cbn [insert_nodes].
  { by rewrite list_to_map_nil, (left_id_L ∅ _). }
  cbn in Hd. apply NoDup_cons in Hd as [Hni Hd].
  assert (insert_nodes over l (<[nk := nd]> n) = (Ok tt, list_to_map ((nk, nd) :: l) ∪ n)) as E.
  { rewrite IH; [|done|].
    - f_equal. rewrite list_to_map_cons, <-insert_union_l. symmetry. apply insert_union_r.
      by apply not_elem_of_list_to_map_1.
    - destruct Hn as [->|Hn]; [by left|right]. intros nk' Hin. rewrite lookup_insert_ne by (by intros ->).
      apply Hn. by right. }
  destruct Hn as [->|Hn]; [exact E|]. rewrite (Hn nk) by (by left). by destruct over.
Qed.
Lemma insert_nodes_clash : forall l n, NoDup l.*1 -> (exists nk, nk ∈ l.*1 /\ is_Some (n !! nk)) ->
  fst (insert_nodes false l n) = Panic.
Proof.
  induction l as [|[nk nd] l IH]; intros n Hd (nk' & Hin & Hs); cbn [insert_nodes]; [by apply elem_of_nil in Hin|].
  cbn in Hd. apply NoDup_cons in Hd as [Hni Hd]. destruct (n !! nk) as [x|] eqn:E; [done|].
  cbn in Hin. apply elem_of_cons in Hin as [->|Hin]; [rewrite E in Hs; by destruct Hs|].
  apply IH; [done|]. exists nk'. split; [done|]. rewrite lookup_insert_ne; [done|]. by intros ->.
Qed.
Lemma insert_values_ok : forall l h h', insert_values l h = (Ok tt, h') <-> hist_puts l h = Ok h'.
Proof.
  induction l as [|[[v k] x] l IH]; intros h h'; cbn [insert_values hist_puts].
  { split; [by intros [= ->]|by intros [= ->]]. }
  destruct (hist_put (h !! k) v x); cbn [rbind]; [apply IH|done..].
Qed.
Lemma insert_stale_ok : forall l st, NoDup l -> (forall i, i ∈ l -> i ∉ st) ->
  insert_stale l st = (Ok tt, list_to_set l ∪ st).
Proof.
  induction l as [|i l IH]; intros st Hd Hn; cbn [insert_stale].
  { f_equal. set_solver. }
  apply NoDup_cons in Hd as [Hni Hd]. rewrite bool_decide_false by (apply Hn; by left).
  rewrite IH; [|done|].
  - f_equal. set_solver.
  - intros j Hj. specialize (Hn j ltac:(by right)). set_solver.
Qed.
Lemma insert_stale_clash : forall l st, (exists i, i ∈ l /\ i ∈ st) -> fst (insert_stale l st) = Err DuplicateStale.
Proof.
  induction l as [|i l IH]; intros st (j & Hj & Hs); cbn [insert_stale]; [by apply elem_of_nil in Hj|].
  case_bool_decide as Hd; [done|]. apply elem_of_cons in Hj as [->|Hj]; [done|]. apply IH. exists j. set_solver.
Qed.
(** Orders of the entries of a batch. *)
Definition lists_batch (b : batch) (ns : list (nkey * node)) (vs : list (N * bytes * option bytes)) (st : list (N * nkey)) : Prop :=
  ns ≡ₚ map_to_list (b_nodes b) /\ lists_values (b_values b) vs /\ st ≡ₚ elements (b_stale b).
Lemma lists_nodes b ns vs st : lists_batch b ns vs st -> NoDup ns.*1 /\ list_to_map ns = b_nodes b /\
  forall nk, nk ∈ ns.*1 <-> is_Some (b_nodes b !! nk).
Proof.
  intros (Hp & _ & _). assert (NoDup ns.*1) as Hd by (rewrite Hp; apply NoDup_fst_map_to_list).
  assert (list_to_map ns = b_nodes b) as E.
  { rewrite (list_to_map_proper ns (map_to_list (b_nodes b)) Hd Hp). apply list_to_map_to_list. }
  split; [done|]. split; [done|]. intros nk. rewrite <-E. split.
  - intros Hin. apply elem_of_list_fmap in Hin as ([nk' nd] & -> & Hin). exists nd. by apply elem_of_list_to_map_1.
  - intros [nd H]. apply elem_of_list_to_map_2 in H. apply elem_of_list_fmap. by exists (nk, nd).
Qed.
(** Entry by entry or at once: a write that succeeds does the same. *)
Lemma write_all_ok s b ns vs st s' : lists_batch b ns vs st ->
  write_all s ns vs st = (Ok tt, s') <-> write_batch s b = Ok s'.
Proof.
  intros HL. destruct (lists_nodes _ _ _ _ HL) as (Hd & En & Hel). destruct HL as (_ & Hv & Hst).
  unfold write_all, write_batch, write_node_batch.
  assert (st_overwrite s = true \/ (forall nk, nk ∈ ns.*1 -> st_nodes s !! nk = None) <->
    negb (st_overwrite s) && negb (bool_decide (b_nodes b ##ₘ st_nodes s)) = false) as Hc.
  { destruct (st_overwrite s); cbn [negb andb]; [tauto|]. rewrite negb_false_iff, bool_decide_eq_true, map_disjoint_spec. split.
    - intros [?|H]; [done|]. intros nk x y Hx Hy. rewrite (H nk) in Hy; [done|]. apply Hel. by exists x.
    - intros H. right. intros nk [x Hx]%Hel. destruct (st_nodes s !! nk) as [y|] eqn:Ey; [|done]. by destruct (H nk x y Hx Ey). }
  destruct (negb (st_overwrite s) && negb (bool_decide (b_nodes b ##ₘ st_nodes s))) eqn:Eb; cbn [rbind].
  - assert (fst (insert_nodes (st_overwrite s) ns (st_nodes s)) = Panic) as Hp.
    { apply andb_prop in Eb as [E1%negb_true_iff E2%negb_true_iff%bool_decide_eq_false]. rewrite E1. apply insert_nodes_clash; [done|].
      rewrite map_disjoint_alt in E2. assert (~ ~ exists nk, nk ∈ ns.*1 /\ is_Some (st_nodes s !! nk)) as Hnn.
      { intros Hno. apply E2. intros nk. destruct (b_nodes b !! nk) as [x|] eqn:Ex; [|by left].
        destruct (st_nodes s !! nk) as [y|] eqn:Ey; [|by right]. destruct Hno. exists nk. rewrite Ey. split; [|by eexists].
        apply Hel. by rewrite Ex. }
      destruct (decide (Exists (fun nk => is_Some (st_nodes s !! nk)) ns.*1)) as [Hx|Hx].
      - apply Exists_exists in Hx as (nk & ? & ?). by exists nk.
      - destruct Hnn. intros (nk & ? & ?). apply Hx, Exists_exists. by exists nk. }
    destruct (insert_nodes _ _ _) as [r n]. cbn [fst] in Hp. subst r. done.
  - rewrite (insert_nodes_ok _ _ _ Hd) by (by apply Hc). rewrite En.
    pose proof (values_sorted_lists (b_values b)) as Hv0.
    destruct (hist_puts (values_sorted (b_values b)) (st_hist s)) as [h| | |] eqn:Eh; cbn [rbind st_stale st_nodes st_hist st_overwrite].
    + rewrite (proj2 (insert_values_ok vs (st_hist s) h)) by (by eapply hist_puts_order).
      destruct (decide (b_stale b ## st_stale s)) as [Hds|Hds].
      * rewrite bool_decide_true by done. rewrite insert_stale_ok.
        -- assert (list_to_set st = b_stale b) as ->.
           { apply set_eq. intros i. by rewrite elem_of_list_to_set, Hst, elem_of_elements. }
           split; intros [= <-]; done.
        -- rewrite Hst. apply NoDup_elements.
        -- intros i. rewrite Hst, elem_of_elements. set_solver.
      * rewrite bool_decide_false by done. pose proof (insert_stale_clash st (st_stale s)) as Hcl.
        destruct (insert_stale st (st_stale s)) as [r3 st3]. cbn [fst] in Hcl. rewrite Hcl; [done|].
        destruct (decide (set_Exists (fun i => i ∈ st_stale s) (b_stale b))) as [(i & H1 & H2)|Hno].
        -- exists i. by rewrite Hst, elem_of_elements.
        -- destruct Hds. intros i H1 H2. apply Hno. by exists i.
    + assert (forall h', insert_values vs (st_hist s) <> (Ok tt, h')) as Hno.
      { intros h' E%insert_values_ok. apply (hist_puts_order _ _ _ _ _ Hv Hv0) in E. congruence. }
      destruct (insert_values vs (st_hist s)) as [[[]| | |] h0]; [by destruct (Hno h0)|done..].
    + assert (forall h', insert_values vs (st_hist s) <> (Ok tt, h')) as Hno.
      { intros h' E%insert_values_ok. apply (hist_puts_order _ _ _ _ _ Hv Hv0) in E. congruence. }
      destruct (insert_values vs (st_hist s)) as [[[]| | |] h0]; [by destruct (Hno h0)|done..].
    + assert (forall h', insert_values vs (st_hist s) <> (Ok tt, h')) as Hno.
      { intros h' E%insert_values_ok. apply (hist_puts_order _ _ _ _ _ Hv Hv0) in E. congruence. }
      destruct (insert_values vs (st_hist s)) as [[[]| | |] h0]; [by destruct (Hno h0)|done..].
Qed.

(** ** Writing a batch again *)
Lemma insert_nodes_same over : forall l n, (forall nk nd, (nk, nd) ∈ l -> n !! nk = Some nd) -> snd (insert_nodes over l n) = n.
Proof.
  induction l as [|[nk nd] l IH]; intros n H; cbn [insert_nodes]; [done|]. pose proof (H nk nd ltac:(by left)) as E.
  rewrite E, (insert_id _ _ _ E). destruct over; [|done]. apply IH. intros nk' nd' Hin. apply H. by right.
Qed.
Lemma insert_values_same : forall l h, (forall v k x, (v, k, x) ∈ l -> exists i w y, h !! k = Some (i ++ [(w, y)]) /\ (v < w \/ (v = w /\ x = y))) ->
  snd (insert_values l h) = h.
Proof.
  induction l as [|[[v k] x] l IH]; intros h H; cbn [insert_values]; [done|].
  destruct (H v k x ltac:(by left)) as (i & w & y & E & Hvw). rewrite E. unfold hist_put. rewrite unsnoc_app.
  destruct Hvw as [Hlt|[-> ->]].
  - by rewrite (proj2 (N.ltb_lt v w) Hlt).
  - rewrite N.ltb_irrefl, N.eqb_refl, (insert_id _ _ _ E). apply IH. intros v' k' x' Hin. apply H. by right.
Qed.
Lemma insert_stale_same l st : (forall i, i ∈ l -> i ∈ st) -> snd (insert_stale l st) = st.
Proof. destruct l as [|i l]; intros H; cbn [insert_stale]; [done|]. by rewrite bool_decide_true by (apply H; by left). Qed.
Lemma key_puts_last l w y o o' : key_puts (l ++ [(w, y)]) o = Ok o' -> exists i, o' = Some (i ++ [(w, y)]).
Proof.
  rewrite key_puts_app. intros E. apply rbind_inv in E as (oa & _ & E). cbn [key_puts] in E.
  apply rbind_inv in E as (h & Eh & [= <-]). destruct (hist_put_last _ _ _ _ Eh) as [i ->]. by exists i.
Qed.
Lemma hist_puts_written m l h h' v k x : lists_values m l -> hist_puts l h = Ok h' -> m !! (v, k) = Some x ->
  exists i w y, h' !! k = Some (i ++ [(w, y)]) /\ (v < w \/ (v = w /\ x = y)).
Proof.
  intros HL E Hx. rewrite hist_puts_keyed in E. specialize (E k).
  apply (lists_elem m l) in Hx; [|done]. rewrite <-keyed_elem in Hx. pose proof (keyed_sorted m l k HL) as Hs.
  destruct (keyed k l) as [|[w y] l' _] using rev_ind; [by apply elem_of_nil in Hx|].
  apply key_puts_last in E as [i E]. exists i, w, y. split; [done|].
  apply elem_of_app in Hx as [Hx|Hx].
  - left. destruct (sorted_app_inv _ _ Hs) as [_ H]. apply (H (v, x) (w, y) Hx). by apply elem_of_list_singleton.
  - apply elem_of_list_singleton in Hx as [= -> ->]. by right.
Qed.
Lemma store_eta s : Store (st_nodes s) (st_stale s) (st_hist s) (st_overwrite s) = s.
Proof. by destruct s. Qed.
Lemma write_again s b s' ns vs st : write_batch s b = Ok s' -> lists_batch b ns vs st -> snd (write_all s' ns vs st) = s'.
Proof.
  intros E HL. destruct (lists_nodes _ _ _ _ HL) as (Hd & En & Hel). destruct HL as (_ & Hv & Hst).
  unfold write_batch, write_node_batch in E. destruct (negb _ && negb _); [done|].
  cbn [rbind] in E. destruct (hist_puts _ _) as [h| | |] eqn:Eh; [|done..]. cbn [rbind st_stale st_nodes st_hist st_overwrite] in E.
  case_bool_decide as Hds; [|done]. injection E as <-.
  unfold write_all. cbn [st_stale st_nodes st_hist st_overwrite].
  pose proof (insert_nodes_same (st_overwrite s) ns (b_nodes b ∪ st_nodes s)) as H1.
  destruct (insert_nodes _ _ _) as [r1 n]. cbn [snd] in H1. rewrite H1.
  2: { intros nk nd Hin. apply lookup_union_Some_l. rewrite <-En. by apply elem_of_list_to_map_1. }
  pose proof (insert_values_same vs h) as H2. destruct (insert_values vs h) as [r2 h2]. cbn [snd] in H2. rewrite H2.
  2: { intros v k x Hin. apply (lists_elem _ _ v k x Hv) in Hin. by apply (hist_puts_written (b_values b) _ _ _ v k x (values_sorted_lists _) Eh). }
  pose proof (insert_stale_same st (b_stale b ∪ st_stale s)) as H3. destruct (insert_stale _ _) as [r3 s3]. cbn [snd] in H3. rewrite H3.
  2: { intros i Hi. rewrite Hst, elem_of_elements in Hi. set_solver. }
  by destruct r1, r2.
Qed.

(** ** Entries of later versions *)
Lemma insert_nodes_old over w : forall l n, (forall nk nd, (nk, nd) ∈ l -> w <= fst nk) ->
  forall nk, fst nk < w -> snd (insert_nodes over l n) !! nk = n !! nk.
Proof.
  induction l as [|[nk0 nd0] l IH]; intros n H nk Hlt; cbn [insert_nodes]; [done|].
  assert (nk0 <> nk) as Hne by (intros ->; specialize (H nk nd0 ltac:(by left)); lia).
  assert (snd (insert_nodes over l (<[nk0 := nd0]> n)) !! nk = n !! nk) as E.
  { rewrite IH; [by rewrite lookup_insert_ne| |done]. intros nk1 nd1 Hin. apply (H nk1 nd1). by right. }
  destruct over; [exact E|]. destruct (n !! nk0); [cbn [snd]; by rewrite lookup_insert_ne|exact E].
Qed.
Definition find_in (o : option (list (N * option bytes))) (max : N) : option bytes :=
  match o with Some l => hist_find (rev l) max | None => None end.
Lemma hist_put_old o v x l max : hist_put o v x = Ok l -> max < v -> find_in (Some l) max = find_in o max.
Proof.
  intros E Hlt. assert (v <=? max = false) as Hf by (by apply N.leb_gt). unfold find_in.
  assert (forall i : list (N * option bytes), hist_find (rev (i ++ [(v, x)])) max = hist_find (rev i) max) as Hs.
  { intros i. by rewrite hist_find_snoc, Hf. }
  unfold hist_put in E. destruct o as [l0|]; [|injection E as <-; apply (Hs [])].
  destruct (JmtNibModel.unsnoc l0) as [[i [lv y]]|] eqn:Eu.
  - assert (l0 = i ++ [(lv, y)]) as -> by (by apply unsnoc_Some in Eu).
    destruct (v <? lv); [done|]. destruct (N.eqb_spec v lv) as [->|]; injection E as <-; [by rewrite Hs, hist_find_snoc, Hf|apply Hs].
  - injection E as <-. etransitivity; [apply (Hs [])|]. destruct l0 as [|e l0 _] using rev_ind; [done|]. by rewrite unsnoc_app in Eu.
Qed.
Lemma insert_values_old w max : max < w -> forall l h, (forall v k x, (v, k, x) ∈ l -> w <= v) ->
  forall k, find_in (snd (insert_values l h) !! k) max = find_in (h !! k) max.
Proof.
  intros Hw. induction l as [|[[v k0] x] l IH]; intros h H k; cbn [insert_values]; [done|].
  pose proof (H v k0 x ltac:(by left)) as Hv. destruct (hist_put (h !! k0) v x) as [e| | |] eqn:E; [|done..].
  rewrite IH by (intros v' k' x' Hin; apply (H v' k' x'); by right).
  destruct (decide (k0 = k)) as [<-|Hne]; [|by rewrite lookup_insert_ne]. rewrite lookup_insert.
  apply (hist_put_old _ v x); [done|lia].
Qed.
