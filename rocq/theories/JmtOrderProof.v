(** The order of keys, and the keys of a tree in order. *)
From Verif Require Import Base JmtNibModel JmtSpec JmtNibSpec JmtNibProof JmtModel JmtHashProof JmtAbsProof JmtCacheProof.
Local Open Scope nat_scope.

Notation pcnt p M := (cnt (path_bits p) M).

(** ** The order *)
Lemma klt_irrefl k : ~ bytes_lt k k.
Proof. induction k as [|a k IH]; inversion 1; subst; [lia|done]. Qed.
Lemma klt_trans k l m : bytes_lt k l -> bytes_lt l m -> bytes_lt k m.
Proof.
  intros H. revert m. induction H as [b k|a b k l Hab|a k l H IH]; intros m Hm.
  - inversion Hm; subst; constructor.
  - inversion Hm; subst; [apply bytes_lt_head; lia|by apply bytes_lt_head].
  - inversion Hm; subst; [by apply bytes_lt_head|apply bytes_lt_tail; auto].
Qed.
Lemma klt_asym k l : bytes_lt k l -> ~ bytes_lt l k.
Proof. intros H1 H2. eapply klt_irrefl. by eapply klt_trans. Qed.
Lemma byte_N_inj a b : Byte.to_N a = Byte.to_N b -> a = b.
Proof. intros H. apply (f_equal Byte.of_N) in H. rewrite !Byte.of_to_N in H. by injection H. Qed.
Lemma klt_total k l : bytes_lt k l \/ k = l \/ bytes_lt l k.
Proof.
  revert l. induction k as [|a k IH]; intros [|b l].
  - tauto.
  - left. constructor.
  - right; right. constructor.
  - destruct (N.lt_trichotomy (Byte.to_N a) (Byte.to_N b)) as [H|[H|H]].
    + left. by apply bytes_lt_head.
    + apply byte_N_inj in H. subst b. destruct (IH l) as [?|[->|?]]; [left|tauto|right; right]; by apply bytes_lt_tail.
    + right; right. by apply bytes_lt_head.
Qed.

Global Instance bytes_lt_dec k l : Decision (bytes_lt k l).
Proof.
  revert l. induction k as [|a k IH]; intros [|b l].
  - right. inversion 1.
  - left. constructor.
  - right. inversion 1.
  - destruct (decide (Byte.to_N a < Byte.to_N b)%N) as [H|H]; [left; by apply bytes_lt_head|].
    destruct (decide (a = b)) as [->|Hne].
    + destruct (IH l) as [Hl|Hl]; [left; by apply bytes_lt_tail|right]. inversion 1; subst; [lia|done].
    + right. inversion 1; subst; done.
Defined.

(** Keys that first differ at a nibble are ordered by it. *)
Lemma byte_nibs_val b : Byte.to_N b = (16 * nib_val (hi b) + nib_val (lo b))%N.
Proof. destruct b; vm_compute; reflexivity. Qed.
Lemma hi_lo_inj a b : hi a = hi b -> lo a = lo b -> a = b.
Proof. intros H1 H2. rewrite <-(hi_lo a), <-(hi_lo b). congruence. Qed.
Lemma nib_klt p i j : forall k l r r', nibs k = p ++ i :: r -> nibs l = p ++ j :: r' ->
  (nib_val i < nib_val j)%N -> bytes_lt k l.
Proof.
  assert (forall n, length p < n -> forall k l r r', nibs k = p ++ i :: r -> nibs l = p ++ j :: r' ->
    (nib_val i < nib_val j)%N -> bytes_lt k l) as H; [|by apply (H (S (length p))); lia].
  intros n. revert p. induction n as [|n IH]; intros p Hn k l r r' Hk Hl Hij; [lia|].
  destruct k as [|a k]; [by destruct p|]. destruct l as [|b l]; [by destruct p|].
  rewrite nibs_cons in Hk, Hl. pose proof (nib_val_lt (lo a)). pose proof (nib_val_lt (lo b)).
  destruct p as [|x [|y p]]; cbn [app] in Hk, Hl.
  - injection Hk as Ea _. injection Hl as Eb _. apply bytes_lt_head. rewrite !byte_nibs_val, Ea, Eb. lia.
  - injection Hk as Ea Ea2 _. injection Hl as Eb Eb2 _. apply bytes_lt_head.
    rewrite !byte_nibs_val, Ea, Eb, Ea2, Eb2. lia.
  - injection Hk as Ea Ea2 Hk. injection Hl as Eb Eb2 Hl.
    assert (a = b) as -> by (apply hi_lo_inj; congruence). apply bytes_lt_tail.
    cbn [length] in Hn. apply (IH p) with r r'; [lia|done..].
Qed.
Lemma prefix_klt p i j k l : p ++ [i] `prefix_of` nibs k -> p ++ [j] `prefix_of` nibs l ->
  (nib_val i < nib_val j)%N -> bytes_lt k l.
Proof.
  intros [r Hr] [r' Hr'] H. rewrite <-app_assoc in Hr, Hr'. by apply (nib_klt p i j _ _ r r').
Qed.

(** The nibbles before and after one. *)
Definition nibs_after (i : nib) : list nib := filter (fun j => nib_val i < nib_val j)%N all_nibs.
Definition nibs_before (i : nib) : list nib := filter (fun j => nib_val j < nib_val i)%N all_nibs.
Lemma nibs_split i : all_nibs = nibs_before i ++ i :: nibs_after i.
Proof. destruct i as [[] [] [] []]; vm_compute; reflexivity. Qed.
Lemma elem_after i j : j ∈ nibs_after i <-> (nib_val i < nib_val j)%N.
Proof. unfold nibs_after. rewrite elem_of_list_filter. split; [tauto|]. intros; split; [done|apply all_nibs_in]. Qed.
Lemma elem_before i j : j ∈ nibs_before i <-> (nib_val j < nib_val i)%N.
Proof. unfold nibs_before. rewrite elem_of_list_filter. split; [tauto|]. intros; split; [done|apply all_nibs_in]. Qed.

(** ** The keys below a path, in order *)
Section Leaves.
Context (M : pairs) (Hw : wfm M).

Fixpoint lk (f : nat) (p : path) : list bytes :=
  match map_to_list (subm (path_bits p) M) with
  | [] => []
  | [kv] => [fst kv]
  | _ => match f with O => [] | S f' => flat_map (fun i => lk f' (p ++ [i])) all_nibs end
  end.
Definition lkeys (p : path) : list bytes := lk (64 - length p) p.

Lemma lkeys_0 p : pcnt p M = 0 -> lkeys p = [].
Proof.
  intros H. apply cnt_0 in H. unfold lkeys. destruct (64 - length p); cbn [lk]; by rewrite H, map_to_list_empty.
Qed.
Lemma lkeys_1 p k x : subm (path_bits p) M = {[k := x]} -> lkeys p = [k].
Proof. intros H. unfold lkeys. destruct (64 - length p); cbn [lk]; by rewrite H, map_to_list_singleton. Qed.
Lemma lkeys_2 p : 2 <= pcnt p M -> lkeys p = flat_map (fun i => lkeys (p ++ [i])) all_nibs.
Proof.
  intros H. pose proof (pcnt_short M p Hw H) as Hs. unfold lkeys.
  destruct (64 - length p) as [|f] eqn:E; [lia|]. cbn [lk].
  change (2 <= length (map_to_list (subm (path_bits p) M))) in H.
  destruct (map_to_list _) as [|a [|b l]]; cbn [length] in H; [lia..|].
  clear H. induction all_nibs as [|i ns IH]; [done|]. cbn [flat_map]. rewrite IH. f_equal.
  rewrite app_length. cbn [length]. by replace (64 - (length p + 1)) with f by lia.
Qed.

Lemma key_under p k x : M !! k = Some x -> p `prefix_of` nibs k -> length p < 64 ->
  exists i, p ++ [i] `prefix_of` nibs k.
Proof.
  intros Hk [r Hr] Hp. pose proof (nibs_length k) as L. rewrite (Hw _ _ Hk), Hr, app_length in L.
  destruct r as [|i r]; cbn [length] in L; [lia|]. exists i. rewrite Hr. exists r. by rewrite <-app_assoc.
Qed.

(** Induction on the height of a path. *)
Lemma path_ind (P : path -> Prop) :
  (forall p, pcnt p M <= 1 -> P p) ->
  (forall p, 2 <= pcnt p M -> (forall i, P (p ++ [i])) -> P p) -> forall p, P p.
Proof.
  intros H1 H2 p. remember (64 - length p) as n eqn:E. revert p E. induction n as [|n IH]; intros p E.
  - destruct (decide (2 <= pcnt p M)) as [Hc|Hc]; [|apply H1; lia]. pose proof (pcnt_short M p Hw Hc). lia.
  - destruct (decide (2 <= pcnt p M)) as [Hc|Hc]; [|apply H1; lia]. apply H2; [done|]. intros i. apply IH.
    rewrite app_length. cbn [length]. lia.
Qed.

Lemma lkeys_elem p k : k ∈ lkeys p <-> is_Some (M !! k) /\ p `prefix_of` nibs k.
Proof.
  revert p. apply (path_ind (fun p => k ∈ lkeys p <-> is_Some (M !! k) /\ p `prefix_of` nibs k)).
  - intros p Hc. destruct (decide (pcnt p M = 0)) as [H0|H0].
    + rewrite (lkeys_0 _ H0). split; [by intros ?%elem_of_nil|]. intros [[x Hx] Hp].
      pose proof (pcnt_key p M k x Hx Hp). lia.
    + destruct (cnt_1 (path_bits p) M) as (k0 & x0 & E); [lia|]. rewrite (lkeys_1 _ _ _ E), elem_of_list_singleton.
      assert (forall x, subm (path_bits p) M !! k = Some x <-> k = k0 /\ x = x0) as Hs.
      { intros x. rewrite E, lookup_singleton_Some. naive_solver. }
      split.
      * intros ->. destruct (proj2 (Hs x0) (conj eq_refl eq_refl)) as [].
        assert (subm (path_bits p) M !! k0 = Some x0) as HH by (apply Hs; done).
        apply psub_Some in HH as [? ?]. eauto.
      * intros [[x Hx] Hp]. apply (Hs x). by apply psub_Some.
  - intros p Hc IH. rewrite lkeys_2 by done. rewrite elem_of_list_In, in_flat_map. split.
    + intros (i & _ & Hi). apply elem_of_list_In, IH in Hi as [? Hi]. split; [done|].
      etrans; [|exact Hi]. apply prefix_snoc_self.
    + intros [[x Hx] Hp]. destruct (key_under p k x Hx Hp (pcnt_short M p Hw Hc)) as [i Hi].
      exists i. split; [apply elem_of_list_In, all_nibs_in|]. apply elem_of_list_In, IH. eauto.
Qed.

Lemma SS_app {A} (R : A -> A -> Prop) l1 l2 : StronglySorted R l1 -> StronglySorted R l2 ->
  (forall a b, a ∈ l1 -> b ∈ l2 -> R a b) -> StronglySorted R (l1 ++ l2).
Proof.
  induction 1 as [|a l1 H1 IH Hf]; intros H2 Hab; [done|]. cbn [app]. constructor.
  - apply IH; [done|]. intros; apply Hab; [by right|done].
  - apply Forall_app. split; [done|]. apply Forall_forall. intros b Hb. apply Hab; [left|done].
Qed.
Lemma flat_sorted p (ns : list nib) : (forall i, StronglySorted bytes_lt (lkeys (p ++ [i]))) ->
  StronglySorted (fun i j => nib_val i < nib_val j)%N ns ->
  StronglySorted bytes_lt (flat_map (fun i => lkeys (p ++ [i])) ns).
Proof.
  intros Hi. induction 1 as [|i ns Hns IH Hf]; [constructor|]. cbn [flat_map]. apply SS_app; [apply Hi|done|].
  intros a b Ha Hb. apply elem_of_list_In, in_flat_map in Hb as (j & Hj & Hb).
  apply elem_of_list_In, lkeys_elem in Hb as [_ Hb]. apply lkeys_elem in Ha as [_ Ha].
  rewrite Forall_forall in Hf. apply (prefix_klt p i j); [done..|]. apply Hf. by apply elem_of_list_In.
Qed.
Lemma all_nibs_sorted : StronglySorted (fun i j => nib_val i < nib_val j)%N all_nibs.
Proof. repeat constructor. Qed.
Lemma lkeys_sorted p : StronglySorted bytes_lt (lkeys p).
Proof.
  revert p. apply (path_ind (fun p => StronglySorted bytes_lt (lkeys p))).
  - intros p Hc. destruct (decide (pcnt p M = 0)) as [H0|H0].
    + rewrite (lkeys_0 _ H0). constructor.
    + destruct (cnt_1 (path_bits p) M) as (k0 & x0 & E); [lia|]. rewrite (lkeys_1 _ _ _ E). repeat constructor.
  - intros p Hc IH. rewrite lkeys_2 by done. apply flat_sorted; [done|apply all_nibs_sorted].
Qed.
Lemma lkeys_length p : length (lkeys p) = pcnt p M.
Proof.
  revert p. apply (path_ind (fun p => length (lkeys p) = pcnt p M)).
  - intros p Hc. destruct (decide (pcnt p M = 0)) as [H0|H0].
    + by rewrite (lkeys_0 _ H0).
    + destruct (cnt_1 (path_bits p) M) as (k0 & x0 & E); [lia|]. rewrite (lkeys_1 _ _ _ E). cbn [length]. lia.
  - intros p Hc IH. rewrite lkeys_2, (pcnt_sum M p Hw (pcnt_short M p Hw Hc)) by done.
    clear Hc. induction all_nibs as [|i ns IHn]; [done|]. cbn [flat_map sum_list_with].
    rewrite app_length, IH, IHn. done.
Qed.
Lemma lkeys_nonempty p : 0 < pcnt p M -> exists k l, lkeys p = k :: l.
Proof. rewrite <-lkeys_length. destruct (lkeys p) as [|k l]; cbn [length]; [lia|]. eauto. Qed.

(** The keys after the subtree at a path. *)
Fixpoint pend_rev (rp : path) : list bytes :=
  match rp with
  | [] => []
  | i :: rp' => flat_map (fun j => lkeys (rev rp' ++ [j])) (nibs_after i) ++ pend_rev rp'
  end.
Definition pend (p : path) : list bytes := pend_rev (rev p).
Lemma pend_nil : pend [] = [].
Proof. done. Qed.
Lemma pend_snoc p i : pend (p ++ [i]) = flat_map (fun j => lkeys (p ++ [j])) (nibs_after i) ++ pend p.
Proof. unfold pend. rewrite rev_app_distr. cbn [rev app pend_rev]. by rewrite rev_involutive. Qed.
Lemma flat_empty p (ns : list nib) : (forall j, j ∈ ns -> pcnt (p ++ [j]) M = 0) ->
  flat_map (fun j => lkeys (p ++ [j])) ns = [].
Proof.
  induction ns as [|j ns IH]; intros H; [done|]. cbn [flat_map]. rewrite lkeys_0 by (apply H; left).
  rewrite IH; [done|]. intros. apply H. by right.
Qed.
(** Moving to the next child that exists. *)
Lemma pend_next p i j : (nib_val i < nib_val j)%N ->
  (forall n, nib_val i < nib_val n < nib_val j -> pcnt (p ++ [n]) M = 0%nat)%N ->
  pend (p ++ [i]) = lkeys (p ++ [j]) ++ pend (p ++ [j]).
Proof.
  intros Hij H0. rewrite !pend_snoc.
  assert (nibs_after i = filter (fun n => nib_val i < nib_val n /\ nib_val n < nib_val j)%N all_nibs ++ j :: nibs_after j) as E.
  { clear H0. destruct i as [[] [] [] []], j as [[] [] [] []]; vm_compute in Hij; try discriminate; vm_compute; reflexivity. }
  rewrite E, flat_map_app, flat_empty; [cbn [flat_map app]; by rewrite <-app_assoc|].
  intros n Hn. apply elem_of_list_filter in Hn as [Hn _]. apply H0. done.
Qed.
Lemma pend_last p i : (forall n, nib_val i < nib_val n -> pcnt (p ++ [n]) M = 0%nat)%N ->
  pend (p ++ [i]) = pend p.
Proof.
  intros H0. rewrite pend_snoc, flat_empty; [done|]. intros n Hn. apply H0. by apply elem_after.
Qed.
(** Entering an internal node at its first child. *)
Lemma enter_first p i : 2 <= pcnt p M -> (forall n, nib_val n < nib_val i -> pcnt (p ++ [n]) M = 0%nat)%N ->
  lkeys p ++ pend p = lkeys (p ++ [i]) ++ pend (p ++ [i]).
Proof.
  intros H2 H0. rewrite lkeys_2, pend_snoc by done. rewrite (nibs_split i), flat_map_app, flat_empty.
  2: { intros n Hn. apply H0. by apply elem_before. }
  cbn [flat_map app]. by rewrite <-app_assoc.
Qed.
(** The keys from a given key on. *)
Definition keys_from (start : bytes) (l : list bytes) : list bytes :=
  filter (fun k => ~ bytes_lt k start) l.
End Leaves.
