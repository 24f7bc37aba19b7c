(** The iterator lists the contents in ascending key order. *)
From Verif Require Import Base PmtNibblesModel RlpModel PmtModel PmtRunSpec PmtNibblesProof RlpProof PmtSpec
  PmtEncProof PmtLookupProof PmtOpsProof PmtDeleteProof PmtCommitProof PmtRunProof PmtStepProof.
Open Scope res_scope.

(** In-order traversal: paths without terminator. *)
Definition under (p : hex) (l : list (hex * bytes)) : list (hex * bytes) :=
  map (fun qv => (p ++ qv.1, qv.2)) l.
Fixpoint items (t : node) : list (hex * bytes) :=
  match t with
  | NEmpty => []
  | NLeaf k v => [(take (length k - 1) k, v)]
  | NExt p c => under p (items c)
  | NBranch cs v =>
      match v with Some v => [([], v)] | None => [] end ++
      concat (imap (fun i l => under [i] l) (map items cs))
  | NHash _ => []
  end.

Lemma under_app p l l' : under p (l ++ l') = under p l ++ under p l'.
Proof. apply map_app. Qed.
Lemma under_under p q l : under p (under q l) = under (p ++ q) l.
Proof. unfold under. rewrite map_map. apply map_ext. intros [??]. cbn. by rewrite app_assoc. Qed.
Lemma in_under p l q v : (q, v) ∈ under p l <-> exists q', q = p ++ q' /\ (q', v) ∈ l.
Proof.
  unfold under. rewrite elem_of_list_In, in_map_iff. split.
  - intros ([q' v'] & [= <- <-] & H). exists q'. split; [done|by apply elem_of_list_In].
  - intros (q' & -> & H). exists (q', v). split; [done|by apply elem_of_list_In].
Qed.

Lemma in_items_children cs q v : (q, v) ∈ concat (imap (fun i l => under [i] l) (map items cs)) <->
  exists i c q', cs !! i = Some c /\ q = i :: q' /\ (q', v) ∈ items c.
Proof.
  rewrite elem_of_list_In, in_concat. split.
  - intros (l & Hl & H). apply elem_of_list_In, elem_of_lookup_imap in Hl as (i & y & -> & Hy).
    change (map items cs) with (items <$> cs) in Hy. rewrite list_lookup_fmap in Hy. destruct (cs !! i) as [c|] eqn:E; [|done].
    injection Hy as <-. apply elem_of_list_In, in_under in H as (q' & -> & H). eauto 10.
  - intros (i & c & q' & Hc & -> & H). exists (under [i] (items c)). split.
    + apply elem_of_list_In, elem_of_lookup_imap. exists i, (items c). split; [done|].
      change (map items cs) with (items <$> cs). by rewrite list_lookup_fmap, Hc.
    + apply elem_of_list_In, in_under. eauto.
Qed.

Lemma items_lk c V L t q v : wf c V L t -> ((q, v) ∈ items t <-> nibs q /\ lk t (q ++ [16]) = Some v).
Proof.
  revert L q. induction t as [|k w|p s IH|ts w IH|h] using node_ind'; intros L q Hw; inversion Hw as [?|? b ? Hb HbL Hv0 HvV|L0 ? ? Hp1 Hp2 Hp3 Hp4|L0 ? ? Hlen16 Hall Hv1 Hv2 Hc2]; subst.
  - cbn. rewrite elem_of_nil. by split; [|intros [_ ?]].
  - cbn [items lk]. rewrite app_length. cbn [length]. replace (length b + 1 - 1) with (length b) by lia.
    rewrite take_app. rewrite elem_of_list_singleton. split.
    + intros [= -> ->]. by rewrite decide_True.
    + intros [_ H']. case_decide as E; [|done]. injection H' as ->. by apply app_inv_tail in E as ->.
  - cbn [items]. rewrite in_under. split.
    + intros (q' & -> & H). apply (IH L0) in H as [Hn Hl]; [|done]. split; [by apply Forall_app|].
      by rewrite <- app_assoc, lk_ext_app.
    + intros [Hn Hl]. destruct (lk_ext_some p s (q ++ [16])) as (p' & E & Hl'); [congruence|].
      rewrite E, lk_ext_app in Hl.
      assert (tpath p') as (b & Hb & ->).
      { apply (tpath_app p); [done|]. rewrite <- E. by apply tpath_nibs. }
      rewrite app_assoc in E. apply app_inv_tail in E as ->.
      exists b. split; [done|]. apply (IH L0); auto.
  - cbn [items]. rewrite elem_of_app, in_items_children. rewrite Forall_forall in IH. split.
    + intros [H'|(i & c' & q' & Hc & -> & H')].
      * destruct w; [|by apply elem_of_nil in H']. apply elem_of_list_singleton in H' as [= -> ->].
        split; [constructor|]. apply lk_branch_end.
      * apply (IH c' (elem_of_list_lookup_2 _ _ _ Hc) L0) in H' as [Hn Hl].
        2:{ rewrite Forall_lookup in Hall. eauto. }
        assert (i < 16) by (rewrite <- Hlen16; by eapply lookup_lt_Some). split; [by constructor|].
        cbn [app]. rewrite lk_branch. destruct (Nat.eqb_spec i 16); [lia|]. by rewrite Hc.
    + intros [Hn Hl]. destruct q as [|x q].
      * left. cbn [app] in Hl. rewrite lk_branch_end in Hl. subst w. by left.
      * right. inversion Hn; subst. cbn [app] in Hl. rewrite lk_branch in Hl.
        destruct (Nat.eqb_spec x 16); [lia|]. destruct (ts !! x) as [c'|] eqn:Hc; [|done].
        exists x, c', q. split; [done|]. split; [done|].
        apply (IH c' (elem_of_list_lookup_2 _ _ _ Hc) L0); [|done]. rewrite Forall_lookup in Hall. eauto.
Qed.

(** Orders. *)
Inductive hlt : list nat -> list nat -> Prop :=
| hlt_nil x q : hlt [] (x :: q)
| hlt_head x y p q : x < y -> hlt (x :: p) (y :: q)
| hlt_tail x p q : hlt p q -> hlt (x :: p) (x :: q).

Lemma hlt_app a p q : hlt p q -> hlt (a ++ p) (a ++ q).
Proof. intros. induction a; [done|]. by constructor. Qed.

Lemma ss_under a l : StronglySorted hlt (map fst l) -> StronglySorted hlt (map fst (under a l)).
Proof.
  intros H. unfold under. rewrite map_map. cbn.
  induction l as [|[q v] l IH]; cbn in *; [constructor|]. inversion H; subst. constructor; [auto|].
  rewrite List.Forall_map in *. eapply Forall_impl; [eassumption|]. intros [? ?] Hq. by apply hlt_app.
Qed.
Lemma ss_app {A} (R : A -> A -> Prop) l l' : StronglySorted R l -> StronglySorted R l' ->
  (forall x y, x ∈ l -> y ∈ l' -> R x y) -> StronglySorted R (l ++ l').
Proof.
  intros H H' Hx. induction H as [|a l Hl IH Ha]; [done|]. cbn. constructor.
  - apply IH. intros x y ??. apply Hx; [by right|done].
  - apply Forall_app. split; [done|]. apply Forall_forall. intros y Hy. apply Hx; [by left|done].
Qed.

Lemma items_sorted c V L t : wf c V L t -> StronglySorted hlt (map fst (items t)).
Proof.
  revert L. induction t as [|k w|p s IH|ts w IH|h] using node_ind'; intros L Hw; inversion Hw as [?|? b ? Hb HbL Hv0 HvV|L0 ? ? Hp1 Hp2 Hp3 Hp4|L0 ? ? Hlen16 Hall Hv1 Hv2 Hc2]; subst.
  - constructor.
  - cbn. repeat constructor.
  - cbn [items]. apply ss_under. eauto.
  - cbn [items]. rewrite map_app. apply ss_app.
    + destruct w; repeat constructor.
    + assert (Hc : forall off, StronglySorted hlt
               (map fst (concat (imap (fun i l => under [off + i] l) (map items ts))))).
      { clear Hw Hlen16 Hc2. induction ts as [|c' ts IHt]; intros off; [constructor|].
        inversion IH; subst. inversion Hall; subst. cbn [map]. rewrite imap_cons. cbn [concat].
        rewrite map_app. apply ss_app.
        - apply ss_under. eauto.
        - specialize (IHt ltac:(done) ltac:(done) (S off)).
          erewrite imap_ext; [exact IHt|]. intros i l _. cbn. by rewrite Nat.add_succ_r.
        - intros x y Hx Hy. apply elem_of_list_In, in_map_iff in Hx as ([q v] & <- & Hx).
          apply elem_of_list_In, in_under in Hx as (q' & -> & _). cbn [fst].
          apply elem_of_list_In, in_map_iff in Hy as ([q2 v2] & <- & Hy).
          apply in_concat in Hy as (l & Hl & Hy).
          apply elem_of_list_In, elem_of_lookup_imap in Hl as (i & l' & -> & Hl').
          apply elem_of_list_In, in_under in Hy as (q3 & -> & _). cbn. constructor. lia. }
      apply (Hc 0).
    + intros x y Hx Hy. destruct w; [|by apply elem_of_nil in Hx].
      apply elem_of_list_singleton in Hx as ->.
      apply elem_of_list_In, in_map_iff in Hy as ([q v] & <- & Hy).
      apply elem_of_list_In, in_items_children in Hy as (i & c' & q' & _ & -> & _). constructor.
Qed.

(** The key bytes of a path. *)
Definition key_of (p : hex) : bytes := match pack p with Ok b => b | _ => [] end.
Lemma key_of_unpack k : key_of (unpack k) = k.
Proof. unfold key_of. by rewrite pack_unpack. Qed.

Definition whole (p : hex) : Prop := exists k, p = unpack k.
Lemma encode_raw_leaf_path p : whole p -> encode_raw_nibbles (p ++ [16]) = Ok (key_of p, true).
Proof. intros [k ->]. rewrite key_of_unpack. exact (from_raw_encode_raw k true (or_intror eq_refl)). Qed.
Lemma encode_raw_branch_path p : whole p -> p <> [] -> encode_raw_nibbles p = Ok (key_of p, false).
Proof.
  intros [k ->] Hne. rewrite key_of_unpack. unfold encode_raw_nibbles.
  rewrite is_leaf_nibs by (auto using unpack_nibs). cbn [rbind]. rewrite pack_unpack. done.
Qed.

Definition keyed_items (nib : hex) (l : list (hex * bytes)) : list (bytes * bytes) :=
  map (fun qv => (key_of qv.1, qv.2)) (under nib l).
(** All items have non-empty byte keys. *)
Definition good (nib : hex) (l : list (hex * bytes)) : Prop :=
  Forall (fun qv => whole (nib ++ qv.1) /\ nib ++ qv.1 <> []) l.

Lemma good_under nib p l : good nib (under p l) <-> good (nib ++ p) l.
Proof.
  unfold good, under. rewrite List.Forall_map. cbn [fst].
  split; intros H; (eapply Forall_impl; [exact H|]); intros [q v]; cbn; by rewrite <- !app_assoc.
Qed.
Lemma keyed_items_under nib p l : keyed_items nib (under p l) = keyed_items (nib ++ p) l.
Proof. unfold keyed_items. by rewrite under_under. Qed.
Lemma keyed_items_app nib l l' : keyed_items nib (l ++ l') = keyed_items nib l ++ keyed_items nib l'.
Proof. unfold keyed_items. rewrite under_app. apply map_app. Qed.

Section hash.
  Context (keccak : bytes -> bytes) (Hk : forall x, length (keccak x) = 32).
  Notation collapse := (collapse keccak).
  Notation repr := (repr keccak true).
  Notation rrepr := (rrepr keccak true).
  Context (d : db).

  Definition yields (nib : hex) (below : list (node * tstatus)) (it : iter) (out : list (bytes * bytes)) : Prop :=
    exists cost, forall f, iter_collect (cost + f) d it =
      (try! l := iter_collect f d (Iter nib below) in Ok (out ++ l)).

  Lemma yields_refl nib below : yields nib below (Iter nib below) [].
  Proof. exists 0. intros f. cbn [Nat.add app]. by destruct (iter_collect f d _). Qed.
  Lemma yields_step nib below it it' out : iter_step d it = Ok (IContinue it') ->
    yields nib below it' out -> yields nib below it out.
  Proof. intros E [c H]. exists (S c). intros f. cbn [Nat.add iter_collect]. rewrite E. cbn [rbind]. apply H. Qed.
  Lemma yields_item nib below it it' x out : iter_step d it = Ok (IReturn it' (Some x)) ->
    yields nib below it' out -> yields nib below it (x :: out).
  Proof.
    intros E [c H]. exists (S c). intros f. cbn [Nat.add iter_collect]. rewrite E. cbn [rbind].
    rewrite H. by destruct (iter_collect f d _).
  Qed.
  Lemma yields_trans nib below nib' below' it out out' : yields nib below it out ->
    yields nib' below' (Iter nib below) out' -> yields nib' below' it (out ++ out').
  Proof.
    intros [c H] [c' H']. exists (c + c'). intros f. rewrite <- Nat.add_assoc, H, H'.
    destruct (iter_collect f d _); cbn [rbind]; [|done..]. by rewrite app_assoc.
  Qed.

  Lemma iter_node c L n t nib below : L <= Bmax ->
    rrepr d n t -> wf c Bmax L t -> good nib (items t) ->
    yields nib below (Iter nib ((n, TStart) :: below)) (keyed_items nib (items t)).
  Proof.
    revert L n nib below. induction t as [|k w|p s IH|ts w IH|h] using node_ind'; intros L n nib below HL Hr Hw Hg.
    5: by inversion Hw.
    all: match goal with Hw : wf _ _ _ ?t |- _ =>
       assert (Hnh : forall n, repr d n t -> (forall h, n <> NHash h) ->
         yields nib below (Iter nib ((n, TStart) :: below)) (keyed_items nib (items t)));
       [clear n Hr; intros n Hr Hnh
       |destruct (rrepr_resolve keccak Hk Bmax Bmax_small true d n c L t Hr Hw HL)
         as [[Hr' Hn]|(h & -> & [[Hrec Hr']|[? _]])];
        [by apply Hnh
        |eapply yields_step; [reflexivity|]; eapply yields_step;
         [cbn [iter_step i_nodes i_nibble advance]; rewrite Hrec; reflexivity|];
         apply Hnh; [done|]; intros h'; by eapply collapse_not_hash
        |done]] end.
    - inversion Hr; subst; [|by edestruct Hnh]. eapply yields_step; [reflexivity|]. apply yields_refl.
    - inversion Hr; subst; [|by edestruct Hnh]. inversion Hw as [?|? b ? Hb HbL Hv0 HvV|L0 ? ? Hp1 Hp2 Hp3 Hp4|L0 ? ? Hlen16 Hall Hv1 Hv2 Hc2]; subst.
      cbn [items] in *. rewrite app_length in *. cbn [length] in *.
      replace (length b + 1 - 1) with (length b) in * by lia. rewrite take_app in *.
      apply Forall_singleton in Hg as [Hwh Hne]. cbn [fst] in *.
      eapply yields_step; [reflexivity|]. cbn [keyed_items under map fst snd].
      eapply yields_item.
      { cbn [iter_step i_nodes i_nibble advance]. rewrite app_assoc, encode_raw_leaf_path by done. reflexivity. }
      eapply yields_step; [|apply yields_refl].
      cbn [iter_step i_nodes i_nibble advance]. unfold truncate_by.
      destruct (Nat.leb_spec (length (b ++ [16])) (length ((nib ++ b) ++ [16]))) as [_|Hbad].
      2:{ rewrite !app_length in Hbad. lia. }
      cbn [rbind]. rewrite <- app_assoc, app_length.
      replace (length nib + length (b ++ [16]) - length (b ++ [16])) with (length nib) by lia.
      by rewrite take_app.
    - inversion Hr; subst; [|by edestruct Hnh]. inversion Hw as [?|? b ? Hb HbL Hv0 HvV|L0 ? ? Hp1 Hp2 Hp3 Hp4|L0 ? ? Hlen16 Hall Hv1 Hv2 Hc2]; subst.
      cbn [items] in *. rewrite keyed_items_under. apply good_under in Hg.
      eapply yields_step; [reflexivity|]. eapply yields_step; [reflexivity|].
      rewrite <- (app_nil_r (keyed_items _ _)). eapply yields_trans.
      { eapply IH; [|left; eassumption|eassumption|done]. lia. }
      eapply yields_step; [|apply yields_refl].
      cbn [iter_step i_nodes i_nibble advance i_nibble]. unfold truncate_by. rewrite app_length.
      destruct (Nat.leb_spec (length p) (length nib + length p)) as [_|Hbad]; [|lia].
      cbn [rbind]. replace (length nib + length p - length p) with (length nib) by lia.
      by rewrite take_app.
    - inversion Hr as [| | |ns ts' v' Hf|]; subst; [|by edestruct Hnh]. inversion Hw as [?|? b ? Hb HbL Hv0 HvV|L0 ? ? Hp1 Hp2 Hp3 Hp4|L0 ? ? Hlen16 Hall Hv1 Hv2 Hc2]; subst.
      cbn [items] in *. rewrite keyed_items_app. apply Forall_app in Hg as [Hg1 Hg2].
      eapply yields_step; [reflexivity|].
      assert (Hval : forall out, yields nib below (Iter nib ((NBranch ns w, TChild 0) :: below)) out ->
        yields nib below (Iter nib ((NBranch ns w, TDoing) :: below))
          (keyed_items nib (match w with Some v => [([], v)] | None => [] end) ++ out)).
      { intros out Hy. destruct w as [w|].
        - apply Forall_singleton in Hg1 as [Hwh Hne]. cbn [fst] in *. rewrite app_nil_r in *.
          cbn [keyed_items under map fst snd app]. rewrite app_nil_r.
          eapply yields_item; [|exact Hy].
          cbn [iter_step i_nodes i_nibble advance]. rewrite encode_raw_branch_path by done. reflexivity.
        - eapply yields_step; [reflexivity|]. exact Hy. }
      apply Hval. clear Hval Hg1.
      (* children from index i on, with the nibble of child i-1 still on the path *)
      assert (Hch : forall k i ns' ts', ns = ns' -> drop i ts = ts' -> i + k = 16 ->
        forall nib0, nib0 = (if i =? 0 then nib else nib ++ [i - 1]) ->
        good nib (concat (imap (fun j l => under [i + j] l) (map items ts'))) ->
        yields nib below (Iter nib0 ((NBranch ns w, if i <? 16 then TChild i else TEnd) :: below))
          (keyed_items nib (concat (imap (fun j l => under [i + j] l) (map items ts'))))).
      { assert (Hlen : length ns = 16) by (rewrite (Forall2_length _ _ _ Hf); done).
        assert (Hpop : forall x, take (length (nib ++ [x]) - 1) (nib ++ [x]) = nib).
        { intros x. rewrite app_length. cbn [length].
          replace (length nib + 1 - 1) with (length nib) by lia. by rewrite take_app. }
        induction k as [|k IHk]; intros i ns' ts' _ Ed Ei nib0 Enib Hg.
        - assert (i = 16) as -> by lia.
          assert (ts' = []) as -> by (rewrite <- Ed; apply drop_ge; lia).
          cbn. eapply yields_step; [reflexivity|]. rewrite Enib. cbn [Nat.eqb Nat.sub i_nibble].
          rewrite Hpop. apply yields_refl.
        - destruct (Nat.ltb_spec i 16) as [Hi|]; [|lia].
          destruct (lookup_lt_is_Some_2 ts i) as [t Ht]; [lia|].
          destruct (Forall2_lookup_r _ _ _ _ _ Hf Ht) as (n & Hn & Hrn).
          rewrite (drop_S _ t) in Ed by done. subst ts'. cbn [map] in *. rewrite imap_cons in *.
          cbn [concat] in *. rewrite Nat.add_0_r in *. apply Forall_app in Hg as [Hg1 Hg3].
          rewrite keyed_items_app, keyed_items_under.
          assert (Enib0 : (if i =? 0 then nib0 else take (length nib0 - 1) nib0) = nib).
          { rewrite Enib. destruct (i =? 0); [done|]. apply Hpop. }
          apply (yields_step _ _ _ (Iter (nib ++ [i]) ((n, TStart) ::
            (NBranch ns w, if i <? 15 then TChild (i + 1) else TEnd) :: below))).
          { unfold iter_step. cbn [i_nodes i_nibble]. cbv zeta. rewrite Hn. do 3 f_equal.
            exact (f_equal (fun z => z ++ [i]) Enib0). }
          eapply yields_trans.
          { rewrite Forall_forall in IH. rewrite Forall_lookup in Hall.
            eapply (IH t); [by eapply elem_of_list_lookup_2| |left; exact Hrn|by eauto|by apply good_under]. lia. }
          specialize (IHk (S i) ns (drop (S i) ts) eq_refl eq_refl ltac:(lia) (nib ++ [i])).
          cbn [Nat.eqb] in IHk. rewrite Nat.sub_succ, Nat.sub_0_r in IHk. specialize (IHk eq_refl).
          assert (Eim : forall ll : list (list (hex * bytes)),
            imap ((fun j l => under [i + j] l) ∘ S) ll = imap (fun j l => under [S i + j] l) ll).
          { intros ll. apply imap_ext. intros j l _. cbn. by rewrite Nat.add_succ_r. }
          rewrite Eim in Hg3 |- *.
          specialize (IHk Hg3).
          replace (if i <? 15 then TChild (i + 1) else TEnd) with (if S i <? 16 then TChild (S i) else TEnd); [done|].
          rewrite Nat.add_1_r. done. }
      apply (Hch 16 0 ns ts); try done.
  Qed.
End hash.

Lemma bval_hi_lo b : bval b = hi b * 16 + lo b.
Proof. unfold hi, lo. pose proof (Nat.div_mod (bval b) 16). lia. Qed.

Lemma hlt_bytes a b : hlt (unpack a) (unpack b) -> bytes_lt a b.
Proof.
  revert b. induction a as [|x a IH]; intros [|y b] H; cbn [unpack] in H; [by inversion H|constructor|by inversion H|].
  pose proof (bval_hi_lo x). pose proof (bval_hi_lo y). pose proof (lo_lt x). pose proof (lo_lt y).
  inversion H as [|? ? ? ? Hlt|? ? ? H']; subst; [constructor; lia|].
  inversion H' as [|? ? ? ? Hlt|? ? ? H'']; subst; [constructor; lia|].
  assert (x = y) as -> by (by apply hi_lo_inj). apply bytes_lt_tail. auto.
Qed.

Lemma keyed_items_sorted l : Forall (fun qv => whole qv.1) l -> StronglySorted hlt (map fst l) ->
  StronglySorted bytes_lt (map fst (keyed_items [] l)).
Proof.
  unfold keyed_items, under. rewrite !map_map. cbn [fst snd app].
  induction l as [|[q v] l IH]; cbn; intros Hw Hs; [constructor|].
  inversion Hw as [|? ? Hq Hw']; subst. inversion Hs as [|? ? Hs' Hall]; subst. constructor; [auto|].
  rewrite List.Forall_map in *. apply List.Forall_forall. intros [q' v'] Hin. cbn [fst] in *.
  rewrite List.Forall_forall in Hall, Hw'. specialize (Hall _ Hin). specialize (Hw' _ Hin). cbn in *.
  destruct Hq as [k ->], Hw' as [k' ->]. rewrite !key_of_unpack. by apply hlt_bytes.
Qed.

Section values.
  Context (keccak : bytes -> bytes) (Hk : forall x, length (keccak x) = 32).

  Lemma values_ok c d T v m : view_ok keccak c d T v m -> m !! [] = None ->
    exists f0 l, (forall f, values (f0 + f) d v = Ok l) /\
      StronglySorted bytes_lt (map fst l) /\ (forall k x, (k, x) ∈ l <-> m !! k = Some x).
  Proof.
    intros (t & Hr & Hw & [Hh1 Hh2] & _) Hm.
    assert (Hit : forall q x, (q, x) ∈ items t -> exists k, q = unpack k /\ m !! k = Some x).
    { intros q x Hq. apply (items_lk c Bmax Bmax t q x Hw) in Hq as [Hn Hl].
      destruct (Hh2 (q ++ [16])) as [k Ek]; [by apply tpath_nibs|congruence|].
      unfold from_raw in Ek. apply app_inv_tail in Ek as ->. exists k. split; [done|].
      rewrite <- Hh1. exact Hl. }
    assert (Hg : good [] (items t)).
    { apply Forall_forall. intros [q x] Hq. destruct (Hit q x Hq) as (k & -> & Hk'). cbn.
      split; [by exists k|]. destruct k; [congruence|done]. }
    destruct (iter_node keccak Hk d c Bmax (t_root v) t [] [] (le_n _) Hr Hw Hg) as [cost Hc].
    exists (cost + 1), (keyed_items [] (items t)). split; [|split].
    - intros f. unfold values, iter_new. rewrite <- Nat.add_assoc.
      etrans; [exact (Hc (1 + f))|]. cbn [Nat.add iter_collect iter_step i_nodes rbind]. by rewrite app_nil_r.
    - apply keyed_items_sorted; [|by eapply items_sorted].
      eapply Forall_impl; [exact Hg|]. by intros [q x] [? _].
    - intros k x. unfold keyed_items, under. rewrite map_map. cbn [fst snd app].
      rewrite elem_of_list_In, in_map_iff. split.
      + intros ([q y] & [= <- <-] & Hin). apply elem_of_list_In, Hit in Hin as (k & -> & Hk').
        cbn [fst]. by rewrite key_of_unpack.
      + intros Hkx. exists (unpack k, x). cbn [fst snd]. rewrite key_of_unpack. split; [done|].
        apply elem_of_list_In, (items_lk c Bmax Bmax t _ _ Hw). split; [apply unpack_nibs|].
        by rewrite <- Hh1 in Hkx.
  Qed.
End values.
