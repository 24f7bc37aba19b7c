(** What [restore_new] finds in the store of a restoration that was
    interrupted. *)
From Verif Require Import Base JmtNibModel JmtNibProof JmtSpec JmtTraceSpec JmtNibSpec JmtModel JmtHashProof JmtAbsProof JmtCacheProof
  JmtInsertProof JmtPutProof JmtOrderProof JmtIterModel JmtIterSpec JmtIterProof JmtRestoreModel JmtRestoreSpec JmtRestoreProof JmtRestoreAddProof.
Local Open Scope nat_scope.

(** ** The rightmost leaf *)
Definition pick_leaf (acc : option (nkey * (bytes * bytes))) (e : nkey * node) : option (nkey * (bytes * bytes)) :=
  match snd e with
  | NLeaf k vh =>
      match acc with
      | Some (_, (k0, _)) => if key_ltb k0 k then Some (fst e, (k, vh)) else acc
      | None => Some (fst e, (k, vh))
      end
  | _ => acc
  end.
Lemma pick_leaf_ok L : forall acc,
  match fold_left pick_leaf L acc with
  | None => acc = None /\ forall nk k vh, (nk, NLeaf k vh) ∉ L
  | Some (nk, (k, vh)) => (acc = Some (nk, (k, vh)) \/ (nk, NLeaf k vh) ∈ L) /\
      (forall nk' k' vh', acc = Some (nk', (k', vh')) \/ (nk', NLeaf k' vh') ∈ L -> ~ bytes_lt k k')
  end.
Proof.
  induction L as [|[nk0 nd] L IH]; intros acc; cbn [fold_left].
  { destruct acc as [[nk [k vh]]|].
    - split; [by left|]. intros ??? [E|E%elem_of_nil]; [|done]. injection E as <- <- <-. apply klt_irrefl.
    - split; [done|]. intros ???. apply not_elem_of_nil. }
  specialize (IH (pick_leaf acc (nk0, nd))). destruct (fold_left pick_leaf L _) as [[nk [k vh]]|].
  - destruct IH as [H1 H2]. unfold pick_leaf in H1, H2. cbn [fst snd] in H1, H2. destruct nd as [|k0 vh0|n].
    + split; [destruct H1; [by left|right; by right]|]. intros ??? [E|E].
      * eapply H2. left. exact E.
      * apply elem_of_cons in E as [E|E]; [done|]. eapply H2. right. exact E.
    + destruct acc as [[nk1 [k1 vh1]]|].
      * destruct (key_ltb k1 k0) eqn:El.
        -- apply key_ltb_lt in El. split.
           ++ right. apply elem_of_cons. destruct H1 as [E|?]; [left; by injection E as <- <- <-|by right].
           ++ intros ??? [E|E].
              ** injection E as <- <- <-. intros Hlt. apply (H2 nk0 k0 vh0); [by left|]. by eapply klt_trans.
              ** apply elem_of_cons in E as [E|E]; [injection E as -> -> ->; apply (H2 nk0 k0 vh0); by left|eapply H2; by right].
        -- assert (~ bytes_lt k1 k0) as Hn by (rewrite <-key_ltb_lt; by rewrite El). split.
           ++ destruct H1 as [E|?]; [by left|right; by right].
           ++ intros ??? [E|E]; [eapply H2; by left|]. apply elem_of_cons in E as [E|E]; [|eapply H2; by right].
              injection E as -> -> ->. intros Hlt. assert (~ bytes_lt k k1) as Hk by (eapply H2; by left).
              destruct (klt_total k k1) as [?|[->|?]]; [done..|]. apply Hn. by eapply klt_trans.
      * split.
        -- right. apply elem_of_cons. destruct H1 as [E|?]; [left; by injection E as <- <- <-|by right].
        -- intros ??? [?|E]; [done|]. apply elem_of_cons in E as [E|E]; [injection E as -> -> ->; eapply H2; by left|eapply H2; by right].
    + split; [destruct H1; [by left|right; by right]|]. intros ??? [E|E].
      * eapply H2. left. exact E.
      * apply elem_of_cons in E as [E|E]; [done|]. eapply H2. right. exact E.
  - destruct IH as [H1 H2]. unfold pick_leaf in H1. cbn [fst snd] in H1. destruct nd as [|k0 vh0|n].
    + split; [done|]. intros ??? [E|E]%elem_of_cons; [done|]. by apply H2 in E.
    + destruct acc as [[nk1 [k1 vh1]]|]; [destruct (key_ltb k1 k0)|]; done.
    + split; [done|]. intros ??? [E|E]%elem_of_cons; [done|]. by apply H2 in E.
Qed.
Lemma rightmost_leaf_ok s : match rightmost_leaf s with
  | None => forall nk k vh, st_nodes s !! nk <> Some (NLeaf k vh)
  | Some (nk, (k, vh)) => st_nodes s !! nk = Some (NLeaf k vh) /\
      forall nk' k' vh', st_nodes s !! nk' = Some (NLeaf k' vh') -> ~ bytes_lt k k'
  end.
Proof.
  change (rightmost_leaf s) with (fold_left pick_leaf (map_to_list (st_nodes s)) None).
  pose proof (pick_leaf_ok (map_to_list (st_nodes s)) None) as H. destruct (fold_left _ _ _) as [[nk [k vh]]|].
  - destruct H as [[?|H1] H2]; [done|]. split; [by apply elem_of_map_to_list|].
    intros nk' k' vh' Hl. apply (H2 nk' k' vh'). right. by apply elem_of_map_to_list.
  - destruct H as [_ H]. intros nk k vh Hl. apply (H nk k vh). by apply elem_of_map_to_list.
Qed.

Section Recover.
Context (sha : bytes -> bytes) (v : N).
Notation sm_leaf := (sm_leaf sha).
Notation sm_internal := (sm_internal sha).
Notation hashP := (hashB sm_leaf sm_internal placeholder).
Notation phash p M := (hashP (path_bits p) M).
Notation node_of M q := (node_of sha M (fun _ => v) q).
Notation Up := (Up sha v).
Notation complete := (complete sha).
Notation finfo := (finfo sha).
Notation Frz := (Frz sha v).
Notation Pend := (Pend sha v).
Notation Recd := (Recd sha v).
Implicit Types (M : pairs) (p q : path) (S : gmap nkey node).

(** The nodes stored for the pairs [M], up to the path [p]. *)
Record Kept S M p : Prop := {
  kp_wf : wfm M;
  kp_p : p = [] \/ 0 < pcnt p M;
  kp_len : length p < 64;
  kp_max : forall k vh, M !! k = Some vh -> greatest M k -> p `prefix_of` nibs k;
  kp_frz : Frz M S p p
}.

(** The nodes of a state are those of all pairs but the last. *)
Lemma Pend_Kept ps sn M' k vh p : Pend ps ∅ sn (<[k := vh]> M') k p -> M' !! k = None ->
  Kept sn M' p /\ exists j r, nibs k = p ++ j :: r /\ pcnt (p ++ [j]) M' = 0.
Proof.
  intros HP Hn. pose proof HP as [Hw _ Hg (j & r & Hj & H1) Hp _ Hf _]. set (M := <[k := vh]> M') in *.
  assert (wfm M') as Hw'.
  { intros l y Hl. apply (Hw l y). unfold M. rewrite lookup_insert_ne; [done|]. by intros ->; rewrite Hn in Hl. }
  assert (length k = 32) as Hk by (apply (Hw k vh); apply lookup_insert).
  assert (p ++ [j] `prefix_of` nibs k) as Hpj by (rewrite Hj; exists r; by rewrite <-app_assoc).
  assert (p `prefix_of` nibs k) as Hpk by (etrans; [|exact Hpj]; by eexists).
  assert (pcnt (p ++ [j]) M' = 0) as H0 by (rewrite (pcnt_in M' k vh) in H1 by done; lia).
  split; [|by exists j, r]. split.
  - done.
  - destruct Hp as [->|Hp]; [by left|right]. rewrite (pcnt_in M' k vh) in Hp by done. lia.
  - pose proof (nibs_length k) as HL. rewrite Hj, app_length, Hk in HL. cbn [length] in HL. lia.
  - intros k' vh' Hk' Hg'. destruct Hp as [->|Hp]; [apply prefix_nil|].
    rewrite (pcnt_in M' k vh) in Hp by done. destruct (cnt_pos_inv (path_bits p) M') as (l & y & Hl & Hpl); [lia|].
    rewrite key_bits_nibs, path_bits_prefix in Hpl.
    assert (bytes_lt k' k) as Hlt.
    { destruct (klt_total k' k) as [?|[->|Hlt]]; [done|congruence|]. exfalso. apply (Hg k' vh'); [|done].
      unfold M. rewrite lookup_insert_ne; [done|]. by intros ->; apply klt_irrefl in Hlt. }
    destruct (klt_total l k') as [Hlk|[->|Hlk]]; [|done|by apply (Hg' l y) in Hl].
    destruct (decide (p `prefix_of` nibs k')) as [|Hnp]; [done|exfalso].
    (* [k'] is between two keys below [p] *)
    assert (length k' = 32) as Hk32 by by eapply Hw'.
    assert (length l = 32) as Hl32 by by eapply Hw'.
    destruct (nibs_diverge l k' Hl32 Hk32 Hlk) as (c & a & b & ra & rb & Ea & Eb & Hab).
    destruct (prefix_weak_total p c (nibs l) Hpl) as [Hpc|Hcp]; [rewrite Ea; by eexists|apply Hnp; rewrite Eb; etrans; [exact Hpc|by eexists]|].
    assert (c ++ [a] `prefix_of` p) as Hca.
    { destruct (prefix_app_cases (c ++ [a]) p (nibs l)) as [?|Hc]; [rewrite Ea; exists ra; by rewrite <-app_assoc|done|done|].
      apply prefix_snoc_or in Hc as [Hc| ->]; [|done]. exfalso. apply Hnp. rewrite Eb. etrans; [exact Hc|by eexists]. }
    apply (klt_asym k' k Hlt). apply (prefix_klt c a b); [by etrans| |done]. rewrite Eb. exists rb. by rewrite <-app_assoc.
  - intros q. pose proof (Hf q) as Hq. rewrite map_empty_union in Hq. rewrite Hq.
    destruct (decide (q `prefix_of` nibs k)) as [Hqk|Hqk].
    + rewrite decide_False by tauto. destruct (decide (rlive p M' q /\ ~ q `prefix_of` p)) as [[Hl Hqp]|]; [exfalso|done].
      destruct Hl as (_ & Hpos & _). assert (p ++ [j] `prefix_of` q) as Hpq.
      { destruct (prefix_app_cases q (p ++ [j]) (nibs k)) as [Hc|?]; [done..| |done].
        apply prefix_snoc_or in Hc as [?| ->]; done. }
      pose proof (pcnt_mono _ _ M' Hpq). lia.
    + assert (pcnt q M = pcnt q M') as Eq by by apply pcnt_out.
      assert (rlive p M q /\ ~ q `prefix_of` nibs k <-> rlive p M' q /\ ~ q `prefix_of` p) as Hiff.
      { unfold rlive. rewrite Eq. split; intros [(Hne & Hpos & Hr) _]; (split; [split_and!; [done..|]|]).
        - destruct (decide (removelast q `prefix_of` p)) as [|Hrp]; [by left|]. destruct Hr as [?|Hr]; [done|]. right.
          destruct (decide (removelast q `prefix_of` nibs k)) as [Hrk|Hrk]; [exfalso|by rewrite <-(pcnt_out M' k vh)].
          assert (p ++ [j] `prefix_of` removelast q) as Hpq.
          { destruct (prefix_app_cases (removelast q) (p ++ [j]) (nibs k)) as [Hc|?]; [done..| |done].
            apply prefix_snoc_or in Hc as [?| ->]; done. }
          pose proof (pcnt_mono _ _ M Hpq). lia.
        - intros Hc. apply Hqk. by etrans.
        - destruct Hr as [?|Hr]; [by left|right]. etrans; [exact Hr|].
          destruct (decide (removelast q `prefix_of` nibs k)); [rewrite (pcnt_in M' k vh) by done; lia|by rewrite (pcnt_out M' k vh)].
        - done. }
      destruct (decide (rlive p M q /\ ~ q `prefix_of` nibs k)) as [Hd|Hd]; [rewrite decide_True by tauto|by rewrite decide_False by tauto].
      f_equal. apply node_of_ext; [|done]. by apply subm_out.
Qed.

(** ** The leaves that are stored *)
Lemma Kept_leaf S M p q k x : Kept S M p -> S !! (v, q) = Some (NLeaf k x) ->
  M !! k = Some x /\ q `prefix_of` nibs k /\ pcnt q M = 1 /\ rlive p M q /\ ~ q `prefix_of` p.
Proof.
  intros [Hw _ _ _ Hf] Hq. rewrite Hf in Hq. destruct (decide _) as [[Hl Hqp]|]; [|done]. injection Hq as Hq.
  pose proof Hl as (_ & Hpos & _). destruct (decide (pcnt q M = 1)) as [H1|H1].
  - pose proof H1 as H1'. apply cnt_1 in H1' as (l & y & E). rewrite (node_of_leaf _ _ _ _ _ _ E) in Hq. injection Hq as <- <-.
    assert (subm (path_bits q) M !! l = Some y) as Hs by (rewrite E; apply lookup_singleton).
    apply psub_Some in Hs as [??]. done.
  - rewrite node_of_internal in Hq by lia. done.
Qed.
Lemma Kept_unique S M p q q' k x x' : Kept S M p -> S !! (v, q) = Some (NLeaf k x) -> S !! (v, q') = Some (NLeaf k x') -> q = q'.
Proof.
  intros HK H H'. apply (Kept_leaf _ _ _ _ _ _ HK) in H as (_ & Hqk & H1 & Hl & Hp).
  apply (Kept_leaf _ _ _ _ _ _ HK) in H' as (_ & Hqk' & H1' & Hl' & Hp').
  assert (forall a b, a `prefix_of` b -> pcnt a M = 1 -> rlive p M b -> ~ a `prefix_of` p -> a = b) as Hgen.
  { intros a b Hab Ha Hb Hap. apply rlive_inv in Hb as (b0 & i & -> & _ & Hr). apply prefix_snoc_or in Hab as [Hab|?]; [exfalso|done].
    destruct Hr as [Hr|Hr]; [apply Hap; by etrans|]. pose proof (pcnt_mono _ _ M Hab). lia. }
  destruct (prefix_app_cases q q' (nibs k) Hqk Hqk'); [by apply Hgen|symmetry; by apply Hgen].
Qed.
(** Every pair has its leaf. *)
Lemma first_prefix (P : path -> Prop) `{forall q, Decision (P q)} (l : path) : P l ->
  exists q, q `prefix_of` l /\ P q /\ (q = [] \/ ~ P (removelast q)).
Proof.
  induction l as [|i l IH] using rev_ind; intros Hl; [exists []; split_and!; [done..|by left]|].
  destruct (decide (P l)) as [Hp|Hp].
  - destruct (IH Hp) as (q & Hq & HP & Hr). exists q. split_and!; [|done..]. etrans; [exact Hq|by eexists].
  - exists (l ++ [i]). split_and!; [done..|]. right. by rewrite removelast_last.
Qed.
Lemma Kept_has S M p k x : Kept S M p -> M !! k = Some x -> exists q, S !! (v, q) = Some (NLeaf k x).
Proof.
  intros [Hw Hp Hlen Hmax Hf] Hk.
  destruct (first_prefix (fun q => pcnt q M <= 1 /\ ~ q `prefix_of` p) (nibs k)) as (q & Hqk & [Hq1 Hqp] & Hr).
  { split.
    - destruct (decide (pcnt (nibs k) M <= 1)) as [|Hn]; [done|exfalso]. pose proof (pcnt_short M (nibs k) Hw) as Hs.
      rewrite nibs_length, (Hw k x Hk) in Hs. lia.
    - intros Hc%prefix_length. rewrite nibs_length, (Hw k x Hk) in Hc. lia. }
  pose proof (pcnt_key q M k x Hk Hqk) as Hpos. assert (pcnt q M = 1) as H1 by lia.
  exists q. rewrite Hf, decide_True.
  - f_equal. apply node_of_leaf. by apply psub_one.
  - split; [|done]. assert (q <> []) as Hne by (intros ->; apply Hqp, prefix_nil). split_and!; [done..|].
    destruct Hr as [?|Hr]; [done|]. destruct (decide (removelast q `prefix_of` p)) as [|Hrp]; [by left|right].
    destruct (decide (2 <= pcnt (removelast q) M)) as [|Hn]; [done|]. exfalso. apply Hr. split; [lia|done].
Qed.

(** ** The lookups below a path *)
Lemma scan_ok s M p : wfm M -> forall l, (forall i, i ∈ l -> st_nodes s !! (v, p ++ [i]) =
    if decide (0 < pcnt (p ++ [i]) M) then Some (node_of M (p ++ [i])) else None) ->
  exists cs, scan sha s v p l = Ok cs /\ forall i, cs !! i = if decide (i ∈ l) then finfo M (p ++ [i]) else None.
Proof.
  intros Hw. induction l as [|i l IH]; intros Hl.
  { exists ∅. split; [done|]. intros i. rewrite decide_False by apply not_elem_of_nil. done. }
  destruct IH as (cs & E & Hcs); [intros j Hj; apply Hl; by right|]. cbn [scan].
  rewrite (Hl i) by by left. destruct (decide (0 < pcnt (p ++ [i]) M)) as [Hpos|H0].
  - assert (exists c, finfo M (p ++ [i]) = Some c /\
      match node_of M (p ++ [i]) with
      | NNull => Err NullStored
      | NLeaf k vh => rbind (scan sha s v p l) (fun m => Ok (<[i := CLeaf k vh]> m))
      | NInternal n => rbind (inode_hash sha n) (fun h =>
          rbind (scan sha s v p l) (fun m => Ok (<[i := CInternal (Some h) (in_count n)]> m)))
      end = Ok (<[i := c]> cs)) as (c & Ec & ->).
    { destruct (decide (pcnt (p ++ [i]) M = 1)) as [H1|H1].
      - apply cnt_1 in H1 as (k & x & E1). exists (CLeaf k x). split; [by apply finfo_1|].
        rewrite (node_of_leaf _ _ _ _ _ _ E1), E. done.
      - eexists. split; [apply finfo_2; lia|]. rewrite node_of_internal by lia. rewrite inode_hash_of by (done || lia).
        cbn [rbind in_count]. rewrite E. done. }
    exists (<[i := c]> cs). split; [done|]. intros j. destruct (decide (j = i)) as [->|Hne].
    + rewrite lookup_insert, decide_True by left. done.
    + rewrite lookup_insert_ne by done. rewrite Hcs.
      destruct (decide (j ∈ l)) as [Hj|Hj]; [by rewrite decide_True by by right|].
      rewrite decide_False; [done|]. by intros [?|?]%elem_of_cons.
  - exists cs. split; [done|]. intros j. rewrite Hcs. destruct (decide (j ∈ l)) as [Hj|Hj]; [by rewrite decide_True by by right|].
    destruct (decide (j ∈ i :: l)) as [Hj'|]; [|done]. apply elem_of_cons in Hj' as [->|?]; [|done]. symmetry. apply finfo_0. lia.
Qed.
Lemma Kept_child S M p q i : Kept S M p -> q `prefix_of` p -> ~ q ++ [i] `prefix_of` p ->
  S !! (v, q ++ [i]) = if decide (0 < pcnt (q ++ [i]) M) then Some (node_of M (q ++ [i])) else None.
Proof.
  intros [_ _ _ _ Hf] Hq Hn. rewrite Hf. destruct (decide (0 < pcnt (q ++ [i]) M)) as [H|H].
  - rewrite decide_True; [done|]. split; [|done]. apply rlive_snoc. tauto.
  - rewrite decide_False; [done|]. intros [(_ & ? & _) _]. done.
Qed.

Section One.
Context (s : store) (M : pairs) (p : path) (k x : bytes).
Hypothesis HK : Kept (st_nodes s) M p.
Hypothesis Hk : M !! k = Some x.
Hypothesis Hg : greatest M k.

Lemma recover_loop_ok q : forall j, q ++ [j] `prefix_of` p ->
  exists ps, recover_loop sha s v v (Some j) (rev q) = Ok ps /\ Up M ps (q ++ [j]).
Proof.
  pose proof (kp_wf _ _ _ HK) as Hw. pose proof (kp_max _ _ _ HK _ _ Hk Hg) as Hpk.
  assert (forall q j, q ++ [j] `prefix_of` p ->
    exists cs, scan sha s v q (filter (fun i => (nib_val i < nib_val j)%N) all_nibs) = Ok cs /\
      (forall i, i <> j -> <[j := CInternal None None]> cs !! i = finfo M (q ++ [i]))) as Hone.
  { clear q. intros q j Hq. destruct (scan_ok s M q Hw (filter (fun i => (nib_val i < nib_val j)%N) all_nibs)) as (cs & E & Hcs).
    { intros i [Hij _]%elem_of_list_filter. apply (Kept_child _ _ p); [done|etrans; [|exact Hq]; by eexists|].
      intros Hc. destruct (prefix_app_cases _ _ _ Hq Hc) as [Hx|Hx]; apply prefix_len_eq in Hx;
        rewrite ?app_length; cbn [length]; try lia; apply app_inj_tail in Hx as [_ Hx]; subst; lia. }
    exists cs. split; [done|]. intros i Hi. rewrite lookup_insert_ne by done. rewrite Hcs.
    destruct (decide (i ∈ filter _ _)) as [|Hn]; [done|]. symmetry. apply finfo_0.
    apply (right_empty sha M k q i j Hw Hg); [by etrans|].
    assert (~ (nib_val i < nib_val j)%N) as Hge by (intros ?; apply Hn, elem_of_list_filter; split; [done|apply all_nibs_in]).
    assert (nib_val i <> nib_val j) by (intros E'; by apply nib_val_inj in E'). lia. }
  induction q as [|j' q IH] using rev_ind; intros j Hq.
  - destruct (Hone [] j Hq) as (cs & E & Hcs). cbn [rev recover_loop]. rewrite E. cbn [rbind]. eexists. split; [reflexivity|].
    apply Up_cons; [constructor|done|apply lookup_insert].
  - destruct (Hone (q ++ [j']) j Hq) as (cs & E & Hcs). rewrite rev_unit. cbn [recover_loop].
    change (rev (j' :: rev q)) with (rev (rev q) ++ [j']). rewrite rev_involutive, E. cbn [rbind].
    destruct (IH j') as (ps & E' & HU); [etrans; [|exact Hq]; by eexists|]. rewrite E'. cbn [rbind]. eexists. split; [reflexivity|].
    apply Up_cons; [done|done|apply lookup_insert].
Qed.

Lemma climb_ok q : p `prefix_of` q -> (q <> p -> 2 <= pcnt q M) -> climb s v (rev q) = Ok (rev p).
Proof.
  pose proof (kp_frz _ _ _ HK) as Hf. induction q as [|i q IH] using rev_ind; intros Hpq H2.
  - apply prefix_nil_inv in Hpq as Ep. rewrite Ep in *. cbn [rev climb]. rewrite Hf, decide_False; [done|]. intros [_ Hc]. by apply Hc.
  - rewrite rev_unit. cbn [climb]. change (rev (i :: rev q)) with (rev (rev q) ++ [i]). rewrite rev_involutive.
    destruct (decide (q ++ [i] = p)) as [E|Hne].
    + rewrite Hf, decide_False; [by rewrite <-E, rev_unit|]. intros [_ Hc]. apply Hc. by rewrite E.
    + specialize (H2 Hne). apply prefix_snoc_or in Hpq as [Hpq|?]; [|congruence]. rewrite Hf, decide_True.
      * apply IH; [done|]. intros _. etrans; [exact H2|]. apply pcnt_mono. by eexists.
      * split.
        -- apply rlive_snoc. split; [lia|]. right. etrans; [exact H2|]. apply pcnt_mono. by eexists.
        -- intros Hc. apply Hne. apply prefix_len_eq; [done|]. apply prefix_length in Hpq. rewrite app_length. cbn [length]. lia.
Qed.

Hypothesis Hleaves : forall w q l y, st_nodes s !! (w, q) = Some (NLeaf l y) -> w = v.
Lemma restore_new_ok root : exists ps, restore_new sha s v root = Ok (RState s v ps ∅ ∅ (Some (k, x)) 0 root) /\
  Recd ps ∅ (st_nodes s) M p.
Proof.
  pose proof (rightmost_leaf_ok s) as HR. destruct (Kept_has _ _ _ _ _ HK Hk) as [q Hq].
  unfold restore_new. destruct (rightmost_leaf s) as [[[w q'] [k' x']]|]; [|by apply HR in Hq].
  destruct HR as [Hq' Hmax]. pose proof (Hleaves _ _ _ _ Hq') as ->.
  pose proof (Kept_leaf _ _ _ _ _ _ HK Hq') as (Hk' & _).
  assert (k' = k) as ->.
  { destruct (klt_total k k') as [Hlt|[?|Hlt]]; [by apply (Hg k' x') in Hlt|done|by apply Hmax in Hq]. }
  pose proof (Kept_unique _ _ _ _ _ _ _ _ HK Hq Hq') as <-. rewrite Hq in Hq'. injection Hq' as <-.
  pose proof (Kept_leaf _ _ _ _ _ _ HK Hq) as (_ & Hqk & H1 & Hl & Hqp).
  apply rlive_inv in Hl as (q0 & i & -> & _ & Hr). pose proof (kp_max _ _ _ HK _ _ Hk Hg) as Hpk.
  assert (p `prefix_of` q0) as Hpq.
  { destruct (prefix_app_cases p (q0 ++ [i]) (nibs k) Hpk Hqk) as [Hc|Hc]; [|done].
    apply prefix_snoc_or in Hc as [?|Hc]; [done|]. exfalso. apply Hqp. by rewrite Hc. }
  assert (q0 <> p -> 2 <= pcnt q0 M) as H2.
  { intros Hne. destruct Hr as [Hr|?]; [|done]. exfalso. apply Hne. apply prefix_len_eq; [done|]. by apply prefix_length. }
  unfold recover_partial_nodes. cbn [snd fst]. rewrite rev_unit, (climb_ok q0 Hpq H2). cbn [rbind].
  destruct (scan_ok s M p (kp_wf _ _ _ HK) all_nibs) as (cs & E & Hcs).
  { intros j _. apply (Kept_child _ _ p); [done..|]. intros Hc%prefix_length. rewrite app_length in Hc. cbn [length] in Hc. lia. }
  assert (exists ps', recover_loop sha s v v None (rev p) = Ok (PInfo (v, p) cs :: ps') /\ Up M ps' p) as (ps' & E' & HU).
  { assert (p = [] \/ exists p0 j, p = p0 ++ [j]) as [Ep|(p0 & j & Ep)].
    { destruct p as [|j p0 _] using rev_ind; [by left|right; eauto]. }
    - rewrite Ep in E |- *. cbn [rev recover_loop]. cbn [app] in E. rewrite E. cbn [rbind]. eexists. split; [reflexivity|constructor].
    - rewrite Ep in E |- *. rewrite rev_unit. cbn [recover_loop]. change (rev (j :: rev p0)) with (rev (rev p0) ++ [j]). rewrite rev_involutive, E. cbn [rbind].
      destruct (recover_loop_ok p0 j) as (ps & E1 & HU); [by rewrite Ep|]. rewrite E1. cbn [rbind]. eauto. }
  rewrite E'. cbn [rbind]. eexists. split; [reflexivity|]. split.
  - apply (kp_wf _ _ _ HK).
  - apply (kp_p _ _ _ HK).
  - exists cs, ps'. split_and!; [done..|]. intros j. rewrite Hcs, decide_True by apply all_nibs_in. done.
  - rewrite map_empty_union. apply (kp_frz _ _ _ HK).
  - split; [apply map_disjoint_empty_l|by intros ??].
Qed.
End One.
End Recover.
