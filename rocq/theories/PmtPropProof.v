(** Consequences of the refinement, in the form used by the properties. *)
From Verif Require Import Base PmtNibblesModel RlpModel PmtModel PmtRunSpec PmtNibblesProof RlpProof PmtSpec
  PmtEncProof PmtLookupProof PmtOpsProof PmtDeleteProof PmtCommitProof PmtRunProof PmtStepProof PmtProofProof PmtIterProof PmtYellowSpec PmtYellowProof.
Open Scope res_scope.

Section hash.
  Context (keccak : bytes -> bytes) (Hk : forall x, length (keccak x) = 32).
  Notation enc := (enc keccak).
  Notation collapse := (collapse keccak).
  Notation view_ok := (view_ok keccak).
  Notation root_ok := (root_ok keccak).
  Notation keyed := (keyed keccak).
  Notation run := (run keccak).
  Notation world0 := (world0 keccak).

  (** A history and its effect. *)
  Lemma history c x ops : Forall op_short ops -> (c = true -> tame spec0 ops) ->
    inj_on keccak (w_trace (run x world0 ops).2) ->
    inv keccak c (run x world0 ops).2 (srun spec0 ops) /\ outs_ok c spec0 ops (run x world0 ops).1.
  Proof. intros. apply run_inv; auto. apply inv0. Qed.

  Lemma inv_view c w s i v m : inv keccak c w s -> w_views w !! i = Some v -> s_views s !! i = Some m ->
    view_ok c (w_db w) (w_trace w) v m.
  Proof.
    intros [_ _ Hv _] H1 H2. destruct (Forall2_lookup_l _ _ _ _ _ Hv H1) as (m' & E & H). congruence.
  Qed.
  Lemma inv_root c w s j r m : inv keccak c w s -> w_roots w !! j = Some r -> s_roots s !! j = Some m ->
    root_ok c (w_db w) r m.
  Proof.
    intros [_ _ _ Hv] H1 H2. destruct (Forall2_lookup_l _ _ _ _ _ Hv H1) as (m' & E & H). congruence.
  Qed.
  Lemma root_view c d T r m : root_ok c d r m -> view_ok c d T (at_root r) m.
  Proof.
    intros (t & -> & Hw & Hh & Hkn & Hst). exists t.
    split; [right; eauto|]. split; [done|]. split; [done|]. intros h e He. cbn in He. by rewrite lookup_empty in He.
  Qed.

  (** Commit in a canonical history: the root is determined by the contents. *)
  Lemma canonical_root d1 d2 r1 r2 m : root_ok true d1 r1 m -> root_ok true d2 r2 m -> r1 = r2.
  Proof.
    intros (t1 & -> & Hw1 & Hh1 & _) (t2 & -> & Hw2 & Hh2 & _). do 2 f_equal.
    eapply canonical_unique; [exact Hw1|exact Hw2|].
    assert (Hle : forall t t' q, holds t m -> holds t' m -> tpath q -> lk t q <> None -> lk t' q = lk t q).
    { intros t t' q [H1 H2] [H1' H2'] Hq Hne. destruct (H2 q Hq Hne) as [k ->]. by rewrite H1, H1'. }
    intros q Hq. destruct (lk t1 q) eqn:E1.
    - rewrite <- E1. symmetry. apply Hle; auto. congruence.
    - destruct (lk t2 q) eqn:E2; [|done]. rewrite <- E1, <- E2. apply Hle; auto. congruence.
  Qed.

  (** Roots determine the contents. *)
  Lemma root_binding c1 c2 d1 d2 T1 T2 r m1 m2 : keyed T1 (storage d1) -> keyed T2 (storage d2) ->
    root_ok c1 d1 r m1 -> root_ok c2 d2 r m2 -> inj_on keccak (T1 ++ T2) -> m1 = m2.
  Proof.
    assert (Hgen : forall c1 c2 d1 d2 T1 T2 m1 m2, keyed T1 (storage d1) -> keyed T2 (storage d2) ->
      root_ok c1 d1 r m1 -> root_ok c2 d2 r m2 -> inj_on keccak (T1 ++ T2) -> m1 <> ∅ ->
      m1 = m2).
    { clear -Hk. intros c1 c2 d1 d2 T1 T2 m1 m2 Hd1 Hd2 Hr1 Hr2 Hi Hne.
      pose proof Hr1 as (t & Er & Hw & Hh & Hkn & Hst).
      apply map_eq. intros k.
      set (v := Trie (collapse t) r ∅ ∅ ∅).
      destruct (proof_complete keccak Hk c1 d1 T1 v m1 t k 0 0) as (v' & proof & Ep & Hsub & Hv); auto.
      { eapply inj_on_sub; [|exact Hi]. intros e He. apply elem_of_app. auto. }
      { by eapply repr_collapse_wf. }
      rewrite Forall_forall in Hsub.
      destruct (verify_sound keccak Hk c2 d2 T2 r m2 k 0 proof Hd2 Hr2) as [E|E].
      - eapply inj_on_sub; [|exact Hi]. intros e. rewrite !elem_of_app. intros [?|?]; auto.
      - rewrite Er in E. congruence.
      - rewrite Er in E. congruence. }
    intros Hd1 Hd2 Hr1 Hr2 Hi.
    destruct (decide (m1 = ∅)) as [->|Hne]; [|by eapply (Hgen c1 c2 d1 d2)].
    destruct (decide (m2 = ∅)) as [->|Hne]; [done|]. symmetry.
    eapply (Hgen c2 c1 d2 d1 T2 T1); eauto.
    eapply inj_on_sub; [|exact Hi]. intros e. rewrite !elem_of_app. tauto.
  Qed.

  (** Writing a freshly decoded root hashes nothing below it. *)
  Lemma hashed_collapse c V L t d : wf c V L t -> stored keccak true d t -> hashed_below keccak (collapse t) = [].
  Proof.
    revert L. induction t as [|k w|p s IH|ts w IH|h] using node_ind'; intros L Hw Hst; inversion Hw; subst; try done.
    - cbn [PmtSpec.collapse hashed_below].
      destruct (long_dec keccak s) as [[-> Hs]|[-> _]]; [|done].
      assert (stored keccak true d s) as Hss by (eapply stored_sub; [exact Hst|cbn; right; apply subs_refl]).
      assert (raw keccak (collapse s) = enc s) as Er.
      { eapply (raw_enc keccak true d); [by eapply repr_collapse_wf|done|]. intros h. by eapply collapse_not_hash. }
      assert (Hh : hashed keccak (collapse s) = hashed_below keccak (collapse s) ++
                (if length (raw keccak (collapse s)) <? 32 then [] else [raw keccak (collapse s)])).
      { pose proof (fun h => collapse_not_hash keccak _ _ _ _ h H5) as Hnh. destruct (collapse s); done || by edestruct Hnh. }
      rewrite Hh, Er, (IH L0) by done. destruct (Nat.ltb_spec (length (enc s)) 32); [done|lia].
    - cbn [PmtSpec.collapse hashed_below]. rewrite map_map.
      assert (Hall : forall t, t ∈ ts -> hashed keccak (if length (enc t) <? 32 then collapse t else NHash (keccak (enc t))) = []).
      { intros s Hs. rewrite Forall_forall in IH, H2.
        destruct (long_dec keccak s) as [[-> Hl]|[-> _]]; [|done].
        assert (stored keccak true d s) as Hss.
        { eapply stored_sub; [exact Hst|]. apply elem_of_list_lookup in Hs as [i Hi]. eapply subs_child; [exact Hi|apply subs_refl]. }
        assert (raw keccak (collapse s) = enc s) as Er.
        { eapply (raw_enc keccak true d); [by eapply repr_collapse_wf; eauto|by eauto|]. intros h. eapply collapse_not_hash. eauto. }
        assert (Hh : hashed keccak (collapse s) = hashed_below keccak (collapse s) ++
                  (if length (raw keccak (collapse s)) <? 32 then [] else [raw keccak (collapse s)])).
        { pose proof (fun h => collapse_not_hash keccak _ _ _ _ h (H2 s Hs)) as Hnh. destruct (collapse s); done || by edestruct Hnh. }
        rewrite Hh, Er, (IH s Hs L0) by eauto. destruct (Nat.ltb_spec (length (enc s)) 32); [done|lia]. }
      clear -Hall. induction ts as [|t ts IH]; [done|]. cbn [map concat].
      rewrite Hall by left. apply IH. intros. apply Hall. by right.
  Qed.

  (** A second commit changes nothing. *)
  Lemma commit_again c d T v m : light d = false -> keyed T (storage d) -> view_ok c d T v m ->
    inj_on keccak (T ++ hashed_root keccak (t_root v)) ->
    forall d1 v1 r1, commit keccak d v = (d1, v1, r1) ->
    exists h, r1 = Ok h /\ commit keccak d1 v1 = (d1, v1, Ok h).
  Proof.
    intros Hl Hd Hv Hi d1 v1 r1 E1.
    destruct (commit_ok keccak Hk c d T v m Hl Hd Hv Hi)
      as (d' & v' & r & E & Hl' & _ & Hd' & _ & _ & (t & Ev & Er & Hr & Hw & Hh & Hkn & Hst)).
    assert (Et : t_root v' = collapse t) by (by rewrite Ev).
    rewrite E in E1. injection E1 as <- <- <-. exists r. split; [done|].
    set (T1 := map snd (map_to_list (storage d'))).
    assert (HT1 : forall e, e ∈ T1 -> storage d' !! keccak e = Some e).
    { intros e He. apply elem_of_list_In, in_map_iff in He as ([h e'] & <- & He).
      apply elem_of_list_In, elem_of_map_to_list in He. cbn. by destruct (Hd' _ _ He) as [-> _]. }
    assert (Hd1 : keyed T1 (storage d')).
    { intros h e He. split; [by destruct (Hd' _ _ He)|]. apply elem_of_list_In, in_map_iff. exists (h, e).
      split; [done|]. by apply elem_of_list_In, elem_of_map_to_list. }
    assert (Hrt : forall e, e ∈ hashed_root keccak (t_root v') -> e = enc t).
    { rewrite Et. intros e He.
      assert (raw keccak (collapse t) = enc t) as Eraw.
      { eapply (raw_enc keccak true d'); [done|done|]. intros h. by eapply collapse_not_hash. }
      pose proof (fun h => collapse_not_hash keccak _ _ _ _ h Hw) as Hnh.
      pose proof (hashed_collapse _ _ _ _ _ Hw Hst) as Hb.
      assert (Hx : hashed_root keccak (collapse t) = hashed_below keccak (collapse t) ++
         (if length (raw keccak (collapse t)) <? 32 then [] else [raw keccak (collapse t)]) ++ [raw keccak (collapse t)]).
      { destruct (collapse t); try (cbn [hashed_root hashed hashed_below]; by rewrite <- app_assoc). by edestruct Hnh. }
      rewrite Hx, Hb, Eraw in He. clear -He. destruct (_ <? _); set_solver. }
    assert (Hin : forall e, e ∈ T1 ++ hashed_root keccak (t_root v') -> e ∈ T1).
    { intros e [?|He]%elem_of_app; [done|]. apply Hrt in He as ->. destruct Hkn as [Hkn|[? _]]; [|done].
      by destruct (Hd1 _ _ Hkn). }
    destruct (commit_exact keccak Hk c d' T1 v' t Hl' Hd1) as (d2 & E2 & Hl2 & Hsub2 & Hd2 & _ & _ & _).
    { left. by rewrite Et. }
    { done. }
    { rewrite Ev. intros h e He. cbn in He. by rewrite lookup_empty in He. }
    { eapply inj_on_sub; [exact Hin|]. intros x y Hx Hy Exy. apply HT1 in Hx, Hy. rewrite Exy in Hx. congruence. }
    rewrite E2. rewrite Ev, Er. do 2 f_equal. f_equal.
    assert (storage d2 = storage d') as Es.
    { apply (anti_symm (⊆)); [|done]. apply map_subseteq_spec. intros h e He.
      destruct (Hd2 _ _ He) as [<- Hin2]. by apply HT1, Hin. }
    destruct d2, d'. cbn in *. congruence.
  Qed.

  Lemma run_app x w ops1 ops2 : run x w (ops1 ++ ops2) =
    ((run x w ops1).1 ++ (run x (run x w ops1).2 ops2).1, (run x (run x w ops1).2 ops2).2).
  Proof.
    revert w. induction ops1 as [|o ops1 IH]; intros w.
    - cbn. by destruct (run x w ops2).
    - cbn [run app]. destruct (step keccak x w o) as [r w1]. rewrite IH.
      destruct (run x w1 ops1) as [rs w2]. done.
  Qed.

  Lemma reaches_inv c x ops w s : reaches keccak x ops w s -> (c = true -> tame spec0 ops) -> inv keccak c w s.
  Proof. intros (<- & <- & Hs & Hi) Ht. by apply history. Qed.

  Lemma no_removal_tame s ops : Forall no_removal ops -> tame s ops.
  Proof.
    revert s. induction ops as [|o ops IH]; intros s H; [done|]. inversion H as [|? ? Ho Hops]; subst.
    split; [|by apply IH]. destruct o as [i [k v|k|k|k| |k]|j]; done.
  Qed.

  Lemma world_spec c w s i v : inv keccak c w s -> w_views w !! i = Some v -> exists m, s_views s !! i = Some m.
  Proof. intros [_ _ Hv _] H. destruct (Forall2_lookup_l _ _ _ _ _ Hv H) as (m & E & _). eauto. Qed.

  Lemma empty_insert_step x w i k : (step keccak x w (OAct i (AInsert k []))).2 = w.
  Proof.
    cbn [step]. destruct (w_views w !! i) as [t|] eqn:E; [|done]. cbn [act insert snd].
    unfold set_view. rewrite list_insert_id by done. by destruct w.
  Qed.

  Lemma empty_insert_run x w i k t ops1 ops2 : w_views (run x w ops1).2 !! i = Some t ->
    let r1 := run x w (ops1 ++ ops2) in
    let r2 := run x w (ops1 ++ OAct i (AInsert k []) :: ops2) in
    r2.2 = r1.2 /\
    exists outs1 outs2, length outs1 = length ops1 /\ r1.1 = outs1 ++ outs2 /\ r2.1 = outs1 ++ RUnit (Err InvalidData) :: outs2.
  Proof.
    intros Ht r1 r2. subst r1 r2. rewrite !run_app. cbn [fst snd].
    set (w1 := (run x w ops1).2) in *.
    pose proof (empty_insert_step x w1 i k) as E.
    assert (Er : (step keccak x w1 (OAct i (AInsert k []))).1 = RUnit (Err InvalidData)).
    { cbn [step]. by rewrite Ht. }
    cbn [run]. destruct (step keccak x w1 (OAct i (AInsert k []))) as [r w2]. cbn in E, Er. subst.
    destruct (run x w1 ops2) as [rs w3] eqn:E3. split; [done|].
    exists (run x w ops1).1, rs. split; [|done].
    clear. revert w. induction ops1 as [|o ops1 IH]; intros w; [done|]. cbn [run].
    destruct (step keccak x w o) as [r w1]. specialize (IH w1). destruct (run x w1 ops1). cbn in *. by f_equal.
  Qed.

  Lemma contains_get fuel d t k :
    (forall b, contains fuel d t k = Ok b <-> exists o, get fuel d t k = Ok o /\ b = bool_decide (is_Some o)) /\
    ((exists e, contains fuel d t k = Err e) <-> exists e, get fuel d t k = Err e) /\
    (contains fuel d t k = Panic <-> get fuel d t k = Panic).
  Proof.
    unfold contains, get. destruct (get_at fuel d (t_root_hash t) (t_root t) (from_raw k true) 0) as [o|e| |]; cbn [rbind with_key].
    - split_and!; [|split; intros [? ?]; done|done]. intros b. split.
      + intros [= <-]. exists o. split; [done|]. by destruct o.
      + intros (o' & [= <-] & ->). by destruct o.
    - split_and!; [|destruct e; split; eauto|destruct e; done]. intros b. split; [done|].
      intros (o & E & _). by destruct e.
    - split_and!; [|split; intros [? ?]; done|done]. intros b. split; [done|]. by intros (? & ? & _).
    - split_and!; [|split; intros [? ?]; done|done]. intros b. split; [done|]. by intros (? & ? & _).
  Qed.

  Lemma commit_passing d t pk : light d = false -> commit keccak d (set_passing t pk) =
    (let '(d', t', r) := commit keccak d t in
     (d', match r with Ok _ => t' | _ => t' end, r)) \/
    exists t', (commit keccak d t).1.2 = t' /\ commit keccak d (set_passing t pk) =
       ((commit keccak d t).1.1, set_passing t' pk, (commit keccak d t).2).
  Proof.
    intros Hl. unfold commit, set_passing. cbn [t_root t_root_hash t_cache t_passing t_gen].
    assert (Hrb : forall ks d, light d = false -> db_remove_batch d ks = d).
    { unfold db_remove_batch. induction ks as [|k ks IH]; intros d0 H0; [done|]. cbn [fold_left].
      unfold db_remove at 2. rewrite H0. by apply IH. }
    assert (Hib : forall l d, light d = false -> light (db_insert_batch d l) = false).
    { unfold db_insert_batch. induction l as [|[k v] l IH]; intros d0 H0; [done|]. cbn [fold_left]. by apply IH. }
    destruct (write_node keccak (t_root t) (t_cache t, t_gen t)) as [[cache gen] [[h|data]|e| |]];
      try (right; eexists; split; [reflexivity|reflexivity]).
    - left. rewrite !Hrb by auto. by destruct (recover_from_db _ _) as [[n|]|e| |].
    - left. rewrite !Hrb by auto. by destruct (recover_from_db _ _) as [[n|]|e| |].
  Qed.

  (** Committed roots are never forgotten. *)
  Lemma step_roots c x w s o : inv keccak c w s -> step_ok c s o (step keccak x w o).1 ->
    exists pre pre', length pre = length pre' /\ w_roots (step keccak x w o).2 = pre ++ w_roots w /\
      s_roots (sstep s o) = pre' ++ s_roots s.
  Proof.
    intros [_ _ Hv _] Hok. destruct o as [i a|j].
    - cbn [step sstep step_ok] in *. destruct (w_views w !! i) as [t|] eqn:Et.
      + destruct (Forall2_lookup_l _ _ _ _ _ Hv Et) as (m & Em & _). rewrite Em in *.
        destruct a as [k v|k|k|k| |k]; cbn [act sact] in *.
        * exists [], []. destruct (insert _ _ _ _ _) as [t' r]. by destruct v.
        * exists [], []. by destruct (remove _ _ _ _) as [t' r].
        * by exists [], [].
        * by exists [], [].
        * destruct (commit keccak (w_db w) t) as [[d' t'] r]. cbn [fst] in Hok. destruct Hok as [h ->].
          exists [h], [m]. done.
        * exists [], []. by destruct (get_proof _ _ _ _ _) as [t' r].
      + exists [], []. destruct (s_views s !! i) as [m|] eqn:Em; [|done].
        destruct (Forall2_lookup_r _ _ _ _ _ Hv Em) as (t & ? & _). congruence.
    - exists [], []. cbn [step sstep]. split; [done|]. split.
      + by destruct (w_roots w !! j).
      + by destruct (s_roots s !! j).
  Qed.

  Lemma run_root c x w s ops j r m : inv keccak c w s -> Forall op_short ops -> (c = true -> tame s ops) ->
    inj_on keccak (w_trace (run x w ops).2) -> w_roots w !! j = Some r -> s_roots s !! j = Some m ->
    root_ok c (w_db (run x w ops).2) r m.
  Proof.
    revert w s j. induction ops as [|o ops IH]; intros w s j Hinv Hso Ht Hi Hj Hm.
    - cbn [run snd]. by eapply inv_root.
    - inversion Hso as [|? ? Ho Hso']; subst. cbn [run] in *.
      pose proof (step_inv keccak Hk c x w s o Hinv Ho (fun E => proj1 (Ht E))) as Hst.
      pose proof (step_roots c x w s o Hinv) as Hroots.
      destruct (step keccak x w o) as [out w1]. pose proof (run_trace keccak x w1 ops) as [z Hz].
      specialize (IH w1 (sstep s o)).
      destruct (run x w1 ops) as [rs w2] eqn:E2. cbn [fst snd] in *.
      destruct Hst as [Hinv1 Hok].
      { eapply inj_on_sub; [|exact Hi]. intros e He. rewrite Hz. apply elem_of_app. by left. }
      destruct (Hroots Hok) as (pre & pre' & Hlen & E3 & E4).
      apply (IH (length pre + j)); auto.
      + intros E. by destruct (Ht E).
      + rewrite E3, lookup_app_r by lia. by replace (length pre + j - length pre) with j by lia.
      + rewrite E4, Hlen, lookup_app_r by lia. by replace (length pre' + j - length pre') with j by lia.
  Qed.
End hash.
