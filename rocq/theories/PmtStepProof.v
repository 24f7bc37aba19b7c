(** Histories preserve the refinement. *)
From Verif Require Import Base PmtNibblesModel RlpModel PmtModel PmtRunSpec PmtNibblesProof RlpProof PmtSpec
  PmtEncProof PmtLookupProof PmtOpsProof PmtDeleteProof PmtCommitProof PmtRunProof.
Open Scope res_scope.

Lemma inj_on_sub {A B} (f : A -> B) (l l' : list A) : (forall x, x ∈ l -> x ∈ l') -> inj_on f l' -> inj_on f l.
Proof. intros H Hi x y Hx Hy. apply Hi; auto. Qed.

Section hash.
  Context (keccak : bytes -> bytes) (Hk : forall x, length (keccak x) = 32).
  Notation enc := (enc keccak).
  Notation view_ok := (view_ok keccak).
  Notation root_ok := (root_ok keccak).
  Notation keyed := (keyed keccak).
  Notation inv := (inv keccak).

  Lemma view_ok_mono c d d' T T' v m : storage d ⊆ storage d' -> (forall e, e ∈ T -> e ∈ T') ->
    view_ok c d T v m -> view_ok c d' T' v m.
  Proof.
    intros Hd HT (t & Hr & Hw & Hh & Hc). exists t. split_and!; [|done|done|by eapply keyed_mono].
    by eapply rrepr_mono.
  Qed.
  Lemma root_ok_mono c d d' r m : storage d ⊆ storage d' -> root_ok c d r m -> root_ok c d' r m.
  Proof.
    intros Hd (t & Hr & Hw & Hh & Hkn & Hst). exists t.
    do 3 (split; [done|]). split; [by eapply known_mono|by eapply stored_mono].
  Qed.

  Lemma step_trace x w o : w_trace w `prefix_of` w_trace (step keccak x w o).2.
  Proof.
    destruct o as [i a|j]; cbn [step].
    - destruct (w_views w !! i); [|done]. destruct a; cbn [act].
      + by destruct (insert _ _ _ _ _).
      + by destruct (remove _ _ _ _).
      + done.
      + done.
      + destruct (commit _ _ _) as [[d' t'] r]. cbn. by eexists.
      + destruct (get_proof _ _ _ _ _). cbn. by eexists.
    - by destruct (w_roots w !! j).
  Qed.
  Lemma run_trace x w ops : w_trace w `prefix_of` w_trace (run keccak x w ops).2.
  Proof.
    revert w. induction ops as [|o ops IH]; intros w; [done|]. cbn [run].
    pose proof (step_trace x w o). destruct (step _ _ _ _) as [r w1]. cbn in H.
    specialize (IH w1). destruct (run _ _ w1 ops). cbn in *. by etrans.
  Qed.

  Lemma step_inv c x w s o : inv c w s -> op_short o -> (c = true -> tame_step s o) ->
    inj_on keccak (w_trace (step keccak x w o).2) ->
    inv c (step keccak x w o).2 (sstep s o) /\ step_ok c s o (step keccak x w o).1.
  Proof.
    intros [Hl Hd Hv Hr] Hs Ht Hi. destruct o as [i a|j]; cbn [step sstep step_ok] in *.
    - destruct (w_views w !! i) as [v|] eqn:Ev.
      2:{ assert (s_views s !! i = None) as ->; [|done].
          apply lookup_ge_None in Ev. apply lookup_ge_None. by rewrite <- (Forall2_length _ _ _ Hv). }
      destruct (Forall2_lookup_l _ _ _ _ _ Hv Ev) as (m & Em & Hvm). rewrite Em.
      destruct a as [k val|k|k|k| |k]; cbn [act] in *; cbn [sact act_ok op_short action_short tame_step] in *.
      + destruct Hs as [Hs1 Hs2]. destruct val as [|b val].
        * cbn [insert]. cbn. split; [|done]. split; cbn; try done. rewrite list_insert_id by done. done.
        * destruct (insert_ok keccak Hk c (w_db w) (w_trace w) v m k (b :: val) x Hvm Hs1 Hs2) as (v' & E & Hv');
            [done|]. rewrite E. cbn. split; [|done]. split; cbn; try done. by apply Forall2_insert.
      + destruct (remove_ok keccak Hk c (w_db w) (w_trace w) v m k x Hvm Hs) as (v' & b & E & Hv' & Hb1 & Hb2).
        { intros Hc. by apply Ht. }
        rewrite E. cbn. split; [|by exists b]. split; cbn; try done. by apply Forall2_insert.
      + destruct (get_ok keccak Hk c (w_db w) (w_trace w) v m k x Hvm Hs) as [E _]. cbn [fst snd]. by rewrite E.
      + destruct (get_ok keccak Hk c (w_db w) (w_trace w) v m k x Hvm Hs) as [_ E]. cbn [fst snd]. by rewrite E.
      + destruct (commit_ok keccak Hk c (w_db w) (w_trace w) v m Hl Hd Hvm)
          as (d' & v' & r & E & Hl' & Hsub & Hd' & Hv' & Hr' & _).
        { destruct (commit _ _ _) as [[??]?]. exact Hi. }
        rewrite E in *. cbn in *. split; [|by exists r].
        assert (HT : forall e, e ∈ w_trace w -> e ∈ w_trace w ++ hashed_root keccak (t_root v)).
        { intros e He. apply elem_of_app. by left. }
        split; cbn; try done.
        * rewrite <- (list_insert_id (s_views s) i m Em). apply Forall2_insert; [|done].
          eapply Forall2_impl; [exact Hv|]. intros ??. by apply view_ok_mono.
        * constructor; [done|]. eapply Forall2_impl; [exact Hr|]. intros ??. by apply root_ok_mono.
      + destruct (proof_ok keccak Hk c (w_db w) (w_trace w) v m k x Hvm Hs) as (v' & r & E & Hv' & _).
        rewrite E in *. cbn in *. split; [|done].
        split; cbn; try done.
        * eapply keyed_mono; [exact Hd|]. intros e He. apply elem_of_app. by left.
        * rewrite <- (list_insert_id (s_views s) i m Em). apply Forall2_insert; [|done].
          eapply Forall2_impl; [exact Hv|]. intros ??. apply view_ok_mono; [done|].
          intros e He. apply elem_of_app. by left.
    - destruct (w_roots w !! j) as [r|] eqn:Er.
      + destruct (Forall2_lookup_l _ _ _ _ _ Hr Er) as (m & Em & t & -> & Hw & Hh & Hkn & Hst). rewrite Em.
        split; [|done]. split; cbn; try done. apply Forall2_app; [done|]. constructor; [|constructor].
        exists t. cbn. split_and!; [|done|done|done]. right. eauto.
      + assert (s_roots s !! j = None) as ->; [|done].
        apply lookup_ge_None in Er. apply lookup_ge_None. by rewrite <- (Forall2_length _ _ _ Hr).
  Qed.

  Lemma run_inv c x w s ops : inv c w s -> Forall op_short ops -> (c = true -> tame s ops) ->
    inj_on keccak (w_trace (run keccak x w ops).2) ->
    inv c (run keccak x w ops).2 (srun s ops) /\ outs_ok c s ops (run keccak x w ops).1.
  Proof.
    revert w s. induction ops as [|o ops IH]; intros w s Hinv Hs Ht Hi; [done|].
    inversion Hs; subst. cbn [run srun fold_left outs_ok] in *.
    pose proof (step_inv c x w s o Hinv) as Hst. destruct (step keccak x w o) as [r w1] eqn:E1.
    pose proof (run_trace x w1 ops) as Hpre.
    destruct (Hst ltac:(done)) as [Hinv1 Hok].
    - intros Hc. by apply Ht.
    - destruct (run keccak x w1 ops) as [rs w2] eqn:E2. cbn in Hi, Hpre |- *.
      eapply inj_on_sub; [|exact Hi]. intros e He. destruct Hpre as [z ->]. apply elem_of_app. by left.
    - cbn in Hinv1. specialize (IH w1 (sstep s o) Hinv1).
      destruct (run keccak x w1 ops) as [rs w2] eqn:E2.
      destruct IH as [IH1 IH2]; [done| |done|].
      + intros Hc. by apply Ht.
      + done.
  Qed.

  Lemma inv0 c : inv c (world0 keccak) spec0.
  Proof.
    assert (Hke : keyed [] ∅) by (intros k e He; by rewrite lookup_empty in He).
    split; [done|done| |constructor].
    constructor; [|constructor]. exists NEmpty.
    split; [left; constructor|]. split; [constructor|]. split; [apply holds_empty|done].
  Qed.
End hash.
