(** Cloned tries (C101). *)
From Verif Require Import Base KeccakModel PmtNibblesModel RlpModel PmtModel PmtRunSpec PmtNibblesProof RlpProof PmtSpec
  PmtEncProof PmtLookupProof PmtOpsProof PmtDeleteProof PmtCommitProof PmtRunProof PmtStepProof PmtExamples PmtCloneModel.

Section hash.
  Context (keccak : bytes -> bytes) (Hk : forall x, length (keccak x) = 32).
  Notation inv := (inv keccak).

  Lemma cstep_trace x w o : w_trace w `prefix_of` w_trace (cstep keccak x w o).2.
  Proof using.
    destruct o as [o|i]; cbn [cstep]; [apply step_trace|]. by destruct (w_views w !! i).
  Qed.
  Lemma crun_trace x w ops : w_trace w `prefix_of` w_trace (crun keccak x w ops).2.
  Proof using.
    revert w. induction ops as [|o ops IH]; intros w; [done|]. cbn [crun].
    pose proof (cstep_trace x w o) as H. destruct (cstep _ _ _ _) as [r w1]. cbn [snd] in H.
    specialize (IH w1). destruct (crun _ _ w1 ops). cbn [snd] in *. by etrans.
  Qed.
  Lemma cstep_inv x w s o : inv false w s -> cop_short o -> inj_on keccak (w_trace (cstep keccak x w o).2) ->
    inv false (cstep keccak x w o).2 (scstep s o) /\ cstep_ok s o (cstep keccak x w o).1.
  Proof using Hk.
    intros Hinv Hs Hi. destruct o as [o|i]; cbn [cstep scstep cstep_ok cop_short] in *.
    - by apply step_inv.
    - destruct Hinv as [Hl Hd Hv Hr]. destruct (w_views w !! i) as [t|] eqn:Ev.
      + destruct (Forall2_lookup_l _ _ _ _ _ Hv Ev) as (m & Em & Hvm). rewrite Em. cbn [fst snd]. split; [|done].
        split; cbn; try done. apply Forall2_app; [done|]. by constructor.
      + assert (s_views s !! i = None) as ->; [|done].
        apply lookup_ge_None in Ev. apply lookup_ge_None. by rewrite <- (Forall2_length _ _ _ Hv).
  Qed.
  Lemma crun_inv x ops : forall w s, inv false w s -> Forall cop_short ops ->
    inj_on keccak (w_trace (crun keccak x w ops).2) -> couts_ok s ops (crun keccak x w ops).1.
  Proof using Hk.
    induction ops as [|o ops IH]; intros w s Hinv Hs Hi; [done|]. inversion Hs; subst. cbn [crun couts_ok] in *.
    pose proof (cstep_inv x w s o Hinv) as Hst. destruct (cstep keccak x w o) as [r w1].
    pose proof (crun_trace x w1 ops) as Hpre. specialize (IH w1 (scstep s o)).
    destruct (crun keccak x w1 ops) as [rs w2]. cbn [fst snd] in *.
    destruct Hst as [Hinv1 Hok]; [done| |by split; [|apply IH]].
    eapply inj_on_sub; [|exact Hi]. intros e He. destruct Hpre as [z ->]. apply elem_of_app. by left.
  Qed.
End hash.

(** Over an archive database, clones behave as maps of their own, whatever any of
    them inserts, removes and commits, in any order. *)
Theorem C101_clones keccak x ops : hash32 keccak -> Forall cop_short ops ->
  inj_on keccak (w_trace (crun keccak x (world0 keccak) ops).2) ->
  couts_ok spec0 ops (crun keccak x (world0 keccak) ops).1.
Proof. intros Hk Hs Hi. apply (crun_inv keccak Hk); [apply (inv0 keccak)|done|done]. Qed.
(** A clone and its original, neither changed since, commit to the same root,
    whatever happened to the database in between. *)
Theorem C101_same_root keccak d d' t d1 t1 r d2 t2 r' :
  commit keccak d t = (d1, t1, Ok r) -> commit keccak d' t = (d2, t2, Ok r') -> r' = r.
Proof.
  unfold commit. destruct (write_node keccak _ _) as [[cache gen] e]. destruct e as [e|e| |]; try discriminate.
  destruct (match e with EHash _ => _ | EInline _ => _ end) as [rh c].
  destruct (recover_from_db _ rh) as [[n|]| | |]; try discriminate. intros [= <- <- <-].
  destruct (recover_from_db _ rh) as [[n'|]| | |]; try discriminate. by intros [= <- <- <-].
Qed.

(** Over a pruning database they do not: after a commit of the original the
    clone, though committed and not changed, cannot read a key. *)
Definition clone_ops : list cop :=
  [CCall (OAct 0 (AInsert k1 (v40 5))); CCall (OAct 0 (AInsert k2 (v40 6))); CCall (OAct 0 ACommit); CClone 0;
   CCall (OAct 1 (AGet k1)); CCall (OAct 0 (AInsert k1 (v40 7))); CCall (OAct 0 ACommit); CCall (OAct 1 (AGet k1)); CCall (OAct 0 (AGet k1))].
Definition pruned_world : world := World (db_new true) [new_trie keccak256] [] [].
Theorem C101_pruning_refuted : exists ops h tr rh,
  Forall cop_short ops /\ inj_on keccak256 (w_trace (crun keccak256 0 pruned_world ops).2) /\
  (crun keccak256 0 pruned_world ops).1 !! 4 = Some (RVal (Ok (Some (v40 5)))) /\
  (crun keccak256 0 pruned_world ops).1 !! 7 = Some (RVal (Err (MissingTrieNode h tr rh (Some k1)))) /\
  ~ couts_ok spec0 ops (crun keccak256 0 pruned_world ops).1.
Proof.
  exists clone_ops. do 3 eexists. split.
  { repeat (apply Forall_cons; split); try exact I; try apply Forall_nil; try exact I; vm_compute; repeat split; reflexivity. }
  split; [apply inj_onb_spec; vm_compute; reflexivity|]. split; [vm_compute; reflexivity|].
  split; [vm_compute; reflexivity|].
  let o := eval vm_compute in (crun keccak256 0 pruned_world clone_ops).1 in
  assert ((crun keccak256 0 pruned_world clone_ops).1 = o) as -> by (vm_compute; reflexivity).
  intros (_ & _ & _ & _ & _ & _ & _ & H & _). vm_compute in H. discriminate.
Qed.
(** A clone with pending changes; both change and commit; each reads its own. *)
Definition clone_ex_ops : list cop :=
  [CCall (OAct 0 (AInsert k1 (v40 5))); CCall (OAct 0 ACommit); CCall (OAct 0 (AInsert k2 (v40 6))); CClone 0;
   CCall (OAct 1 (ARemove k1)); CCall (OAct 0 (AInsert k3 (v40 7))); CCall (OAct 1 ACommit); CCall (OAct 0 ACommit);
   CCall (OAct 0 (AGet k1)); CCall (OAct 1 (AGet k1)); CCall (OAct 1 (AGet k2)); CCall (OAct 1 (AContains k3))].
Example C101_example : Forall cop_short clone_ex_ops /\
  inj_on keccak256 (w_trace (crun keccak256 0 (world0 keccak256) clone_ex_ops).2) /\
  drop 8 (crun keccak256 0 (world0 keccak256) clone_ex_ops).1 =
    [RVal (Ok (Some (v40 5))); RVal (Ok None); RVal (Ok (Some (v40 6))); RBool (Ok false)].
Proof.
  split.
  { repeat (apply Forall_cons; split); try exact I; try apply Forall_nil; try exact I; vm_compute; repeat split; reflexivity. }
  split; [apply inj_onb_spec; vm_compute; reflexivity|]. vm_compute. reflexivity.
Qed.
Print Assumptions C101_clones.
Print Assumptions C101_same_root.
Print Assumptions C101_pruning_refuted.
