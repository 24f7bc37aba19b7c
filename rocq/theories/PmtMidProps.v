(** Commits between other calls (C71). *)
From Verif Require Import Base PmtNibblesModel RlpModel PmtModel PmtRunSpec PmtCodecSpec PmtYellowSpec KeccakModel
  PmtNibblesProof RlpProof PmtSpec PmtEncProof PmtLookupProof PmtOpsProof PmtDeleteProof PmtCommitProof PmtRunProof
  PmtStepProof PmtProofProof PmtIterProof PmtCodecProof PmtYellowProof PmtPropProof PmtExamples PmtProps.

(** * C71: a commit in between does not change later roots.  In tame histories. *)
Definition no_open (o : op) : Prop := match o with OOpen _ => False | _ => True end.
Lemma srun_views ops s s' : Forall no_open ops -> s_views s = s_views s' ->
  s_views (srun s ops) = s_views (srun s' ops) /\ (tame s ops -> tame s' ops).
Proof.
  revert s s'. induction ops as [|o ops IH]; intros s s' Hf E; [done|].
  apply Forall_cons in Hf as [Ho Hf]. destruct o as [i a|j]; [|done].
  assert (s_views (sstep s (OAct i a)) = s_views (sstep s' (OAct i a))) as E'.
  { cbn [sstep]. rewrite E. destruct (s_views s' !! i) as [m|]; [|done].
    destruct a as [k [|b v]|k|k|k| |k]; cbn [sact s_views]; by rewrite ?E. }
  destruct (IH _ _ Hf E') as [E2 Ht]. split; [exact E2|]. intros [H1 H2]. split; [|by apply Ht].
  destruct a as [k v|k|k|k| |k]; try done. cbn [tame_step] in *. by rewrite <- E.
Qed.
Lemma tame_app s ops1 ops2 : tame s (ops1 ++ ops2) <-> tame s ops1 /\ tame (srun s ops1) ops2.
Proof.
  revert s. induction ops1 as [|o ops1 IH]; intros s; [cbn; tauto|]. cbn [app tame srun fold_left]. rewrite IH.
  unfold srun. tauto.
Qed.
Theorem C71_commit_invisible_partial keccak x ops1 ops2 j w1 w2 s1 s2 i v1 v2 : hash32 keccak ->
  reaches keccak x (ops1 ++ ops2) w1 s1 -> reaches keccak x (ops1 ++ OAct j ACommit :: ops2) w2 s2 ->
  tame spec0 (ops1 ++ ops2) -> Forall no_open ops2 ->
  w_views w1 !! i = Some v1 -> w_views w2 !! i = Some v2 ->
  commit_collision_free keccak w1 v1 -> commit_collision_free keccak w2 v2 ->
  exists r, (commit keccak (w_db w1) v1).2 = Ok r /\ (commit keccak (w_db w2) v2).2 = Ok r.
Proof.
  intros Hk H1 H2 Ht Hno Hv1 Hv2 Hc1 Hc2.
  assert (E : s_views (srun spec0 ops1) = s_views (sstep (srun spec0 ops1) (OAct j ACommit))).
  { cbn [sstep]. by destruct (s_views (srun spec0 ops1) !! j). }
  pose proof (srun_views ops2 _ _ Hno E) as [Ev Htt]. apply tame_app in Ht as [Ht1 Ht2].
  assert (tame spec0 (ops1 ++ OAct j ACommit :: ops2)) as Ht' by (apply tame_app; split; [done|]; split; [done|]; by apply Htt).
  assert (s_views s1 = s_views s2) as Es.
  { destruct H1 as (_ & <- & _), H2 as (_ & <- & _). unfold srun in *. by rewrite !fold_left_app. }
  pose proof (reaches_inv keccak Hk true _ _ _ _ H1 ltac:(intros _; apply tame_app; done)) as I1.
  destruct (Forall2_lookup_l _ _ _ _ _ (inv_views _ _ _ _ I1) Hv1) as (m & Hm & _).
  eapply (C10_root_of_contents_partial keccak x x); eauto; [by apply tame_app|by rewrite <- Es].
Qed.
Definition mid_ops1 : list op := [OAct 0 (AInsert k1 (v40 5)); OAct 0 (AInsert k2 (v40 6)); OAct 0 (AInsert k3 (hexs [9]%N))].
Definition mid_ops2 : list op := [OAct 0 (ARemove k2)].
Definition mid_world (ops : list op) : world := (run keccak256 0 (world0 keccak256) ops).2.
Definition mid_view (ops : list op) : trie := default (new_trie keccak256) (w_views (mid_world ops) !! 0).
Lemma mid_reaches ops : forallb op_shortb ops = true -> inj_onb keccak256 (w_trace (mid_world ops)) = true ->
  reaches keccak256 0 ops (mid_world ops) (srun spec0 ops).
Proof. intros H1 H2. split; [done|]. split; [done|]. split; [by apply op_shortb_spec|by apply inj_onb_spec]. Qed.
Lemma mid_at ops : negb (Nat.eqb (length (w_views (mid_world ops))) 0) = true ->
  w_views (mid_world ops) !! 0 = Some (mid_view ops).
Proof. unfold mid_view. by destruct (w_views (mid_world ops)). Qed.
Definition is_ok (ops : list op) : bool :=
  match (commit keccak256 (w_db (mid_world ops)) (mid_view ops)).2 with Ok _ => true | _ => false end.
Definition root_of (ops : list op) : list byte :=
  match (commit keccak256 (w_db (mid_world ops)) (mid_view ops)).2 with Ok r => r | _ => [] end.
Lemma root_of_ok ops : is_ok ops = true -> (commit keccak256 (w_db (mid_world ops)) (mid_view ops)).2 = Ok (root_of ops).
Proof. unfold is_ok, root_of. by destruct ((commit keccak256 (w_db (mid_world ops)) (mid_view ops)).2). Qed.
Example C71_example :
  let plain := mid_ops1 ++ mid_ops2 in let mid := mid_ops1 ++ OAct 0 ACommit :: mid_ops2 in
  reaches keccak256 0 plain (mid_world plain) (srun spec0 plain) /\
  reaches keccak256 0 mid (mid_world mid) (srun spec0 mid) /\ tame spec0 plain /\ Forall no_open mid_ops2 /\
  w_views (mid_world plain) !! 0 = Some (mid_view plain) /\ w_views (mid_world mid) !! 0 = Some (mid_view mid) /\
  commit_collision_free keccak256 (mid_world plain) (mid_view plain) /\
  commit_collision_free keccak256 (mid_world mid) (mid_view mid) /\ mid_view plain <> mid_view mid.
Proof.
  intros plain mid. split; [apply mid_reaches; vm_compute; reflexivity|]. split; [apply mid_reaches; vm_compute; reflexivity|].
  split; [apply tameb_spec; vm_compute; reflexivity|]. split; [repeat constructor|].
  split; [apply mid_at; vm_compute; reflexivity|]. split; [apply mid_at; vm_compute; reflexivity|].
  split; [apply inj_onb_spec; vm_compute; reflexivity|]. split; [apply inj_onb_spec; vm_compute; reflexivity|].
  intros E. apply (f_equal t_root_hash) in E. vm_compute in E. discriminate E.
Qed.
Print Assumptions C71_commit_invisible_partial.

(** In general it does: the same writes lead to different roots. *)
Definition wild_ops1 : list op := [OAct 0 (AInsert k4 (v40 1)); OAct 0 (AInsert (k4 ++ hexs [0x31]%N) (v40 2))].
Definition wild_ops2 : list op := [OAct 0 (ARemove k4)].
Definition wild_map : gmap (list byte) (list byte) := {[k4 ++ hexs [0x31]%N := v40 2]}.
Theorem C71_commit_invisible_refuted : exists ops1 ops2 m,
  let plain := ops1 ++ ops2 in let mid := ops1 ++ OAct 0 ACommit :: ops2 in
  reaches keccak256 0 plain (mid_world plain) (srun spec0 plain) /\
  reaches keccak256 0 mid (mid_world mid) (srun spec0 mid) /\ Forall no_open ops2 /\
  s_views (srun spec0 plain) = [m] /\ s_views (srun spec0 mid) = [m] /\
  exists v1 v2 r1 r2, w_views (mid_world plain) !! 0 = Some v1 /\ w_views (mid_world mid) !! 0 = Some v2 /\
  commit_collision_free keccak256 (mid_world plain) v1 /\ commit_collision_free keccak256 (mid_world mid) v2 /\
  (commit keccak256 (w_db (mid_world plain)) v1).2 = Ok r1 /\ (commit keccak256 (w_db (mid_world mid)) v2).2 = Ok r2 /\
  r1 <> r2.
Proof.
  exists wild_ops1, wild_ops2, wild_map. intros plain mid.
  split; [apply mid_reaches; vm_compute; reflexivity|]. split; [apply mid_reaches; vm_compute; reflexivity|].
  split; [repeat constructor|].
  split; [apply (bool_decide_unpack _); vm_compute; exact I|]. split; [apply (bool_decide_unpack _); vm_compute; exact I|].
  exists (mid_view plain), (mid_view mid), (root_of plain), (root_of mid).
  split; [apply mid_at; vm_compute; reflexivity|]. split; [apply mid_at; vm_compute; reflexivity|].
  split; [apply inj_onb_spec; vm_compute; reflexivity|]. split; [apply inj_onb_spec; vm_compute; reflexivity|].
  split; [apply root_of_ok; vm_compute; reflexivity|]. split; [apply root_of_ok; vm_compute; reflexivity|].
  intros E. vm_compute in E. discriminate E.
Qed.
Print Assumptions C71_commit_invisible_refuted.

(** * C57: one of the two roots is not the Yellow Paper root of the contents. *)
Theorem C57_yellow_paper_root_refuted : exists ops v m l fuel r,
  reaches keccak256 0 ops (mid_world ops) (srun spec0 ops) /\ w_views (mid_world ops) !! 0 = Some v /\
  s_views (srun spec0 ops) = [m] /\ commit_collision_free keccak256 (mid_world ops) v /\ enumerates l m /\
  0 < fuel /\ Forall (fun kv => 2 * length kv.1 < fuel) l /\
  (commit keccak256 (w_db (mid_world ops)) v).2 = Ok r /\ r <> yellow_root keccak256 fuel l.
Proof.
  exists (wild_ops1 ++ wild_ops2), (mid_view (wild_ops1 ++ wild_ops2)), wild_map, [(k4 ++ hexs [0x31]%N, v40 2)], 40,
    (root_of (wild_ops1 ++ wild_ops2)).
  split; [apply mid_reaches; vm_compute; reflexivity|]. split; [apply mid_at; vm_compute; reflexivity|].
  split; [apply (bool_decide_unpack _); vm_compute; exact I|]. split; [apply inj_onb_spec; vm_compute; reflexivity|].
  split; [|split; [lia|split; [|split; [apply root_of_ok; vm_compute; reflexivity|intros E; vm_compute in E; discriminate E]]]].
  - split; [repeat constructor; intros []%elem_of_nil|]. intros k y. unfold wild_map. rewrite elem_of_list_singleton, lookup_singleton_Some.
    split; [intros [= -> ->]; done|intros [<- <-]; done].
  - repeat constructor.
Qed.
Print Assumptions C57_yellow_paper_root_refuted.
