(** The properties of the Patricia trie (C01-C21, C55-C58).  Histories, their
    specification and the side conditions are defined in PmtRunSpec.v. *)
From Verif Require Import Base PmtNibblesModel RlpModel PmtModel PmtRunSpec PmtCodecSpec PmtYellowSpec KeccakModel
  PmtNibblesProof RlpProof PmtSpec PmtEncProof PmtLookupProof PmtOpsProof PmtDeleteProof PmtCommitProof PmtRunProof
  PmtStepProof PmtProofProof PmtIterProof PmtCodecProof PmtYellowProof PmtPropProof PmtExamples.

(** * C01: reads return the last write, in every history with any number of views. *)
Theorem C01_map_semantics keccak x ops w s : hash32 keccak -> reaches keccak x ops w s ->
  outs_ok false spec0 ops (run keccak x (world0 keccak) ops).1.
Proof. intros Hk (<- & <- & Hs & Hi). by apply (history keccak Hk false). Qed.
Example C01_example : reaches keccak256 0 ex_ops ex_world ex_spec /\
  (run keccak256 0 (world0 keccak256) ex_ops).1 !! 3 = Some (RVal (Ok (Some (v40 6)))) /\
  (run keccak256 0 (world0 keccak256) ex_ops).1 !! 8 = Some (RBool (Ok false)) /\
  (run keccak256 0 (world0 keccak256) ex_ops).1 !! 12 = Some (RVal (Ok (Some (v40 7)))).
Proof. split; [exact ex_reaches|]. vm_compute. auto. Qed.
Print Assumptions C01_map_semantics.

(** * C02: dropping an insert of an empty value from any history changes nothing else. *)
Theorem C02_empty_value_rejected keccak x w ops1 ops2 i t k : w_views (run keccak x w ops1).2 !! i = Some t ->
  let without := run keccak x w (ops1 ++ ops2) in
  let with_it := run keccak x w (ops1 ++ OAct i (AInsert k []) :: ops2) in
  with_it.2 = without.2 /\
  exists outs1 outs2, length outs1 = length ops1 /\ without.1 = outs1 ++ outs2 /\
    with_it.1 = outs1 ++ RUnit (Err InvalidData) :: outs2.
Proof. apply empty_insert_run. Qed.
Example C02_example : exists t, w_views (run keccak256 0 (world0 keccak256) (take 4 ex_ops)).2 !! 0 = Some t.
Proof. eexists. vm_compute. reflexivity. Qed.
Print Assumptions C02_empty_value_rejected.

(** * C03: [remove] reports presence.  In full the flag is [true] if and only
    if the key was present.  That is false (refuted below); in tame histories
    the flag is [true] exactly for the present keys and the absent keys at
    which present ones fork. *)
Theorem C03_remove_flag_partial keccak x ops w s : hash32 keccak -> reaches keccak x ops w s -> tame spec0 ops ->
  outs_ok true spec0 ops (run keccak x (world0 keccak) ops).1.
Proof. intros Hk (<- & <- & Hs & Hi) Ht. by apply (history keccak Hk true). Qed.
(** Keys 0x01, 0x0110 and 0x0120: the first is removed twice.  Then a key
    between them. *)
Definition prefix_ops : list op :=
  [OAct 0 (AInsert (hexs [1; 0x10]%N) (hexs [1]%N)); OAct 0 (AInsert (hexs [1; 0x20]%N) (hexs [2]%N));
   OAct 0 (AInsert (hexs [1]%N) (hexs [3]%N)); OAct 0 (ARemove (hexs [1]%N)); OAct 0 (AGet (hexs [1]%N));
   OAct 0 (ARemove (hexs []%N))].
Lemma prefix_reaches keccak :
  reaches keccak 0 prefix_ops (run keccak 0 (world0 keccak) prefix_ops).2 (srun spec0 prefix_ops).
Proof.
  split; [reflexivity|]. split; [reflexivity|]. split; [apply op_shortb_spec; vm_compute; reflexivity|].
  assert (w_trace (run keccak 0 (world0 keccak) prefix_ops).2 = []) as -> by (vm_compute; reflexivity).
  intros a b Ha. by apply elem_of_nil in Ha.
Qed.
Example C03_example : reaches keccak256 0 ex_ops ex_world ex_spec /\ tame spec0 ex_ops /\
  (run keccak256 0 (world0 keccak256) ex_ops).1 !! 6 = Some (RBool (Ok true)).
Proof. split; [exact ex_reaches|]. split; [exact ex_tame|]. vm_compute. reflexivity. Qed.
Example C03_example_prefix keccak : tame spec0 prefix_ops /\
  (run keccak 0 (world0 keccak) prefix_ops).1 =
    [RUnit (Ok tt); RUnit (Ok tt); RUnit (Ok tt); RBool (Ok true); RVal (Ok None); RBool (Ok false)].
Proof. split; [apply tameb_spec; vm_compute; reflexivity|]. vm_compute. reflexivity. Qed.
Print Assumptions C03_remove_flag_partial.

(** An absent key is reported as removed. *)
Theorem C03_remove_flag_refuted : exists ops k, forall keccak, exists w s m, reaches keccak 0 ops w s /\
  s_views s !! 0 = Some m /\ m !! k = None /\
  exists rs, (run keccak 0 (world0 keccak) (ops ++ [OAct 0 (ARemove k)])).1 = rs ++ [RBool (Ok true)].
Proof.
  exists prefix_ops, (hexs [1]%N). intros keccak.
  exists (run keccak 0 (world0 keccak) prefix_ops).2, (srun spec0 prefix_ops),
    {[hexs [1; 0x10]%N := hexs [1]%N; hexs [1; 0x20]%N := hexs [2]%N]}. split; [apply prefix_reaches|].
  split; [apply (bool_decide_unpack _); vm_compute; exact I|]. split; [apply (bool_decide_unpack _); vm_compute; exact I|].
  exists [RUnit (Ok tt); RUnit (Ok tt); RUnit (Ok tt); RBool (Ok true); RVal (Ok None); RBool (Ok false)]. vm_compute. reflexivity.
Qed.
Print Assumptions C03_remove_flag_refuted.

(** * C04: [contains] agrees with [get], in every state and with every database. *)
Theorem C04_contains_get fuel d t k :
  (forall b, contains fuel d t k = Ok b <-> exists o, get fuel d t k = Ok o /\ b = bool_decide (is_Some o)) /\
  ((exists e, contains fuel d t k = Err e) <-> exists e, get fuel d t k = Err e) /\
  (contains fuel d t k = Panic <-> get fuel d t k = Panic).
Proof. apply contains_get. Qed.
Example C04_example : contains 100 (w_db ex_world) ex_view k1 = Ok true /\
  get 100 (w_db ex_world) ex_view k1 = Ok (Some (v40 7)) /\
  (exists e, contains 100 (db_new false) (at_root (keccak256 [])) k1 = Err e).
Proof. split; [|split]; [vm_compute; reflexivity..|]. eexists. vm_compute. reflexivity. Qed.
Print Assumptions C04_contains_get.

(** * C05: keys and nibbles. *)
Theorem C05_nibble_expansion raw leaf : (leaf = true \/ raw <> []) ->
  encode_raw_nibbles (from_raw raw leaf) = Ok (raw, leaf) /\
  forall raw', from_raw raw true `prefix_of` from_raw raw' true -> raw = raw'.
Proof.
  intros H. split; [apply from_raw_encode_raw; tauto|]. intros raw' [z E]. symmetry in E. by eapply from_raw_prefix_free.
Qed.
Example C05_example : from_raw k2 true = [0; 1; 0; 2; 12; 8; 16] /\
  encode_raw_nibbles [0; 1; 0; 2; 12; 8; 16] = Ok (k2, true).
Proof. split; vm_compute; reflexivity. Qed.
Print Assumptions C05_nibble_expansion.

(** * C06: the hex-prefix encoding is lossless (and is the Yellow Paper's). *)
Theorem C06_compact_roundtrip b (leaf : bool) : Forall (fun x => x < 16) b -> (leaf = true \/ b <> []) ->
  let path := b ++ (if leaf then [16] else []) in
  encode_compact path = Ok (hex_prefix b leaf) /\ from_compact (hex_prefix b leaf) = Ok path.
Proof.
  intros Hb Hl. destruct leaf; cbn zeta.
  - rewrite <- (hp_leaf b Hb). by destruct (hp_ok _ (valid_leaf _ Hb)) as (? & ? & _).
  - destruct Hl as [?|Hne]; [done|]. rewrite app_nil_r, <- (hp_ext b Hb Hne).
    by destruct (hp_ok _ (valid_ext _ Hb Hne)) as (? & ? & _).
Qed.
Example C06_example : encode_compact [1; 12; 8; 16] = Ok (hexs [0x31; 0xc8]%N) /\
  from_compact (hexs [0x31; 0xc8]%N) = Ok [1; 12; 8; 16].
Proof. split; vm_compute; reflexivity. Qed.
Print Assumptions C06_compact_roundtrip.

(** * C07: a stored node decodes to what was stored. *)
Theorem C07_node_codec keccak n fuel : hash32 keccak -> valid_node n -> (forall h, n <> NHash h) ->
  length (raw keccak n) < fuel ->
  (forall w, exists w', encode_raw keccak n w = (w', Ok (raw keccak n))) /\
  decode_node fuel (raw keccak n) = Ok (shrink keccak n).
Proof.
  intros Hk Hv Hn Hf. assert (not_hash n) as Hn' by (destruct n; done || by edestruct Hn).
  split; [apply (enc_shape keccak n Hv Hn')|by apply decode_raw].
Qed.
Definition ex_node : node :=
  NExt [1; 2] (NBranch (<[3 := NLeaf ([4] ++ [16]) (v40 1)]> (<[7 := NLeaf ([] ++ [16]) (hexs [5]%N)]> no_children)) (Some (hexs [1]%N))).
Example C07_example : valid_node ex_node /\ (forall h, ex_node <> NHash h) /\ length (raw keccak256 ex_node) < 200.
Proof.
  split; [|split; [done|vm_compute; lia]].
  apply vn_ext; [repeat constructor; lia|done|done|].
  apply vn_branch; [done| |done|by intros y [= <-]].
  repeat (apply Forall_cons; split; [first [apply vn_empty|apply vn_leaf; [repeat constructor; lia|done|done]]|]).
  constructor.
Qed.
Print Assumptions C07_node_codec.

(** * C08: commit then reopen is faithful. *)
Theorem C08_commit_reopen keccak x ops w s i v : hash32 keccak -> reaches keccak x ops w s ->
  w_views w !! i = Some v -> commit_collision_free keccak w v ->
  exists d' v' r m, commit keccak (w_db w) v = (d', v', Ok r) /\ s_views s !! i = Some m /\
    forall k y, short k ->
      get (fuel_for y k) (w_db w) v k = Ok (m !! k) /\
      get (fuel_for y k) d' (at_root r) k = Ok (m !! k) /\
      get (fuel_for y k) d' v' k = Ok (m !! k).
Proof.
  intros Hk Hr Hv Hc. pose proof (reaches_inv keccak Hk false _ _ _ _ Hr ltac:(done)) as Hinv.
  destruct (world_spec _ _ _ _ _ _ Hinv Hv) as [m Hm]. pose proof (inv_view _ _ _ _ _ _ _ Hinv Hv Hm) as Hvo.
  destruct (commit_ok keccak Hk false (w_db w) (w_trace w) v m) as (d' & v' & r & E & _ & _ & _ & Hv' & Hr' & _); auto.
  { apply Hinv. } { apply Hinv. }
  exists d', v', r, m. split; [done|]. split; [done|]. intros k y Hs.
  split; [|split]; eapply get_ok; eauto. apply (root_view keccak false d' []). done.
Qed.
Example C08_example : reaches keccak256 0 ex_ops ex_world ex_spec /\ w_views ex_world !! 0 = Some ex_view /\
  commit_collision_free keccak256 ex_world ex_view.
Proof. split; [exact ex_reaches|]. split; [exact ex_view_ok|exact ex_commit_ok]. Qed.
Print Assumptions C08_commit_reopen.

(** * C10: the root is a function of the contents, for tame histories. *)
Theorem C10_root_of_contents_partial keccak x1 x2 ops1 ops2 w1 w2 s1 s2 i1 i2 v1 v2 m : hash32 keccak ->
  reaches keccak x1 ops1 w1 s1 -> reaches keccak x2 ops2 w2 s2 -> tame spec0 ops1 -> tame spec0 ops2 ->
  w_views w1 !! i1 = Some v1 -> w_views w2 !! i2 = Some v2 ->
  s_views s1 !! i1 = Some m -> s_views s2 !! i2 = Some m ->
  commit_collision_free keccak w1 v1 -> commit_collision_free keccak w2 v2 ->
  exists r, (commit keccak (w_db w1) v1).2 = Ok r /\ (commit keccak (w_db w2) v2).2 = Ok r.
Proof.
  intros Hk H1 H2 Ht1 Ht2 Hv1 Hv2 Hm1 Hm2 Hc1 Hc2.
  pose proof (reaches_inv keccak Hk true _ _ _ _ H1 ltac:(done)) as I1.
  pose proof (reaches_inv keccak Hk true _ _ _ _ H2 ltac:(done)) as I2.
  destruct (commit_ok keccak Hk true (w_db w1) (w_trace w1) v1 m) as (d1 & v1' & r1 & -> & _ & _ & _ & _ & Hr1 & _); auto.
  { apply I1. } { apply I1. } { by eapply inv_view. }
  destruct (commit_ok keccak Hk true (w_db w2) (w_trace w2) v2 m) as (d2 & v2' & r2 & -> & _ & _ & _ & _ & Hr2 & _); auto.
  { apply I2. } { apply I2. } { by eapply inv_view. }
  exists r1. split; [done|]. cbn. f_equal. by eapply canonical_root.
Qed.
(** The same contents reached another way. *)
Definition ex_ops2 : list op := [OAct 0 (AInsert k3 (hexs [9]%N)); OAct 0 ACommit; OAct 0 (AInsert k1 (v40 7))].
Definition ex_world2 : world := (run keccak256 0 (world0 keccak256) ex_ops2).2.
Definition ex_view2 : trie := default (new_trie keccak256) (w_views ex_world2 !! 0).
Lemma ex_reaches2 : reaches keccak256 0 ex_ops2 ex_world2 (srun spec0 ex_ops2).
Proof.
  unfold reaches, ex_world2. split; [apply eq_refl|]. split; [apply eq_refl|].
  split; [apply op_shortb_spec; vm_compute; reflexivity|]. apply inj_onb_spec. vm_compute. reflexivity.
Qed.
Example C10_example : reaches keccak256 0 ex_ops ex_world ex_spec /\ reaches keccak256 0 ex_ops2 ex_world2 (srun spec0 ex_ops2) /\
  tame spec0 ex_ops /\ tame spec0 ex_ops2 /\
  w_views ex_world !! 0 = Some ex_view /\ w_views ex_world2 !! 0 = Some ex_view2 /\
  s_views ex_spec !! 0 = Some {[k1 := v40 7; k3 := hexs [9]%N]} /\
  s_views (srun spec0 ex_ops2) !! 0 = Some {[k1 := v40 7; k3 := hexs [9]%N]} /\
  commit_collision_free keccak256 ex_world ex_view /\ commit_collision_free keccak256 ex_world2 ex_view2.
Proof.
  split; [exact ex_reaches|]. split; [exact ex_reaches2|]. split; [exact ex_tame|].
  split; [apply tameb_spec; vm_compute; reflexivity|]. split; [exact ex_view_ok|].
  split; [vm_compute; reflexivity|]. split; [exact ex_contents|].
  split; [apply (bool_decide_unpack _); vm_compute; exact I|]. split; [exact ex_commit_ok|].
  apply inj_onb_spec. vm_compute. reflexivity.
Qed.
Print Assumptions C10_root_of_contents_partial.

(** In general it is not: after removing everything the root differs from the
    root of the empty trie. *)
Definition leftover_ops : list op :=
  [OAct 0 (AInsert k4 (hexs [1]%N)); OAct 0 (AInsert (k4 ++ hexs [0x31]%N) (hexs [2]%N));
   OAct 0 (ARemove k4); OAct 0 (ARemove (k4 ++ hexs [0x31]%N))].
Theorem C10_root_of_contents_refuted : exists ops1 ops2 w1 w2 s1 s2 v1 v2 r1 r2,
  reaches keccak256 0 ops1 w1 s1 /\ reaches keccak256 0 ops2 w2 s2 /\
  w_views w1 !! 0 = Some v1 /\ w_views w2 !! 0 = Some v2 /\
  s_views s1 !! 0 = Some ∅ /\ s_views s2 !! 0 = Some ∅ /\
  commit_collision_free keccak256 w1 v1 /\ commit_collision_free keccak256 w2 v2 /\
  (commit keccak256 (w_db w1) v1).2 = Ok r1 /\ (commit keccak256 (w_db w2) v2).2 = Ok r2 /\ r1 <> r2.
Proof.
  exists leftover_ops, [], (run keccak256 0 (world0 keccak256) leftover_ops).2, (world0 keccak256),
    (srun spec0 leftover_ops), spec0.
  eexists _, _, _, _.
  split; [|split]. 1-2: unfold reaches; (split; [apply eq_refl|]); (split; [apply eq_refl|]);
    (split; [apply op_shortb_spec; vm_compute; reflexivity|]); apply inj_onb_spec; vm_compute; reflexivity.
  split; [vm_compute; reflexivity|]. split; [vm_compute; reflexivity|].
  split; [apply (bool_decide_unpack _); vm_compute; exact I|].
  split; [apply (bool_decide_unpack _); vm_compute; exact I|].
  split; [apply inj_onb_spec; vm_compute; reflexivity|]. split; [apply inj_onb_spec; vm_compute; reflexivity|].
  split; [vm_compute; reflexivity|]. split; [vm_compute; reflexivity|]. vm_compute. discriminate.
Qed.
Print Assumptions C10_root_of_contents_refuted.

(** * C09: the root does not depend on the order of insertions. *)
Theorem C09_insertion_order keccak x1 x2 ops1 ops2 w1 w2 s1 s2 i1 i2 v1 v2 m : hash32 keccak ->
  reaches keccak x1 ops1 w1 s1 -> reaches keccak x2 ops2 w2 s2 -> Forall no_removal ops1 -> Forall no_removal ops2 ->
  w_views w1 !! i1 = Some v1 -> w_views w2 !! i2 = Some v2 ->
  s_views s1 !! i1 = Some m -> s_views s2 !! i2 = Some m ->
  commit_collision_free keccak w1 v1 -> commit_collision_free keccak w2 v2 ->
  exists r, (commit keccak (w_db w1) v1).2 = Ok r /\ (commit keccak (w_db w2) v2).2 = Ok r.
Proof. intros Hk H1 H2 Hn1 Hn2. eapply C10_root_of_contents_partial; eauto using no_removal_tame. Qed.
Definition ex_ops3 : list op := [OAct 0 (AInsert k1 (v40 1)); OAct 0 (AInsert k1 (v40 7)); OAct 0 (AInsert k3 (hexs [9]%N))].
Definition ex_world3 : world := (run keccak256 0 (world0 keccak256) ex_ops3).2.
Definition ex_view3 : trie := default (new_trie keccak256) (w_views ex_world3 !! 0).
Example C09_example : reaches keccak256 0 ex_ops2 ex_world2 (srun spec0 ex_ops2) /\
  reaches keccak256 0 ex_ops3 ex_world3 (srun spec0 ex_ops3) /\
  Forall no_removal ex_ops2 /\ Forall no_removal ex_ops3 /\
  w_views ex_world2 !! 0 = Some ex_view2 /\ w_views ex_world3 !! 0 = Some ex_view3 /\
  s_views (srun spec0 ex_ops2) !! 0 = Some {[k1 := v40 7; k3 := hexs [9]%N]} /\
  s_views (srun spec0 ex_ops3) !! 0 = Some {[k1 := v40 7; k3 := hexs [9]%N]} /\
  commit_collision_free keccak256 ex_world2 ex_view2 /\ commit_collision_free keccak256 ex_world3 ex_view3.
Proof.
  split; [exact ex_reaches2|]. split.
  { unfold reaches, ex_world3. split; [apply eq_refl|]. split; [apply eq_refl|].
    split; [apply op_shortb_spec; vm_compute; reflexivity|]. apply inj_onb_spec. vm_compute. reflexivity. }
  split; [repeat constructor|]. split; [repeat constructor|].
  split; [vm_compute; reflexivity|]. split; [vm_compute; reflexivity|].
  split; [apply (bool_decide_unpack _); vm_compute; exact I|].
  split; [apply (bool_decide_unpack _); vm_compute; exact I|].
  split; apply inj_onb_spec; vm_compute; reflexivity.
Qed.
Print Assumptions C09_insertion_order.

(** * C57: the root of a tame history is the Yellow Paper's TRIE of the contents. *)
Theorem C57_yellow_paper_root_partial keccak x ops w s i v m l fuel : hash32 keccak ->
  reaches keccak x ops w s -> tame spec0 ops -> w_views w !! i = Some v -> s_views s !! i = Some m ->
  commit_collision_free keccak w v -> enumerates l m ->
  0 < fuel -> Forall (fun kv => 2 * length kv.1 < fuel) l ->
  (commit keccak (w_db w) v).2 = Ok (yellow_root keccak fuel l).
Proof.
  intros Hk Hr Ht Hv Hm Hc [Hnd Hl] Hf0 Hf. pose proof (reaches_inv keccak Hk true _ _ _ _ Hr ltac:(done)) as Hinv.
  destruct (commit_ok keccak Hk true (w_db w) (w_trace w) v m)
    as (d1 & v1' & r1 & -> & _ & _ & _ & _ & (t & -> & Hw & [Hh1 Hh2] & _) & _); auto.
  { apply Hinv. } { apply Hinv. } { by eapply inv_view. }
  cbn [snd]. f_equal. unfold yellow_root. f_equal. symmetry.
  eapply yellow_enc; [exact Hw| |done|].
  - split.
    + rewrite map_map. cbn [fst]. rewrite <- (map_map fst nibbles).
      apply NoDup_ListNoDup, FinFun.Injective_map_NoDup; [|by apply NoDup_ListNoDup].
      intros a b E. rewrite !nibbles_unpack in E. by apply unpack_inj.
    + intros q y. rewrite elem_of_list_In, in_map_iff. split.
      * intros ([k y'] & [= <- <-] & Hin). apply elem_of_list_In, Hl in Hin. rewrite nibbles_unpack.
        split; [apply unpack_nibs|]. by rewrite (Hh1 k : lk t (unpack k ++ [16]) = _).
      * intros [Hn Hlk]. destruct (Hh2 (q ++ [16])) as [k Ek]; [by apply tpath_nibs|congruence|].
        unfold from_raw in Ek. apply app_inv_tail in Ek as ->. exists (k, y). cbn [fst snd]. rewrite nibbles_unpack.
        split; [done|]. apply elem_of_list_In, Hl. by rewrite <- Hh1.
  - apply Forall_forall. rewrite Forall_forall in Hf. intros b Hb. apply elem_of_list_In, in_map_iff in Hb as ([k y] & <- & Hin).
    apply elem_of_list_In in Hin. specialize (Hf _ Hin). cbn [fst snd] in *. by rewrite nibbles_unpack, unpack_length.
Qed.
Example C57_example : reaches keccak256 0 ex_ops ex_world ex_spec /\ tame spec0 ex_ops /\
  w_views ex_world !! 0 = Some ex_view /\ commit_collision_free keccak256 ex_world ex_view /\
  (exists m, s_views ex_spec !! 0 = Some m /\ enumerates (map_to_list m) m) /\
  (commit keccak256 (w_db ex_world) ex_view).2 = Ok (yellow_root keccak256 7 [(k3, hexs [9]%N); (k1, v40 7)]).
Proof.
  split; [exact ex_reaches|]. split; [exact ex_tame|]. split; [exact ex_view_ok|]. split; [exact ex_commit_ok|].
  split; [|vm_compute; reflexivity]. eexists. split; [exact ex_contents|]. split.
  - apply NoDup_fst_map_to_list.
  - intros k y. apply elem_of_map_to_list.
Qed.
Print Assumptions C57_yellow_paper_root_partial.

(** * C56: a root determines the contents it was committed with. *)
Theorem C56_root_binding keccak x1 x2 ops1 ops2 w1 w2 s1 s2 j1 j2 r m1 m2 : hash32 keccak ->
  reaches keccak x1 ops1 w1 s1 -> reaches keccak x2 ops2 w2 s2 ->
  w_roots w1 !! j1 = Some r -> w_roots w2 !! j2 = Some r ->
  s_roots s1 !! j1 = Some m1 -> s_roots s2 !! j2 = Some m2 ->
  inj_on keccak (w_trace w1 ++ w_trace w2) -> m1 = m2.
Proof.
  intros Hk H1 H2 Hr1 Hr2 Hm1 Hm2 Hi.
  pose proof (reaches_inv keccak Hk false _ _ _ _ H1 ltac:(done)) as I1.
  pose proof (reaches_inv keccak Hk false _ _ _ _ H2 ltac:(done)) as I2.
  eapply (root_binding keccak Hk false false (w_db w1) (w_db w2) (w_trace w1) (w_trace w2) r); auto.
  { apply I1. } { apply I2. } { by eapply inv_root. } { by eapply inv_root. }
Qed.
Definition ex_ops4 : list op := ex_ops2 ++ [OAct 0 ACommit].
Example C56_example : let w := (run keccak256 0 (world0 keccak256) ex_ops4).2 in
  reaches keccak256 0 ex_ops ex_world ex_spec /\ reaches keccak256 0 ex_ops4 w (srun spec0 ex_ops4) /\
  (exists r, w_roots ex_world !! 0 = Some r /\ w_roots w !! 0 = Some r) /\
  inj_on keccak256 (w_trace ex_world ++ w_trace w).
Proof.
  intros w. split; [exact ex_reaches|]. split.
  { unfold reaches, w. split; [apply eq_refl|]. split; [apply eq_refl|].
    split; [apply op_shortb_spec; vm_compute; reflexivity|]. apply inj_onb_spec. vm_compute. reflexivity. }
  split; [eexists; split; vm_compute; reflexivity|]. apply inj_onb_spec. vm_compute. reflexivity.
Qed.
Print Assumptions C56_root_binding.

(** * C11: commit is idempotent. *)
Theorem C11_commit_idempotent keccak x ops w s i v d1 v1 r1 : hash32 keccak -> reaches keccak x ops w s ->
  w_views w !! i = Some v -> commit_collision_free keccak w v ->
  commit keccak (w_db w) v = (d1, v1, r1) ->
  exists h, r1 = Ok h /\ commit keccak d1 v1 = (d1, v1, Ok h) /\ root_hash keccak d1 v1 = (d1, v1, Ok h).
Proof.
  intros Hk Hr Hv Hc E. pose proof (reaches_inv keccak Hk false _ _ _ _ Hr ltac:(done)) as Hinv.
  destruct (world_spec _ _ _ _ _ _ Hinv Hv) as [m Hm]. pose proof (inv_view _ _ _ _ _ _ _ Hinv Hv Hm) as Hvo.
  destruct (commit_again keccak Hk false (w_db w) (w_trace w) v m ltac:(apply Hinv) ltac:(apply Hinv) Hvo Hc _ _ _ E)
    as (h & -> & E2). exists h. auto.
Qed.
Example C11_example : reaches keccak256 0 ex_ops ex_world ex_spec /\ w_views ex_world !! 0 = Some ex_view /\
  commit_collision_free keccak256 ex_world ex_view.
Proof. exact C08_example. Qed.
Print Assumptions C11_commit_idempotent.

(** * C12: iteration lists exactly the contents, in order. *)
Theorem C12_iteration keccak x ops w s i v m : hash32 keccak -> reaches keccak x ops w s ->
  w_views w !! i = Some v -> s_views s !! i = Some m -> m !! [] = None ->
  exists f0 l, (forall f, values (f0 + f) (w_db w) v = Ok l) /\
    StronglySorted bytes_lt (map fst l) /\ (forall k y, (k, y) ∈ l <-> m !! k = Some y).
Proof.
  intros Hk Hr Hv Hm Hne. pose proof (reaches_inv keccak Hk false _ _ _ _ Hr ltac:(done)) as Hinv.
  eapply values_ok; [exact Hk| |done]. by eapply inv_view.
Qed.
Example C12_example : reaches keccak256 0 ex_ops ex_world ex_spec /\ w_views ex_world !! 0 = Some ex_view /\
  (exists m, s_views ex_spec !! 0 = Some m /\ m !! [] = None) /\
  values 1000 (w_db ex_world) ex_view = Ok [(k3, hexs [9]%N); (k1, v40 7)].
Proof.
  split; [exact ex_reaches|]. split; [exact ex_view_ok|]. split; [|vm_compute; reflexivity].
  eexists. split; [exact ex_contents|]. vm_compute. reflexivity.
Qed.
Print Assumptions C12_iteration.

(** * C13: the empty key breaks iteration. *)
Definition empty_key_ops : list op := [OAct 0 (AInsert [] (hexs [1]%N)); OAct 0 (AInsert k3 (hexs [2]%N))].
Theorem C13_iteration_empty_key_refuted : exists ops, forall keccak, exists w s v m,
  reaches keccak 0 ops w s /\ w_views w !! 0 = Some v /\ s_views s !! 0 = Some m /\ m !! [] = Some (hexs [1]%N) /\
  forall f, values (10 + f) (w_db w) v = Panic.
Proof.
  exists empty_key_ops. intros keccak. eexists _, _, _, _.
  assert (Et : w_trace (run keccak 0 (world0 keccak) empty_key_ops).2 = []) by (vm_compute; reflexivity).
  split.
  { split; [reflexivity|]. split; [reflexivity|]. split; [apply op_shortb_spec; vm_compute; reflexivity|].
    rewrite Et. intros a b Ha. by apply elem_of_nil in Ha. }
  split; [vm_compute; reflexivity|]. split; [reflexivity|]. split; [vm_compute; reflexivity|].
  intros f. vm_compute. reflexivity.
Qed.
Print Assumptions C13_iteration_empty_key_refuted.

(** * C14: proofs are complete, for non-empty tries. *)
Theorem C14_proof_completeness_partial keccak x ops w s i v m k y z : hash32 keccak -> reaches keccak x ops w s ->
  w_views w !! i = Some v -> s_views s !! i = Some m -> commit_collision_free keccak w v -> m <> ∅ -> short k ->
  exists d' v' r v'' proof, commit keccak (w_db w) v = (d', v', Ok r) /\
    get_proof keccak (fuel_for y k) d' v' k = (v'', Ok proof) /\
    verify_proof keccak (fuel_for z k) r k proof = Ok (m !! k) /\
    get (fuel_for y k) d' v' k = Ok (m !! k).
Proof.
  intros Hk Hr Hv Hm Hc Hne Hs. pose proof (reaches_inv keccak Hk false _ _ _ _ Hr ltac:(done)) as Hinv.
  pose proof (inv_view _ _ _ _ _ _ _ Hinv Hv Hm) as Hvo.
  destruct (commit_ok keccak Hk false (w_db w) (w_trace w) v m)
    as (d' & v' & r & E & _ & _ & Hd' & Hv' & Hr' & (t & Ev & Er & Hrep & Hw & Hh & Hkn & Hst)); auto.
  { apply Hinv. } { apply Hinv. }
  destruct (proof_complete keccak Hk false d' _ v' m t k y z Hd' Hc) as (v'' & proof & E2 & _ & E3); auto.
  { by rewrite Ev. }
  exists d', v', r, v'', proof. split; [done|]. split; [done|]. split; [by rewrite Er|]. by eapply get_ok.
Qed.
Example C14_example : reaches keccak256 0 ex_ops ex_world ex_spec /\ w_views ex_world !! 0 = Some ex_view /\
  (exists m, s_views ex_spec !! 0 = Some m /\ m <> ∅) /\ commit_collision_free keccak256 ex_world ex_view.
Proof.
  split; [exact ex_reaches|]. split; [exact ex_view_ok|]. split; [|exact ex_commit_ok].
  eexists. split; [exact ex_contents|]. intros E. apply (f_equal (lookup k1)) in E. vm_compute in E. discriminate.
Qed.
Print Assumptions C14_proof_completeness_partial.

(** The empty trie proves nothing: its proofs are rejected. *)
Lemma commit_new keccak : commit keccak (db_new false) (new_trie keccak) =
  (db_insert (db_new false) (keccak null_rlp) null_rlp, Trie NEmpty (keccak null_rlp) ∅ ∅ ∅, Ok (keccak null_rlp)).
Proof.
  unfold commit, write_node, write_with, new_trie. cbn [t_root t_cache t_gen t_passing encode_raw].
  change (length null_rlp <? 32) with true. cbv iota.
  rewrite insert_empty, map_to_list_singleton, elements_empty. cbn [db_insert_batch fold_left fst snd].
  unfold db_remove_batch. cbn [filter list_filter fold_left].
  unfold recover_from_db, db_get, db_insert. cbn [storage db_new light]. rewrite lookup_insert.
  change (decode_node (S (length null_rlp)) null_rlp) with (@Ok terr node NEmpty). reflexivity.
Qed.
Theorem C14_proof_completeness_refuted : exists w s v d' v' r, reaches keccak256 0 [] w s /\
  w_views w !! 0 = Some v /\ commit_collision_free keccak256 w v /\ commit keccak256 (w_db w) v = (d', v', Ok r) /\
  forall k, get (fuel_for 0 k) d' v' k = Ok None /\
    exists v'', get_proof keccak256 (fuel_for 0 k) d' v' k = (v'', Ok []) /\
      verify_proof keccak256 (fuel_for 0 k) r k [] = Err InvalidProof.
Proof.
  exists (world0 keccak256), spec0, (new_trie keccak256). eexists _, _, _.
  split.
  { unfold reaches. split; [apply eq_refl|]. split; [apply eq_refl|]. split; [constructor|].
    intros a b Ha. by apply elem_of_nil in Ha. }
  split; [apply eq_refl|]. split; [apply inj_onb_spec; vm_compute; reflexivity|].
  split; [apply commit_new|]. generalize (keccak256 null_rlp). intros r.
  intros k.
  assert (Ef : exists f, fuel_for 0 k = S f) by (exists (6 * length k + 12); unfold fuel_for; lia).
  destruct Ef as [f ->]. split; [|eexists; split].
  - unfold get. cbn [t_root t_root_hash get_at]. rewrite offset_drop by lia. reflexivity.
  - unfold get_proof. cbn [t_root t_root_hash t_cache t_gen get_path_at]. rewrite offset_drop by lia. reflexivity.
  - unfold verify_proof, get, at_root. cbn [t_root t_root_hash get_at]. rewrite offset_drop by lia.
    cbn [rbind proof_db fold_left]. unfold recover_from_db, db_get, db_new. cbn [storage]. rewrite lookup_empty. reflexivity.
Qed.
Print Assumptions C14_proof_completeness_refuted.

(** * C15: proofs are sound. *)
Theorem C15_proof_soundness keccak x ops w s j r m k y proof : hash32 keccak -> reaches keccak x ops w s ->
  w_roots w !! j = Some r -> s_roots s !! j = Some m -> inj_on keccak (w_trace w ++ proof) ->
  verify_proof keccak (fuel_for y k) r k proof = Ok (m !! k) \/
  verify_proof keccak (fuel_for y k) r k proof = Err InvalidProof.
Proof.
  intros Hk Hr Hj Hm Hi. pose proof (reaches_inv keccak Hk false _ _ _ _ Hr ltac:(done)) as Hinv.
  eapply verify_sound; [exact Hk| | |exact Hi]; [apply Hinv|by eapply inv_root].
Qed.
Definition proof_of (r : trie * tres (list bytes)) : list bytes := match r.2 with Ok p => p | _ => [] end.
Definition ex_proof : list bytes := proof_of (get_proof keccak256 (fuel_for 0 k1) (w_db ex_world) ex_view k1).
Example C15_example : reaches keccak256 0 ex_ops ex_world ex_spec /\
  (exists r m, w_roots ex_world !! 0 = Some r /\ s_roots ex_spec !! 0 = Some m /\
     verify_proof keccak256 (fuel_for 0 k1) r k1 ex_proof = Ok (Some (v40 7)) /\
     verify_proof keccak256 (fuel_for 0 k2) r k2 ex_proof = Ok None /\
     verify_proof keccak256 (fuel_for 0 k1) r k1 (drop 1 ex_proof) = Err InvalidProof) /\
  inj_on keccak256 (w_trace ex_world ++ ex_proof).
Proof.
  split; [exact ex_reaches|]. split; [|apply inj_onb_spec; vm_compute; reflexivity].
  eexists _, _. split; [vm_compute; reflexivity|]. split; [reflexivity|]. split; [vm_compute; reflexivity|].
  split; vm_compute; reflexivity.
Qed.
Print Assumptions C15_proof_soundness.

(** * C16: malformed proofs can crash the verifier, whatever the hash. *)
Theorem C16_malformed_proof_refuted : exists proof, forall keccak k f, exists r,
  verify_proof keccak (S (S f)) r k proof = Panic.
Proof.
  exists [hexs [0xc2; 0x80; 0x80]%N]. intros keccak k f. exists (keccak (hexs [0xc2; 0x80; 0x80]%N)).
  unfold verify_proof, proof_db. cbn [fold_left]. rewrite bool_decide_true by done. cbn [orb].
  unfold get, at_root. cbn [t_root t_root_hash get_at]. rewrite offset_drop by lia. cbn [rbind].
  unfold recover_from_db, db_get, db_insert. cbn [storage]. rewrite lookup_insert. reflexivity.
Qed.
Print Assumptions C16_malformed_proof_refuted.

(** * C17: old roots stay readable in an archive database. *)
Theorem C17_old_roots keccak x ops1 ops2 w1 w2 s1 s2 j r m k y : hash32 keccak ->
  reaches keccak x ops1 w1 s1 -> reaches keccak x (ops1 ++ ops2) w2 s2 ->
  w_roots w1 !! j = Some r -> s_roots s1 !! j = Some m -> short k ->
  get (fuel_for y k) (w_db w1) (at_root r) k = Ok (m !! k) /\
  get (fuel_for y k) (w_db w2) (at_root r) k = Ok (m !! k).
Proof.
  intros Hk H1 (E2 & Es2 & Hs2 & Hi2) Hj Hm Hs. pose proof (reaches_inv keccak Hk false _ _ _ _ H1 ltac:(done)) as I1.
  destruct H1 as (E1 & Es1 & _ & _).
  rewrite run_app in E2. cbn [snd] in E2. rewrite E1 in E2.
  apply Forall_app in Hs2 as [_ Hs2]. subst w2. split.
  - eapply get_ok; [exact Hk| |done]. apply (root_view keccak false (w_db w1) []). by eapply inv_root.
  - eapply get_ok; [exact Hk| |done]. apply (root_view keccak false _ []). by eapply run_root.
Qed.
Example C17_example : let w1 := (run keccak256 0 (world0 keccak256) (take 5 ex_ops)).2 in
  reaches keccak256 0 (take 5 ex_ops) w1 (srun spec0 (take 5 ex_ops)) /\
  reaches keccak256 0 (take 5 ex_ops ++ drop 5 ex_ops) ex_world ex_spec /\
  (exists r m, w_roots w1 !! 0 = Some r /\ s_roots (srun spec0 (take 5 ex_ops)) !! 0 = Some m /\
    m !! k2 = Some (v40 6) /\ get (fuel_for 0 k2) (w_db ex_world) (at_root r) k2 = Ok (Some (v40 6))) /\
  get (fuel_for 0 k2) (w_db ex_world) ex_view k2 = Ok None.
Proof.
  intros w1. split.
  { unfold reaches, w1. split; [apply eq_refl|]. split; [apply eq_refl|].
    split; [apply op_shortb_spec; vm_compute; reflexivity|]. apply inj_onb_spec. vm_compute. reflexivity. }
  rewrite take_drop. split; [exact ex_reaches|]. split; [|vm_compute; reflexivity].
  eexists _, _. split; [vm_compute; reflexivity|]. split; [reflexivity|]. split; vm_compute; reflexivity.
Qed.
Print Assumptions C17_old_roots.

(** * C18: pruning loses nodes that are still referenced. *)
Definition light0 keccak : world := World (db_new true) [new_trie keccak] [] [].
Definition absent_removal_ops : list op :=
  [OAct 0 (AInsert k1 (v40 5)); OAct 0 (AInsert k2 (v40 6)); OAct 0 ACommit;
   OAct 0 (ARemove (hexs [1; 2; 7]%N)); OAct 0 ACommit; OAct 0 (AGet k2)].
(** Insertions only: two keys share a stored leaf, one of them is updated. *)
Definition shared_leaf_ops : list op :=
  [OAct 0 (AInsert (hexs [0x10; 5]%N) (v40 5)); OAct 0 (AInsert (hexs [0x20; 5]%N) (v40 5)); OAct 0 ACommit;
   OAct 0 (AInsert (hexs [0x10; 5]%N) (v40 6)); OAct 0 ACommit; OAct 0 (AGet (hexs [0x20; 5]%N))].
Definition light_run ops := run keccak256 0 (light0 keccak256) ops.
Theorem C18_pruning_refuted :
  (exists ops h, Forall op_short ops /\ inj_on keccak256 (w_trace (light_run ops).2) /\ tame spec0 ops /\
    last (light_run ops).1 =
      Some (RVal (Err (MissingTrieNode h (Some [0; 1; 0; 2]) (w_roots (light_run ops).2 !! 0) (Some k2)))) /\
    ~ outs_ok false spec0 ops (light_run ops).1) /\
  (exists ops, Forall op_short ops /\ inj_on keccak256 (w_trace (light_run ops).2) /\
    Forall no_removal ops /\ ~ outs_ok false spec0 ops (light_run ops).1).
Proof.
  split.
  - exists absent_removal_ops. eexists. split; [apply op_shortb_spec; vm_compute; reflexivity|].
    split; [apply inj_onb_spec; vm_compute; reflexivity|]. split; [apply tameb_spec; vm_compute; reflexivity|].
    split; [vm_compute; reflexivity|].
    let o := eval vm_compute in (light_run absent_removal_ops).1 in
    assert ((light_run absent_removal_ops).1 = o) as -> by (vm_compute; reflexivity).
    intros (_ & _ & _ & _ & _ & H & _). vm_compute in H. discriminate.
  - exists shared_leaf_ops. split; [apply op_shortb_spec; vm_compute; reflexivity|].
    split; [apply inj_onb_spec; vm_compute; reflexivity|]. split; [repeat constructor|].
    let o := eval vm_compute in (light_run shared_leaf_ops).1 in
    assert ((light_run shared_leaf_ops).1 = o) as -> by (vm_compute; reflexivity).
    intros (_ & _ & _ & _ & _ & H & _). vm_compute in H. discriminate.
Qed.
Print Assumptions C18_pruning_refuted.

(** * C19: lost database entries never yield a wrong answer. *)
Theorem C19_missing_nodes keccak x ops w s i v m d' k y : hash32 keccak -> reaches keccak x ops w s ->
  w_views w !! i = Some v -> s_views s !! i = Some m -> lost_entries (w_db w) d' ->
  get (fuel_for y k) d' v k = Ok (m !! k) \/ lost d' k (get (fuel_for y k) d' v k).
Proof.
  intros Hk Hr Hv Hm Hd. pose proof (reaches_inv keccak Hk false _ _ _ _ Hr ltac:(done)) as Hinv.
  eapply get_sub; [exact Hk| |exact Hd]. by eapply inv_view.
Qed.
Lemma lost_all d : lost_entries d (db_new false).
Proof. intros h e H. unfold db_get in H. cbn in H. by rewrite lookup_empty in H. Qed.
Example C19_example : reaches keccak256 0 ex_ops ex_world ex_spec /\ w_views ex_world !! 0 = Some ex_view /\
  lost_entries (w_db ex_world) (db_new false) /\
  (exists e, get (fuel_for 0 k1) (db_new false) ex_view k1 = Err e).
Proof.
  split; [exact ex_reaches|]. split; [exact ex_view_ok|]. split; [apply lost_all|].
  eexists. vm_compute. reflexivity.
Qed.
Print Assumptions C19_missing_nodes.

(** * C20: no proof can be generated on a view opened by root. *)
Theorem C20_view_proof_refuted :
  (forall keccak fuel d r k v proof, get_proof keccak fuel d (at_root r) k <> (v, Ok proof)) /\
  (exists ops w s r v proof v', reaches keccak256 0 ops w s /\ w_roots w !! 0 = Some r /\ w_views w !! 0 = Some v /\
     get_proof keccak256 (fuel_for 0 k1) (w_db w) v k1 = (v', Ok proof) /\ 0 < length proof /\
     (get_proof keccak256 (fuel_for 0 k1) (w_db w) (at_root r) k1).2 = Panic).
Proof.
  split.
  - intros keccak fuel d r k v proof. unfold get_proof, at_root. cbn [t_root t_root_hash t_cache t_gen].
    destruct (with_key k _) as [path|e| |]; [|done..]. rewrite rev_app_distr. cbn [rev app encode_all encode_raw]. done.
  - exists ex_ops, ex_world, ex_spec. eexists _, ex_view, ex_proof, _. split; [exact ex_reaches|].
    split; [vm_compute; reflexivity|]. split; [exact ex_view_ok|]. split; [vm_compute; reflexivity|].
    split; [vm_compute; lia|]. vm_compute. reflexivity.
Qed.
Print Assumptions C20_view_proof_refuted.

(** * C21: failed updates leave the contents unchanged, in every state. *)
Theorem C21_failed_updates keccak fuel d t k v t' :
  (exists e, insert fuel d t k v = (t', Err e)) \/ (exists e, remove fuel d t k = (t', Err e)) ->
  (forall f k', get f d t' k' = get f d t k' /\ contains f d t' k' = contains f d t k') /\
  (forall f, values f d t' = values f d t) /\
  (light d = false -> (commit keccak d t').1.1 = (commit keccak d t).1.1 /\
     (commit keccak d t').2 = (commit keccak d t).2).
Proof.
  assert (Hgen : (exists pk, t' = set_passing t pk) ->
    (forall f k', get f d t' k' = get f d t k' /\ contains f d t' k' = contains f d t k') /\
    (forall f, values f d t' = values f d t) /\
    (light d = false -> (commit keccak d t').1.1 = (commit keccak d t).1.1 /\
       (commit keccak d t').2 = (commit keccak d t).2)).
  { intros [pk ->]. split; [done|]. split; [done|]. intros Hl.
    destruct (commit_passing keccak d t pk Hl) as [->|(t1 & _ & ->)]; [|done].
    by destruct (commit keccak d t) as [[d1 t1] r]. }
  intros [[e H]|[e H]]; apply Hgen.
  - unfold insert in H. destruct v as [|b v]; [injection H as <- _; exists (t_passing t); by destruct t|].
    destruct (insert_at _ _ _ _ _ _ _ _) as [pk r]. destruct (with_key k r); simplify_eq. by exists pk.
  - unfold remove in H. destruct (delete_at _ _ _ _ _ _ _) as [pk r].
    destruct (with_key k r) as [[n b]|e0| |]; simplify_eq. by exists pk.
Qed.
Example C21_example : exists t' e, insert (fuel_for 0 k1) (db_new false) ex_view k1 (v40 1) = (t', Err e).
Proof. eexists _, _. vm_compute. reflexivity. Qed.
Print Assumptions C21_failed_updates.

(** * C55: iteration over an incomplete database silently omits entries. *)
Theorem C55_iteration_reports_loss_refuted : exists w s v m d' l k y, reaches keccak256 0 ex_ops w s /\
  w_views w !! 0 = Some v /\ s_views s !! 0 = Some m /\ lost_entries (w_db w) d' /\
  m !! k = Some y /\ (forall z, (k, z) ∉ l) /\ (forall f, values (100 + f) d' v = Ok l).
Proof.
  exists ex_world, ex_spec, ex_view. eexists _, (db_new false), _, k1, _. split; [exact ex_reaches|].
  split; [exact ex_view_ok|]. split; [exact ex_contents|].
  split; [apply lost_all|].
  split; [vm_compute; reflexivity|].
  assert (E : exists x, t_root ex_view = x) by eauto.
  split; [|intros f; unfold ex_view; vm_compute; reflexivity].
  intros z Hz. repeat (apply elem_of_cons in Hz as [Hz|Hz]; [vm_compute in Hz; discriminate|]). by apply elem_of_nil in Hz.
Qed.
Print Assumptions C55_iteration_reports_loss_refuted.

(** * C58: with pruning, a failed insert followed by a commit destroys readable data. *)
Definition ex_light : world :=
  (run keccak256 0 (light0 keccak256)
     [OAct 0 (AInsert k1 (v40 5)); OAct 0 (AInsert k2 (v40 6)); OAct 0 (AInsert k4 (v40 7)); OAct 0 ACommit]).2.
Definition ex_light_view : trie := default (new_trie keccak256) (w_views ex_light !! 0).
(** The leaf of [k1] is lost. *)
Definition ex_light_leaf : bytes :=
  keccak256 (rlp_list [rlp_str (hex_prefix [3] true); rlp_str (v40 5)]).
Definition ex_light_db : db := Db true (delete ex_light_leaf (storage (w_db ex_light))).
Theorem C58_failed_update_then_commit_refuted : exists d t,
  let t' := (insert (fuel_for 0 k1) d t k1 (v40 9)).1 in
  let '(d1, t1, r1) := commit keccak256 d t' in
  get (fuel_for 0 k2) d t k2 = Ok (Some (v40 6)) /\
  (exists e, (insert (fuel_for 0 k1) d t k1 (v40 9)).2 = Err e) /\
  get (fuel_for 0 k2) d t' k2 = Ok (Some (v40 6)) /\
  (exists h, r1 = Ok h) /\ lost d1 k2 (get (fuel_for 0 k2) d1 t1 k2).
Proof.
  exists ex_light_db, ex_light_view. cbv zeta.
  rewrite (surjective_pairing (commit _ _ _)). rewrite (surjective_pairing (commit _ _ _).1).
  split; [vm_compute; reflexivity|]. split; [eexists; vm_compute; reflexivity|]. split; [vm_compute; reflexivity|].
  split; [eexists; vm_compute; reflexivity|]. eexists _, _, _. split; vm_compute; reflexivity.
Qed.
Print Assumptions C58_failed_update_then_commit_refuted.
