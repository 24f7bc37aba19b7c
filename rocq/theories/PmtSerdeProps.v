(** The serde form of the Patricia trie (C91-C93). *)
From Coq Require Import Strings.String Strings.Ascii.
From Verif Require Import Base PmtNibblesModel RlpModel PmtModel PmtRunSpec KeccakModel PmtNibblesProof RlpProof PmtSpec
  PmtEncProof PmtLookupProof PmtOpsProof PmtDeleteProof PmtCommitProof PmtRunProof PmtStepProof PmtPropProof
  PmtExamples PmtProps PmtLossProps PmtSerdeModel PmtSerdeSpec PmtSerdeProof.
Open Scope list_scope.

(** * C91: a trie is read back as it was written, without what is skipped.
    For every value of the Rust type, and so for every view of every history. *)
Theorem C91_serde_exact t : typed_trie t ->
  de_trie (ser_trie t) = Some (Trie (t_root t) (t_root_hash t) ∅ ∅ ∅).
Proof. apply trie_round. Qed.
Theorem C91_views_typed keccak x ops w s i v : hash32 keccak -> reaches keccak x ops w s ->
  w_views w !! i = Some v -> typed_trie v.
Proof.
  intros Hk Hr Hv. destruct (reaches_views keccak Hk x ops w s Hr) as [H _]. rewrite Forall_forall in H.
  by eapply H, elem_of_list_lookup_2.
Qed.
(** As JSON, the trie left by a commit can always be read back. *)
Theorem C91_committed_json keccak x ops w s i v d' v' r : hash32 keccak -> reaches keccak x ops w s ->
  w_views w !! i = Some v -> commit_collision_free keccak w v ->
  commit keccak (w_db w) v = (d', v', r) ->
  from_json (ser_trie v') = Some v' /\ r = Ok (t_root_hash v').
Proof.
  intros Hk Hr Hv Hc E. pose proof (reaches_inv keccak Hk false _ _ _ _ Hr ltac:(done)) as Hinv.
  destruct (world_spec _ _ _ _ _ _ Hinv Hv) as [m Hm]. pose proof (inv_view _ _ _ _ _ _ _ Hinv Hv Hm) as Hvo.
  destruct (commit_ok keccak Hk false (w_db w) (w_trace w) v m)
    as (d1 & v1 & r1 & E1 & _ & _ & _ & Hv1 & _ & (t & Ev & Er & _ & Hw & _)); auto.
  { apply Hinv. } { apply Hinv. }
  rewrite E1 in E. injection E as <- <- <-. split; [|by rewrite Ev].
  pose proof (view_typed keccak Hk _ _ _ _ _ Hv1) as Ht.
  pose proof (collapse_depth keccak Hk _ _ _ _ Hw) as Hd.
  rewrite Ev in *. unfold from_json. rewrite (trie_depth keccak Hk).
  destruct (Nat.ltb_spec (1 + Nat.max (depth (ser_node (collapse keccak t))) 1) 128); [|lia].
  rewrite trie_round; [done|]. split; [done|]. cbn [t_root_hash]. rewrite Er. apply Hk.
Qed.
(** Before a commit it may be nested too deep: thirty keys, each a prefix of
    the next. *)
Definition deep_ops : list op :=
  map (fun i => OAct 0 (AInsert (replicate i Byte.x11) [Byte.x01])) (seq 1 30).
Definition deep_world : world := (run keccak256 0 (world0 keccak256) deep_ops).2.
Definition deep_view : trie := default (new_trie keccak256) (w_views deep_world !! 0).
Lemma run_reaches k x ops : forallb op_shortb ops = true -> inj_onb k (w_trace (run k x (world0 k) ops).2) = true ->
  reaches k x ops (run k x (world0 k) ops).2 (srun spec0 ops).
Proof.
  intros H1 H2. split; [done|]. split; [done|]. split; [by apply op_shortb_spec|by apply inj_onb_spec].
Qed.
Lemma deep_reaches : reaches keccak256 0 deep_ops deep_world (srun spec0 deep_ops).
Proof. apply run_reaches; vm_compute; reflexivity. Qed.
Lemma is_none_eq {A} (o : option A) : (match o with None => true | _ => false end) = true -> o = None.
Proof. by destruct o. Qed.
Theorem C91_json_refuted : exists ops w s v, reaches keccak256 0 ops w s /\ w_views w !! 0 = Some v /\
  from_json (ser_trie v) = None.
Proof.
  exists deep_ops, deep_world, (srun spec0 deep_ops), deep_view. split; [exact deep_reaches|].
  split; [vm_compute; reflexivity|]. apply is_none_eq. vm_compute. reflexivity.
Qed.
Example C91_example : typed_trie ex_view /\ from_json (ser_trie ex_view) = Some (Trie (t_root ex_view) (t_root_hash ex_view) ∅ ∅ ∅) /\
  typed_trie deep_view /\ depth (ser_trie deep_view) = 148.
Proof.
  assert (Hx : typed_trie ex_view).
  { eapply (C91_views_typed keccak256); [exact keccak256_length|exact ex_reaches|exact ex_view_ok]. }
  assert (Hd : typed_trie deep_view).
  { eapply (C91_views_typed keccak256 _ _ _ _ 0); [exact keccak256_length|exact deep_reaches|]. vm_compute. reflexivity. }
  split; [exact Hx|]. split; [|split; [exact Hd|vm_compute; reflexivity]].
  unfold from_json. rewrite (trie_round _ Hx).
  assert (E : (depth (ser_trie ex_view) <? 128) = true) by (vm_compute; reflexivity). rewrite E. reflexivity.
Qed.
Print Assumptions C91_serde_exact.
Print Assumptions C91_views_typed.
Print Assumptions C91_committed_json.
Print Assumptions C91_json_refuted.

(** * C92: what a trie read back contains. *)
Lemma lost_all d : lost_entries d de_db.
Proof. intros h e H. unfold db_get in H. cbn [de_db db_new storage] in H. by rewrite lookup_empty in H. Qed.

(** Every lookup gives the contents written, or names an entry of the database
    left behind. *)
Theorem C92_right_or_lost keccak x ops w s i v m t k y : hash32 keccak -> reaches keccak x ops w s ->
  w_views w !! i = Some v -> s_views s !! i = Some m -> short k -> de_trie (ser_trie v) = Some t ->
  (get (fuel_for y k) de_db t k = Ok (m !! k) \/
   names_loss (w_db w) de_db (t_root_hash v) k (get (fuel_for y k) de_db t k)) /\
  (contains (fuel_for y k) de_db t k = Ok (bool_decide (is_Some (m !! k))) \/
   exists h tr, contains (fuel_for y k) de_db t k = Err (MissingTrieNode h tr (Some (t_root_hash v)) None) /\
     is_Some (db_get (w_db w) h)).
Proof.
  intros Hk Hr Hv Hm Hs Ht. pose proof (reaches_inv keccak Hk false _ _ _ _ Hr ltac:(done)) as Hinv.
  pose proof (inv_view _ _ _ _ _ _ _ Hinv Hv Hm) as Hvo.
  destruct (get_ok keccak Hk false (w_db w) (w_trace w) v m k y Hvo Hs) as [Eg Ec].
  rewrite trie_round in Ht by (by eapply C91_views_typed). injection Ht as <-.
  pose proof (get_at_loss (w_db w) de_db (t_root_hash v) (lost_all _) (from_raw k true) (fuel_for y k) (t_root v) 0) as Hl.
  unfold get, contains in *. cbn [t_root t_root_hash]. destruct Hl as [->|Hl].
  - split; left; [exact Eg|exact Ec].
  - split; right; [by apply met_names|]. destruct Hl as (h & tr & -> & _ & Hh & _). by exists h, tr.
Qed.

(** Before the first commit nothing is left behind: from then on the trie read
    back does all that is asked of it. *)
Theorem C92_uncommitted keccak x ops w s i v m t y ops2 : hash32 keccak -> reaches keccak x ops w s ->
  w_roots w = [] -> w_views w !! i = Some v -> s_views s !! i = Some m -> de_trie (ser_trie v) = Some t ->
  Forall op_short ops2 -> inj_on keccak (w_trace (run keccak y (alone de_db t) ops2).2) ->
  outs_ok false (Spec [m] []) ops2 (run keccak y (alone de_db t) ops2).1.
Proof.
  intros Hk Hr H0 Hv Hm Ht Hs Hi. pose proof (reaches_inv keccak Hk false _ _ _ _ Hr ltac:(done)) as Hinv.
  pose proof (inv_view _ _ _ _ _ _ _ Hinv Hv Hm) as (n & Hn & Hw & Hh & _).
  destruct (reaches_views keccak Hk x ops w s Hr) as [_ Hdb]. rewrite (Hdb H0) in Hn.
  rewrite trie_round in Ht by (by eapply C91_views_typed). injection Ht as <-.
  assert (Hke : keyed keccak [] ∅) by (intros h e He; by rewrite lookup_empty in He).
  eapply run_inv; [exact Hk| |exact Hs|done|exact Hi].
  split; [done|exact Hke| |constructor]. constructor; [|constructor]. exists n. done.
Qed.

(** After a commit it does not: the entries it refers to are gone. *)
Definition missing_for {A} (d : db) (k : bytes) (r : tres A) : bool :=
  match r with
  | Err (MissingTrieNode h _ _ (Some k')) => bool_decide (k' = k) && negb (bool_decide (is_Some (db_get d h)))
  | _ => false
  end.
Lemma missing_for_spec {A} d k (r : tres A) : missing_for d k r = true -> lost d k r.
Proof.
  destruct r as [|e| |]; [done| |done..]. destruct e; try done. cbn [missing_for]. destruct err_key; [|done].
  intros H. apply andb_prop in H as [H1 H2]. apply bool_decide_eq_true in H1. subst.
  apply negb_true_iff, bool_decide_eq_false in H2. eexists _, _, _. split; [reflexivity|].
  by apply eq_None_not_Some.
Qed.
Lemma ex_typed : typed_trie ex_view.
Proof. eapply (C91_views_typed keccak256); [exact keccak256_length|exact ex_reaches|exact ex_view_ok]. Qed.
Theorem C92_committed_refuted : exists ops w s v m t k x, reaches keccak256 0 ops w s /\
  w_views w !! 0 = Some v /\ s_views s !! 0 = Some m /\ de_trie (ser_trie v) = Some t /\
  m !! k = Some x /\ get 100 (w_db w) v k = Ok (Some x) /\ lost de_db k (get 100 de_db t k).
Proof.
  exists ex_ops, ex_world, ex_spec, ex_view, {[k1 := v40 7; k3 := hexs [9]%N]},
    (Trie (t_root ex_view) (t_root_hash ex_view) ∅ ∅ ∅), k1, (v40 7).
  split; [exact ex_reaches|]. split; [exact ex_view_ok|]. split; [exact ex_contents|].
  split; [exact (trie_round _ ex_typed)|].
  split; [vm_compute; reflexivity|]. split; [vm_compute; reflexivity|].
  apply missing_for_spec. vm_compute. reflexivity.
Qed.

(** Three keys, no commit; written, read back, changed and committed. *)
Definition young_ops : list op :=
  [OAct 0 (AInsert k1 (v40 5)); OAct 0 (AInsert k2 (v40 6)); OAct 0 (AInsert k3 (hexs [9]%N))].
Definition young_world : world := (run keccak256 0 (world0 keccak256) young_ops).2.
Definition young_view : trie := default (new_trie keccak256) (w_views young_world !! 0).
Definition young_back : trie := default (new_trie keccak256) (de_trie (ser_trie young_view)).
Definition young_ops2 : list op := [OAct 0 (ARemove k2); OAct 0 ACommit; OOpen 0; OAct 1 (AGet k1); OAct 1 (AGet k2)].
Lemma young_reaches : reaches keccak256 0 young_ops young_world (srun spec0 young_ops).
Proof. apply run_reaches; vm_compute; reflexivity. Qed.
Example C92_example : reaches keccak256 0 young_ops young_world (srun spec0 young_ops) /\ w_roots young_world = [] /\
  w_views young_world !! 0 = Some young_view /\
  s_views (srun spec0 young_ops) !! 0 = Some (<[k3 := hexs [9]%N]> (<[k2 := v40 6]> (<[k1 := v40 5]> ∅))) /\
  de_trie (ser_trie young_view) = Some young_back /\
  Forall op_short young_ops2 /\ inj_on keccak256 (w_trace (run keccak256 0 (alone de_db young_back) young_ops2).2) /\
  (run keccak256 0 (alone de_db young_back) young_ops2).1 !! 3 = Some (RVal (Ok (Some (v40 5)))) /\
  (run keccak256 0 (alone de_db young_back) young_ops2).1 !! 4 = Some (RVal (Ok None)).
Proof.
  split; [exact young_reaches|]. split; [vm_compute; reflexivity|]. split; [vm_compute; reflexivity|].
  split; [vm_compute; reflexivity|]. split; [vm_compute; reflexivity|].
  split; [apply op_shortb_spec; vm_compute; reflexivity|]. split; [apply inj_onb_spec; vm_compute; reflexivity|].
  split; vm_compute; reflexivity.
Qed.
Print Assumptions C92_right_or_lost.
Print Assumptions C92_uncommitted.
Print Assumptions C92_committed_refuted.

(** * C93: reading checks the shape only.
    A document is accepted whose trie panics when it is committed, and one whose
    root hash is not that of its contents. *)
Definition zeros : bytes := replicate 32 Byte.x00.
Definition bad_leaf : json :=
  JObj [("root", JObj [("Leaf", JObj [("key", JStr ""); ("value", JStr "01")])]); ("root_hash", ser_bytes zeros)]%string.
Theorem C93_panic_refuted : exists j t, from_json j = Some t /\ forall keccak, (commit keccak de_db t).2 = Panic.
Proof.
  exists bad_leaf, (Trie (NLeaf [] [Byte.x01]) zeros ∅ ∅ ∅). split; [vm_compute; reflexivity|].
  intros keccak. reflexivity.
Qed.
Theorem C93_root_refuted : exists j t k x r, from_json j = Some t /\ get 100 de_db t k = Ok (Some x) /\
  (commit keccak256 de_db t).2 = Ok r /\ t_root_hash t <> r.
Proof.
  set (t := Trie (NLeaf (from_raw k1 true) [Byte.x01]) zeros ∅ ∅ ∅).
  exists (ser_trie t), t, k1, [Byte.x01], (keccak256 (raw keccak256 (t_root t))).
  split; [vm_compute; reflexivity|]. split; [vm_compute; reflexivity|]. split; [vm_compute; reflexivity|].
  vm_compute. discriminate.
Qed.
(** All it does check: what is accepted is a value of the Rust types, and
    writing it gives a document that reads the same. *)
Theorem C93_shape j t : from_json j = Some t -> typed_trie t /\ de_trie (ser_trie t) = Some t.
Proof. apply accepted_typed. Qed.
Example C93_example : from_json bad_leaf = Some (Trie (NLeaf [] [Byte.x01]) zeros ∅ ∅ ∅).
Proof. vm_compute. reflexivity. Qed.
Print Assumptions C93_panic_refuted.
Print Assumptions C93_root_refuted.
Print Assumptions C93_shape.
