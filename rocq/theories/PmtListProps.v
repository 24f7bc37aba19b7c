(** Counting the keys of a trie (C97); counting and listing a database in use
    (C98). *)
From Verif Require Import Base KeccakModel PmtNibblesModel RlpModel PmtModel PmtRunSpec PmtCommitProof PmtListModel.

(** ** C97 *)
Global Instance action_eq_dec : EqDecision action.
Proof. solve_decision. Defined.
Definition is_commit (o : op) : Prop := exists i, o = OAct i ACommit.

Lemma act_db keccak x w i t a : a <> ACommit -> w_db (act keccak x w i t a).2 = w_db w.
Proof.
  intros Ha. unfold act. destruct a as [k v|k|k|k| |k]; try done.
  - by destruct (insert _ _ _ _ _).
  - by destruct (remove _ _ _ _).
  - by destruct (get_proof _ _ _ _ _).
Qed.
Lemma step_db keccak x w o : ~ is_commit o -> w_db (step keccak x w o).2 = w_db w.
Proof.
  intros Hn. destruct o as [i a|j]; cbn [step].
  - destruct (w_views w !! i) as [t|]; [|done]. apply act_db. intros ->. apply Hn. by exists i.
  - by destruct (w_roots w !! j).
Qed.
Lemma run_snd keccak x w o ops : (run keccak x w (o :: ops)).2 = (run keccak x (step keccak x w o).2 ops).2.
Proof. cbn [run]. destruct (step keccak x w o) as [r w1]. cbn [snd]. by destruct (run keccak x w1 ops). Qed.
Lemma remove_batch_archive d ks : light d = false -> db_remove_batch d ks = d.
Proof.
  intros Hl. induction ks as [|k ks IH]; [done|]. unfold db_remove_batch. cbn [fold_left].
  assert (db_remove d k = d) as -> by (unfold db_remove; by rewrite Hl). exact IH.
Qed.
Lemma insert_batch_grows kvs : forall d, light (db_insert_batch d kvs) = light d /\
  forall k, is_Some (storage d !! k) -> is_Some (storage (db_insert_batch d kvs) !! k).
Proof.
  induction kvs as [|[a b] kvs IH]; intros d; [done|]. unfold db_insert_batch. cbn [fold_left fst snd].
  destruct (IH (db_insert d a b)) as [H1 H2]. split; [exact H1|]. intros k Hk. apply H2.
  unfold db_insert. cbn [storage]. destruct (decide (a = k)) as [->|]; [rewrite lookup_insert|rewrite lookup_insert_ne]; by eauto.
Qed.
Lemma commit_grows keccak d t d' t' r : light d = false -> commit keccak d t = (d', t', r) ->
  light d' = false /\ (forall k, is_Some (storage d !! k) -> is_Some (storage d' !! k)) /\
  (forall h, r = Ok h -> is_Some (storage d' !! h)).
Proof.
  intros Hl. unfold commit. destruct (write_node keccak _ _) as [[cache gen] e].
  destruct e as [e|e| |]; try (intros [= <- <- <-]; by repeat split).
  destruct (match e with EHash _ => _ | EInline _ => _ end) as [rh c].
  destruct (insert_batch_grows (map_to_list c) d) as [G1 G2].
  rewrite (remove_batch_archive (db_insert_batch d _)) by congruence. intros H.
  assert (light d' = false /\ (forall k, is_Some (storage d !! k) -> is_Some (storage d' !! k))) as [A B].
  { destruct (recover_from_db _ rh) as [[n|]| | |]; injection H as <- <- <-; split; try congruence; done. }
  split; [done|]. split; [done|]. intros h ->.
  destruct (recover_from_db (db_insert_batch d (map_to_list c)) rh) as [[n|]| | |] eqn:E; try discriminate.
  injection H as <- <- <-. unfold recover_from_db, db_get in E.
  destruct (storage (db_insert_batch d (map_to_list c)) !! rh); [by eauto|discriminate].
Qed.
Lemma run_nonempty keccak x ops : forall w, light (w_db w) = false -> (w_roots w <> [] -> storage (w_db w) <> ∅) ->
  w_roots (run keccak x w ops).2 <> [] -> storage (w_db (run keccak x w ops).2) <> ∅.
Proof.
  induction ops as [|o ops IH]; intros w Hl Hi; [exact Hi|]. rewrite run_snd. apply IH; clear IH.
  - destruct o as [i a|j]; cbn [step]; [|by destruct (w_roots w !! j)].
    destruct (w_views w !! i) as [t|]; [|done].
    destruct (decide (a = ACommit)) as [->|Ha]; [|by rewrite act_db].
    cbn [act]. destruct (commit keccak (w_db w) t) as [[d' t'] r] eqn:E. cbn [snd w_db].
    by destruct (commit_grows keccak _ _ _ _ _ Hl E).
  - destruct o as [i a|j]; cbn [step]; [|by destruct (w_roots w !! j)].
    destruct (w_views w !! i) as [t|]; [|done].
    destruct (decide (a = ACommit)) as [->|Ha].
    + cbn [act]. destruct (commit keccak (w_db w) t) as [[d' t'] r] eqn:E. cbn [snd w_db w_roots].
      destruct (commit_grows keccak _ _ _ _ _ Hl E) as (_ & G & Hr).
      assert (storage (w_db w) <> ∅ -> storage d' <> ∅) as G'.
      { intros Hne He. apply map_choose in Hne as (k & v & Hk). destruct (G k) as [y Hy]; [by eauto|].
        by rewrite He, lookup_empty in Hy. }
      destruct r as [h|e| |]; [|by intros H; apply G', Hi..].
      intros _ He. destruct (Hr h eq_refl) as [y Hy]. by rewrite He, lookup_empty in Hy.
    + rewrite act_db by done. intros H. apply Hi. intros Hw. apply H.
      unfold act. destruct a; cbn [snd w_roots]; try done.
      * by destruct (insert _ _ _ _ _).
      * by destruct (remove _ _ _ _).
      * by destruct (get_proof _ _ _ _ _).
Qed.

(** "[is_empty] says whether the trie holds no key" is false both ways: after an
    insertion it still says so, and once all keys are gone again it does not. *)
Theorem C97_is_empty_refuted :
  (exists ops t, let w := (run keccak256 0 (world0 keccak256) ops).2 in
     w_views w = [t] /\ trie_is_empty false (w_db w) = Ok true /\
     exists k v, get (fuel_for 0 k) (w_db w) t k = Ok (Some v)) /\
  (exists ops, let w := (run keccak256 0 (world0 keccak256) ops).2 in
     s_views (srun spec0 ops) = [∅] /\ trie_is_empty false (w_db w) = Ok false).
Proof.
  split.
  - set (k := [Byte.x61]). set (v := [Byte.x62]).
    set (w := (run keccak256 0 (world0 keccak256) [OAct 0 (AInsert k v)]).2).
    exists [OAct 0 (AInsert k v)], (match w_views w with t :: _ => t | [] => new_trie keccak256 end).
    fold w. cbv zeta. split; [vm_compute; reflexivity|]. split; [vm_compute; reflexivity|].
    exists k, v. vm_compute. reflexivity.
  - exists [OAct 0 (AInsert [Byte.x61] [Byte.x62]); OAct 0 (ARemove [Byte.x61]); OAct 0 ACommit]. cbv zeta.
    split; [apply (bool_decide_unpack _); vm_compute; exact I|]. vm_compute. reflexivity.
Qed.
(** What it says, in an archive database and for every view: before the first
    commit it is true, ... *)
Theorem C97_before_commit keccak x ops : Forall (fun o => ~ is_commit o) ops ->
  trie_is_empty false (w_db (run keccak x (world0 keccak) ops).2) = Ok true.
Proof.
  intros Hf. assert (forall w, w_db (run keccak x w ops).2 = w_db w) as E.
  { induction Hf as [|o ops Ho Hf IH]; intros w; [done|]. rewrite run_snd, IH. by apply step_db. }
  rewrite E. reflexivity.
Qed.
(** ... and once a commit has returned a root it is false for ever, whatever is
    removed. *)
Theorem C97_after_commit keccak x ops : let w := (run keccak x (world0 keccak) ops).2 in
  w_roots w <> [] -> trie_is_empty false (w_db w) = Ok false.
Proof.
  intros w Hw. assert (storage (w_db w) <> ∅) as H.
  { apply run_nonempty; [done|done|exact Hw]. }
  unfold trie_is_empty, trie_len, mem_len, rmap. cbn [rbind]. f_equal. apply Nat.eqb_neq.
  intros E. apply H. by apply map_size_empty_iff.
Qed.
Definition ex_list_ops : list op :=
  [OAct 0 (AInsert [Byte.x61] [Byte.x62]); OAct 0 ACommit; OAct 0 (ARemove [Byte.x61]); OAct 0 ACommit; OOpen 1].
Example C97_example : let w := (run keccak256 0 (world0 keccak256) ex_list_ops).2 in
  length (w_roots w) = 2 /\ trie_len false (w_db w) = Ok 2 /\ s_views (srun spec0 ex_list_ops) = [∅; {[ [Byte.x61] := [Byte.x62] ]}] /\
  Forall (fun o => ~ is_commit o) (take 1 ex_list_ops).
Proof.
  cbv zeta. split; [vm_compute; reflexivity|]. split; [vm_compute; reflexivity|].
  split; [apply (bool_decide_unpack _); vm_compute; exact I|].
  cbn [take ex_list_ops]. constructor; [|constructor]. intros [i [=]].
Qed.

(** ** C98 *)
(** The contents when every write begun has been done or not. *)
Definition contents_now (s : shared) : list (gmap bytes bytes) :=
  storage (sh_db s) :: match sh_writer s with Some w => [storage (do_write (sh_db s) w)] | None => [] end.
(** "Listing a database while others write to it gives its contents before or
    after the write" is false: it can be empty though the database is not,
    before or after. *)
Theorem C98_values_refuted : exists es, let s := sh_run (db_new false) es in
  Forall (fun m => m <> ∅) (contents_now s) /\ mem_values (sh_busy s) (sh_db s) = Ok [].
Proof.
  exists [Begin (WInsert [Byte.x61] [Byte.x62]); End; Begin (WInsert [Byte.x63] [Byte.x64])]. cbv zeta.
  split; [|vm_compute; reflexivity]. apply (bool_decide_unpack _). vm_compute. exact I.
Qed.
(** "Counting one, or asking a trie over it for its length, never panics" is
    false. *)
Theorem C98_panic_refuted : exists es, let s := sh_run (db_new false) es in
  mem_len (sh_busy s) (sh_db s) = Panic /\ trie_len (sh_busy s) (sh_db s) = Panic /\
  trie_is_empty (sh_busy s) (sh_db s) = Panic.
Proof. exists [Begin (WInsert [Byte.x61] [Byte.x62])]. done. Qed.
(** At every moment of every execution, a count is right or panics, and a
    listing is right or empty; they are right when no writer is there. *)
Theorem C98_right_or_nothing d es : let s := sh_run d es in
  (sh_writer s = None ->
     (exists l, mem_values (sh_busy s) (sh_db s) = Ok l /\ NoDup l.*1 /\ forall k v, (k, v) ∈ l <-> storage (sh_db s) !! k = Some v) /\
     (exists n b l, mem_len (sh_busy s) (sh_db s) = Ok n /\ mem_is_empty (sh_busy s) (sh_db s) = Ok b /\
        NoDup l /\ (forall k, k ∈ l <-> is_Some (storage (sh_db s) !! k)) /\ n = length l /\ (b = true <-> l = []))) /\
  (sh_writer s <> None -> mem_values (sh_busy s) (sh_db s) = Ok [] /\ mem_len (sh_busy s) (sh_db s) = Panic /\
     mem_is_empty (sh_busy s) (sh_db s) = Panic).
Proof.
  intros s. split.
  - intros Hn. unfold sh_busy. rewrite Hn. split.
    + exists (map_to_list (storage (sh_db s))). split; [done|]. split; [apply NoDup_fst_map_to_list|].
      intros k v. apply elem_of_map_to_list.
    + exists (size (storage (sh_db s))), (bool_decide (storage (sh_db s) = ∅)), (map_to_list (storage (sh_db s))).*1.
      split; [done|]. split; [done|]. split; [apply NoDup_fst_map_to_list|]. split; [|split].
      * intros k. rewrite elem_of_list_fmap. split.
        -- intros ([k' v] & -> & H). apply elem_of_map_to_list in H. by exists v.
        -- intros [v H]. exists (k, v). split; [done|]. by apply elem_of_map_to_list.
      * by rewrite fmap_length.
      * rewrite bool_decide_eq_true. split; [intros ->; by rewrite map_to_list_empty|].
        intros H. apply fmap_nil_inv in H. by apply map_to_list_empty_iff.
  - intros Hn. unfold sh_busy. by destruct (sh_writer s).
Qed.
(** No write is lost: with none under way, the contents are those of the writes
    in order. *)
Theorem C98_writes d ws : let s := sh_run d (concat (map (fun w => [Begin w; End]) ws)) in
  sh_writer s = None /\ sh_db s = fold_left do_write ws d.
Proof.
  unfold sh_run. revert d. induction ws as [|w ws IH]; intros d; [done|]. cbn [map concat app fold_left]. apply IH.
Qed.
(** ... and afterwards the last write to a key decides; a removal is one only
    in a pruning database. *)
Definition touches (pruning : bool) (k : bytes) (w : write) : Prop :=
  match w with WInsert k' _ => k' = k | WRemove k' => pruning = true /\ k' = k end.
Lemma untouched_writes k ws : forall d, Forall (fun w => ~ touches (light d) k w) ws ->
  storage (fold_left do_write ws d) !! k = storage d !! k.
Proof.
  induction ws as [|w ws IH]; intros d Hf; [done|]. inversion Hf as [|? ? Hw Hf']; subst. cbn [fold_left].
  assert (light (do_write d w) = light d) as El.
  { destruct w; cbn; [done|]. unfold db_remove. by destruct (light d) eqn:E. }
  rewrite IH by (by rewrite El). destruct w as [k' v|k']; cbn in *.
  - by rewrite lookup_insert_ne.
  - unfold db_remove. destruct (light d); [|done]. cbn. rewrite lookup_delete_ne; [done|]. intros ->. by apply Hw.
Qed.
Theorem C98_last_write d ws ws' w k : let s := sh_run d (concat (map (fun w => [Begin w; End]) (ws ++ w :: ws'))) in
  touches (light d) k w -> Forall (fun w' => ~ touches (light d) k w') ws' ->
  storage (sh_db s) !! k = match w with WInsert _ v => Some v | WRemove _ => None end.
Proof.
  intros s Hw Hf. destruct (C98_writes d (ws ++ w :: ws')) as [_ E]. fold s in E. rewrite E. rewrite fold_left_app. cbn [fold_left].
  assert (forall w d, light (do_write d w) = light d) as El.
  { intros w0 d0. destruct w0; cbn; [done|]. unfold db_remove. by destruct (light d0) eqn:E0. }
  assert (light (fold_left do_write ws d) = light d) as E1.
  { clear -El. revert d. induction ws as [|w0 ws IH]; intros d; [done|]. cbn [fold_left]. by rewrite IH, El. }
  rewrite untouched_writes by (by rewrite El, E1). destruct w as [k' v|k']; cbn in *.
  - subst. by rewrite lookup_insert.
  - destruct Hw as [Hl ->]. unfold db_remove. rewrite E1, Hl. cbn. by rewrite lookup_delete.
Qed.
Example C98_example :
  let s := sh_run (db_new true) [Begin (WInsert [Byte.x61] [Byte.x62]); End; Begin (WInsert [Byte.x63] [Byte.x64]); End; Begin (WRemove [Byte.x61]); End] in
  sh_writer s = None /\ mem_values false (sh_db s) = Ok [([Byte.x63], [Byte.x64])] /\
  mem_len false (sh_db s) = Ok 1 /\ mem_is_empty false (sh_db s) = Ok false.
Proof. vm_compute. repeat split. Qed.
Example C98_last_write_example : touches true [Byte.x61] (WRemove [Byte.x61]) /\
  Forall (fun w' => ~ touches true [Byte.x61] w') [WInsert [Byte.x63] [Byte.x64]; WRemove [Byte.x63]] /\
  ~ touches false [Byte.x61] (WRemove [Byte.x61]).
Proof. split; [done|]. split; [repeat constructor; cbn; [discriminate|by intros [_ [=]]]|by intros [[=] _]]. Qed.
Print Assumptions C97_is_empty_refuted.
Print Assumptions C97_before_commit.
Print Assumptions C97_after_commit.
Print Assumptions C98_values_refuted.
Print Assumptions C98_panic_refuted.
Print Assumptions C98_right_or_nothing.
Print Assumptions C98_writes.
Print Assumptions C98_last_write.
