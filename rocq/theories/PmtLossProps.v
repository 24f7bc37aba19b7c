(** Every call over a database that has lost entries (C73). *)
From Verif Require Import Base PmtNibblesModel RlpModel PmtModel PmtRunSpec KeccakModel PmtNibblesProof PmtExamples PmtProps.

(** ** The recursions *)
Section Loss.
Context (d d' : db) (rh : bytes).
Hypothesis Hd : lost_entries d d'.

(** The outcome of a recursion that met a lost entry. *)
Definition met {A} (path : hex) (r : tres A) : Prop :=
  exists h tr, r = Err (MissingTrieNode h tr (Some rh) None) /\ db_get d' h = None /\ is_Some (db_get d h) /\
    forall p, tr = Some p -> p `prefix_of` path.
Lemma recover_sub h : recover_from_db d' h = recover_from_db d h \/
  (recover_from_db d' h = Ok None /\ db_get d' h = None /\ is_Some (db_get d h)).
Proof.
  unfold recover_from_db. destruct (db_get d' h) as [e|] eqn:E; [left; by rewrite (Hd _ _ E)|].
  destruct (db_get d h) as [e|]; [right|by left]. done.
Qed.
Lemma met_bind {A B} (path : hex) (r : tres A) (f : A -> tres B) : met path r -> met path (rbind r f).
Proof. intros (h & tr & -> & H). by exists h, tr. Qed.
Lemma met_ubind {A B} (path : hex) (r : upd A) (f : gset bytes -> A -> upd B) : met path r.2 -> met path (ubind r f).2.
Proof. destruct r as [pk r]. intros (h & tr & E & H). cbn [snd] in E. subst r. by exists h, tr. Qed.
Lemma met_slice {A} (path : hex) (idx : nat) h partial : offset path idx = Ok partial ->
  db_get d' h = None -> is_Some (db_get d h) ->
  @met A path (rbind (slice path 0 idx) (fun tr => Err (MissingTrieNode h (Some tr) (Some rh) None))).
Proof.
  intros Ho H1 H2. unfold offset, slice in Ho. destruct (idx <=? length path) eqn:Ei; [|discriminate].
  apply Nat.leb_le in Ei. rewrite slice_ok by lia. cbn [rbind]. eexists _, _. split; [reflexivity|].
  split; [done|]. split; [done|]. intros p [= <-]. rewrite Nat.sub_0_r, drop_0. exists (drop idx path). by rewrite take_drop.
Qed.

Lemma get_at_loss path : forall f n idx,
  get_at f d' rh n path idx = get_at f d rh n path idx \/ met path (get_at f d' rh n path idx).
Proof.
  induction f as [|f IH]; intros n idx; [by left|]. cbn [get_at].
  destruct (offset path idx) as [partial| | |] eqn:Eo; [cbn [rbind]|by left..].
  destruct n as [|k v|pre c|cs v|h]; [by left..| | |].
  - by destruct (common_prefix partial pre =? length pre); [apply IH|left].
  - destruct partial as [|x partial]; [by left|]. destruct (x =? 16); [by left|].
    destruct (cs !! x) as [c|]; [apply IH|by left].
  - destruct (recover_sub h) as [->|(-> & H1 & H2)].
    + destruct (recover_from_db d h) as [[n'|]| | |]; cbn [rbind]; [apply IH|by left..].
    + right. by eapply met_slice.
Qed.
Lemma get_path_loss path : forall f n idx,
  get_path_at f d' rh n path idx = get_path_at f d rh n path idx \/ met path (get_path_at f d' rh n path idx).
Proof.
  induction f as [|f IH]; intros n idx; [by left|]. cbn [get_path_at].
  destruct (offset path idx) as [partial| | |] eqn:Eo; [cbn [rbind]|by left..].
  destruct n as [|k v|pre c|cs v|h]; [by left..| | |].
  - by destruct (common_prefix partial pre =? length pre); [apply IH|left].
  - destruct partial as [|x partial]; [by left|]. destruct (x =? 16); [by left|].
    destruct (cs !! x) as [c|]; [apply IH|by left].
  - destruct (recover_sub h) as [->|(-> & H1 & H2)].
    + destruct (recover_from_db d h) as [[n'|]| | |]; cbn [rbind]; [|by left..].
      destruct (IH n' idx) as [->|H]; [by left|right]. by apply met_bind.
    + right. cbn [rbind]. exists h, None. done.
Qed.
Lemma insert_at_loss path v : forall f pk n idx,
  insert_at f d' rh pk n path idx v = insert_at f d rh pk n path idx v \/ met path (insert_at f d' rh pk n path idx v).2.
Proof.
  induction f as [|f IH]; intros pk n idx; [by left|]. cbn [insert_at].
  destruct (offset path idx) as [partial| | |] eqn:Eo; [cbn [ubind]|by left..].
  destruct n as [|k x|pre c|cs x|h]; [by left..| | |].
  - destruct (common_prefix partial pre =? 0).
    { destruct (try! x := at_ pre 0 in try! o := offset pre 1 in
        branch_insert no_children None x (if length pre =? 1 then c else NExt o c)) as [b| | |]; cbn [ubind]; [apply IH|by left..]. }
    destruct (common_prefix partial pre =? length pre).
    + destruct (IH pk c (idx + common_prefix partial pre)) as [->|H]; [by left|right]. by apply met_ubind.
    + destruct (offset pre (common_prefix partial pre)) as [o| | |]; cbn [ubind]; [|by left..].
      destruct (IH pk (NExt o c) (idx + common_prefix partial pre)) as [->|H]; [by left|right]. by apply met_ubind.
  - destruct partial as [|y partial]; [by left|]. destruct (y =? 16); [by left|].
    destruct (cs !! y) as [c|]; [|by left]. destruct (IH pk c (idx + 1)) as [->|H]; [by left|right]. by apply met_ubind.
  - destruct (recover_sub h) as [->|(-> & H1 & H2)].
    + destruct (recover_from_db d h) as [[n'|]| | |]; cbn [ubind]; [apply IH|by left..].
    + right. cbn [ubind snd]. by eapply met_slice.
Qed.
Lemma degenerate_loss path : forall f pk n,
  degenerate f d' rh pk n = degenerate f d rh pk n \/ met path (degenerate f d' rh pk n).2.
Proof.
  induction f as [|f IH]; intros pk n; [by left|]. cbn [degenerate].
  destruct n as [|k x|pre c|cs x|h]; [by left..| | |by left].
  - destruct c as [|k x|pre' c|cs x|h]; [by left|by left|apply IH|by left|].
    destruct (recover_sub h) as [->|(-> & H1 & H2)].
    + destruct (recover_from_db d h) as [[n'|]| | |]; cbn [ubind]; [apply IH|by left..].
    + right. cbn [ubind snd]. exists h, None. done.
  - destruct (used_indices cs) as [|i [|? ?]]; [by left| |by left]. destruct x; [by left|].
    destruct (cs !! i); [apply IH|by left].
Qed.
Lemma delete_at_loss path : forall f pk n idx,
  delete_at f d' rh pk n path idx = delete_at f d rh pk n path idx \/ met path (delete_at f d' rh pk n path idx).2.
Proof.
  induction f as [|f IH]; intros pk n idx; [by left|]. cbn [delete_at].
  destruct (offset path idx) as [partial| | |] eqn:Eo; [cbn [ubind]|by left..]. cbv zeta.
  assert (forall x : upd (node * bool),
    let fin e := ubind x (fun pk nd => if nd.2 then ubind (degenerate f e rh pk nd.1) (fun pk n' => (pk, Ok (n', true)))
      else (pk, Ok nd)) in fin d' = fin d \/ met path (fin d').2) as Hfin.
  { intros [pk1 [[n1 b]| | |]]; cbv zeta; cbn [ubind snd]; [|by left..]. destruct b; cbn [fst]; [|by left].
    destruct (degenerate_loss path f pk1 n1) as [->|H]; [by left|right]. by apply met_ubind. }
  assert (forall x x' : upd (node * bool), x' = x \/ met path x'.2 ->
    let fin e (y : upd (node * bool)) := ubind y (fun pk nd => if nd.2 then ubind (degenerate f e rh pk nd.1) (fun pk n' => (pk, Ok (n', true)))
      else (pk, Ok nd)) in fin d' x' = fin d x \/ met path (fin d' x').2) as Hfin2.
  { intros x x' [->|H]; [apply Hfin|right]. by apply met_ubind. }
  destruct n as [|k x|pre c|cs x|h].
  - apply (Hfin (pk, Ok (NEmpty, false))).
  - destruct (decide (k = partial)); [by left|]. apply (Hfin (pk, Ok (NLeaf k x, false))).
  - destruct (common_prefix partial pre =? length pre); [|apply (Hfin (pk, Ok (NExt pre c, false)))].
    apply Hfin2. destruct (IH pk c (idx + common_prefix partial pre)) as [->|H]; [by left|right]. by apply met_ubind.
  - destruct partial as [|y partial]; [by left|]. destruct (y =? 16); [by left|].
    destruct (cs !! y) as [c|]; [|by left].
    apply Hfin2. destruct (IH pk c (idx + 1)) as [->|H]; [by left|right]. by apply met_ubind.
  - destruct (recover_sub h) as [->|(-> & H1 & H2)].
    + destruct (recover_from_db d h) as [[n'|]| | |]; cbn [ubind]; [apply Hfin2, IH|by left..].
    + right. cbn [ubind snd]. by eapply met_slice.
Qed.
End Loss.

(** * C73: over a database that has lost entries, every call does what it does
    over the full one, or fails, names a lost entry, the root and the key, and
    leaves the trie's contents alone.  For every trie and every pair of
    databases. *)
Definition names_loss {A} (d d' : db) (rh : bytes) (k : bytes) (r : tres A) : Prop :=
  exists h tr, r = Err (MissingTrieNode h tr (Some rh) (Some k)) /\ db_get d' h = None /\ is_Some (db_get d h) /\
    forall p, tr = Some p -> p `prefix_of` from_raw k true.
Definition same_contents (t t' : trie) : Prop :=
  t_root t' = t_root t /\ t_root_hash t' = t_root_hash t /\ t_cache t' = t_cache t /\ t_gen t' = t_gen t.
Lemma met_names {A} d d' rh k (r : tres A) : met d d' rh (from_raw k true) r -> names_loss d d' rh k (with_key k r).
Proof. intros (h & tr & -> & H). by exists h, tr. Qed.

Theorem C73_get d d' t k f : lost_entries d d' ->
  get f d' t k = get f d t k \/ names_loss d d' (t_root_hash t) k (get f d' t k).
Proof.
  intros Hd. unfold get. destruct (get_at_loss d d' (t_root_hash t) Hd (from_raw k true) f (t_root t) 0) as [->|H]; [by left|].
  right. by apply met_names.
Qed.
Theorem C73_insert d d' t k x f : lost_entries d d' ->
  insert f d' t k x = insert f d t k x \/
  (names_loss d d' (t_root_hash t) k (insert f d' t k x).2 /\ same_contents t (insert f d' t k x).1).
Proof.
  intros Hd. unfold insert. destruct x as [|b x]; [by left|].
  destruct (insert_at_loss d d' (t_root_hash t) Hd (from_raw k true) (b :: x) f (t_passing t) (t_root t) 0) as [->|H]; [by left|].
  right. destruct (insert_at f d' _ _ _ _ _ _) as [pk r]. cbn [snd] in H. destruct H as (h & tr & -> & H). cbn [with_key fst snd].
  split; [by exists h, tr|done].
Qed.
Theorem C73_remove d d' t k f : lost_entries d d' ->
  remove f d' t k = remove f d t k \/
  (names_loss d d' (t_root_hash t) k (remove f d' t k).2 /\ same_contents t (remove f d' t k).1).
Proof.
  intros Hd. unfold remove.
  destruct (delete_at_loss d d' (t_root_hash t) Hd (from_raw k true) f (t_passing t) (t_root t) 0) as [->|H]; [by left|].
  right. destruct (delete_at f d' _ _ _ _ _) as [pk r]. cbn [snd] in H. destruct H as (h & tr & -> & H). cbn [with_key fst snd].
  split; [by exists h, tr|done].
Qed.
Theorem C73_get_proof keccak d d' t k f : lost_entries d d' ->
  get_proof keccak f d' t k = get_proof keccak f d t k \/
  (names_loss d d' (t_root_hash t) k (get_proof keccak f d' t k).2 /\ (get_proof keccak f d' t k).1 = t).
Proof.
  intros Hd. unfold get_proof.
  destruct (get_path_loss d d' (t_root_hash t) Hd (from_raw k true) f (t_root t) 0) as [->|H]; [by left|].
  right. destruct H as (h & tr & -> & H). cbn [with_key fst snd]. split; [by exists h, tr|done].
Qed.
(** [contains] does not name the key. *)
Theorem C73_contains d d' t k f : lost_entries d d' ->
  contains f d' t k = contains f d t k \/
  exists h tr, contains f d' t k = Err (MissingTrieNode h tr (Some (t_root_hash t)) None) /\ db_get d' h = None.
Proof.
  intros Hd. unfold contains.
  destruct (get_at_loss d d' (t_root_hash t) Hd (from_raw k true) f (t_root t) 0) as [->|H]; [by left|].
  right. destruct H as (h & tr & -> & H & _). by exists h, tr.
Qed.

Lemma delete_sub l h d : lost_entries d (Db l (delete h (storage d))).
Proof. intros h' e H. unfold db_get in *. cbn [storage] in H. by apply lookup_delete_Some in H as [_ H]. Qed.
(** A world and a database without the entry of the committed leaf of [k1]: the
    calls on [k1] fail, the removal of its sibling [k2] fails while the branch
    is collapsed, and the other calls go on. *)
Definition loss_ops : list op :=
  [OAct 0 (AInsert k1 (v40 5)); OAct 0 (AInsert k2 (v40 6)); OAct 0 (AInsert k3 (hexs [9]%N)); OAct 0 ACommit].
Definition loss_world : world := (run keccak256 0 (world0 keccak256) loss_ops).2.
Definition loss_view : trie := default (new_trie keccak256) (w_views loss_world !! 0).
Definition lost_hash : bytes := default [] (fst <$> map_to_list (storage (w_db loss_world)) !! 5).
Definition loss_db : db := Db false (delete lost_hash (storage (w_db loss_world))).
Lemma loss_sub : lost_entries (w_db loss_world) loss_db.
Proof. exact (delete_sub false lost_hash (w_db loss_world)). Qed.
Definition named {A} (r : tres A) (h : bytes) (tr : option hex) (rh k : bytes) : bool :=
  match r with
  | Err (MissingTrieNode h' tr' (Some rh') (Some k')) =>
      bool_decide (h' = h) && bool_decide (tr' = tr) && bool_decide (rh' = rh) && bool_decide (k' = k)
  | _ => false
  end.
Lemma named_eq {A} (r : tres A) h tr rh k : named r h tr rh k = true -> r = Err (MissingTrieNode h tr (Some rh) (Some k)).
Proof.
  destruct r as [|e| |]; [done| |done..]. destruct e; try done. cbn [named]. intros H. destruct root_hash, err_key; try done.
  apply andb_prop in H as [H H4]. apply andb_prop in H as [H H3]. apply andb_prop in H as [H1 H2].
  apply bool_decide_eq_true in H1, H2, H3, H4. by subst.
Qed.
Definition okb {A} (r : tres A) : bool := match r with Ok _ => true | _ => false end.
Example C73_example :
  w_views loss_world !! 0 = Some loss_view /\ lost_entries (w_db loss_world) loss_db /\
  get 100 (w_db loss_world) loss_view k1 = Ok (Some (v40 5)) /\
  get 100 loss_db loss_view k1 = Err (MissingTrieNode lost_hash (Some [0; 1; 0; 2; 0]) (Some (t_root_hash loss_view)) (Some k1)) /\
  get 100 loss_db loss_view k2 = Ok (Some (v40 6)) /\
  (insert 100 loss_db loss_view k1 (v40 7)).2 =
    Err (MissingTrieNode lost_hash (Some [0; 1; 0; 2; 0]) (Some (t_root_hash loss_view)) (Some k1)) /\
  okb (insert 100 loss_db loss_view k2 (v40 7)).2 = true /\
  (remove 100 loss_db loss_view k2).2 = Err (MissingTrieNode lost_hash None (Some (t_root_hash loss_view)) (Some k2)) /\
  (get_proof keccak256 100 loss_db loss_view k1).2 =
    Err (MissingTrieNode lost_hash None (Some (t_root_hash loss_view)) (Some k1)) /\
  okb (get_proof keccak256 100 loss_db loss_view k2).2 = true.
Proof.
  split; [vm_compute; reflexivity|]. split; [exact loss_sub|]. split; [vm_compute; reflexivity|].
  split; [apply named_eq; vm_compute; reflexivity|]. split; [vm_compute; reflexivity|].
  split; [apply named_eq; vm_compute; reflexivity|]. split; [vm_compute; reflexivity|].
  split; [apply named_eq; vm_compute; reflexivity|]. split; [apply named_eq; vm_compute; reflexivity|].
  vm_compute; reflexivity.
Qed.
(** So the claim that every call names the key is false: [contains] leaves it out. *)
Theorem C73_contains_key_refuted : exists d d' t k f h tr rh, lost_entries d d' /\
  contains f d t k = Ok true /\ contains f d' t k = Err (MissingTrieNode h tr rh None).
Proof.
  destruct (C73_contains (w_db loss_world) loss_db loss_view k1 100 loss_sub) as [E|(h & tr & E & _)].
  - exfalso. pose proof (f_equal okb E) as F.
    vm_compute in F. discriminate F.
  - exists (w_db loss_world), loss_db, loss_view, k1, 100, h, tr, (Some (t_root_hash loss_view)).
    split; [exact loss_sub|]. split; [vm_compute; reflexivity|exact E].
Qed.
Print Assumptions C73_get.
Print Assumptions C73_insert.
Print Assumptions C73_remove.
Print Assumptions C73_get_proof.
Print Assumptions C73_contains.
Print Assumptions C73_contains_key_refuted.
