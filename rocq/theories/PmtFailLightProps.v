(** C94: failed commits over any database, pruning or not. *)
From Verif Require Import Base PmtNibblesModel RlpModel PmtModel PmtFailModel PmtRunSpec KeccakModel
  PmtNibblesProof RlpProof PmtSpec PmtEncProof PmtLookupProof PmtOpsProof PmtDeleteProof PmtCommitProof PmtRunProof
  PmtStepProof PmtPropProof PmtExamples PmtFailProps.
Open Scope res_scope.

Section hash.
  Context (keccak : bytes -> bytes).

  (** Encoding adds the same keys and gives the same result in every state. *)
  Definition uniform {A} (f : wst -> wst * tres A) : Prop :=
    exists (G : gset bytes) (r : tres A), forall c g, exists c', f (c, g) = ((c', g ∪ G), r).
  Lemma uniform_ret {A} (r : tres A) : uniform (fun w => (w, r)).
  Proof using. exists ∅, r. intros c g. exists c. by rewrite (right_id_L ∅ (∪)). Qed.
  Lemma uniform_post {A B} (f : wst -> wst * tres A) (k : tres A -> tres B) : uniform f ->
    uniform (fun w => let '(w, r) := f w in (w, k r)).
  Proof using. intros (G & r & H). exists G, (k r). intros c g. destruct (H c g) as [c' ->]. by exists c'. Qed.
  Lemma write_uniform f n : uniform f -> uniform (write_with keccak f n).
  Proof using.
    intros (G & r & H). assert (Hc : (exists h, n = NHash h) \/ forall h, n <> NHash h) by (destruct n; eauto; by right).
    destruct Hc as [[h ->]|Hn]; [apply (uniform_ret (Ok (EHash h)))|].
    assert (E : forall w, write_with keccak f n w = (let '(w, r) := f w in
        match r with
        | Ok data =>
            if length data <? 32 then (w, Ok (EInline data))
            else ((<[keccak data := data]> w.1, {[keccak data]} ∪ w.2), Ok (EHash (keccak data)))
        | Err e => (w, Err e)
        | Panic => (w, Panic)
        | OutOfFuel => (w, OutOfFuel)
        end)).
    { intros w. destruct n; try done. by edestruct Hn. }
    destruct r as [data|e| |].
    - destruct (length data <? 32) eqn:El.
      + exists G, (Ok (EInline data)). intros c g. rewrite E. destruct (H c g) as [c' ->]. rewrite El. by exists c'.
      + exists (G ∪ {[keccak data]}), (Ok (EHash (keccak data))). intros c g. rewrite E. destruct (H c g) as [c' ->]. rewrite El.
        exists (<[keccak data := data]> c'). cbn [fst snd]. do 2 f_equal. set_solver.
    - exists G, (Err e). intros c g. rewrite E. destruct (H c g) as [c' ->]. by exists c'.
    - exists G, Panic. intros c g. rewrite E. destruct (H c g) as [c' ->]. by exists c'.
    - exists G, OutOfFuel. intros c g. rewrite E. destruct (H c g) as [c' ->]. by exists c'.
  Qed.
  Lemma encode_uniform n : uniform (encode_raw keccak n).
  Proof using.
    induction n as [|k v|p n IH|cs v IH|h] using node_ind'.
    - apply (uniform_ret (Ok null_rlp)).
    - apply (uniform_ret (try! c := encode_compact k in Ok (rlp_list [rlp_str c; rlp_str v]))).
    - cbn [encode_raw]. destruct (encode_compact p) as [cp|e| |]; [|apply uniform_ret..].
      apply (uniform_post (write_with keccak (encode_raw keccak n) n) (fun r => try! e := r in Ok (rlp_list [rlp_str cp; enc_item e]))).
      by apply write_uniform.
    - cbn [encode_raw].
      set (go := fix go (cs : list node) (w : wst) : wst * tres (list bytes) :=
        match cs with
        | [] => (w, Ok [])
        | c :: cs' =>
            let '(w, r) := write_with keccak (encode_raw keccak c) c w in
            match r with
            | Ok e => let '(w, rs) := go cs' w in (w, try! l := rs in Ok (enc_item e :: l))
            | Err e => (w, Err e)
            | Panic => (w, Panic)
            | OutOfFuel => (w, OutOfFuel)
            end
        end).
      apply (uniform_post (go cs) (fun r => try! items := r in
            Ok (rlp_list (items ++ [match v with Some v => rlp_str v | None => null_rlp end])))).
      induction IH as [|n cs Hn _ IH]; [apply (uniform_ret (Ok []))|].
      apply (write_uniform _ n) in Hn as (G & r & H). destruct IH as (G' & r' & H'). cbn [go]. fold go.
      destruct r as [e|e| |].
      + exists (G ∪ G'), (try! l := r' in Ok (enc_item e :: l)). intros c g. destruct (H c g) as [c1 ->].
        destruct (H' c1 (g ∪ G)) as [c2 ->]. exists c2. by rewrite (assoc_L (∪)).
      + exists G, (Err e). intros c g. destruct (H c g) as [c1 ->]. by exists c1.
      + exists G, Panic. intros c g. destruct (H c g) as [c1 ->]. by exists c1.
      + exists G, OutOfFuel. intros c g. destruct (H c g) as [c1 ->]. by exists c1.
    - apply (uniform_ret Panic).
  Qed.
  Lemma write_node_uniform n : uniform (write_node keccak n).
  Proof using. apply write_uniform, encode_uniform. Qed.
End hash.

Lemma remove_batch_get d ks h : light (db_remove_batch d ks) = light d /\
  db_get (db_remove_batch d ks) h = if light d && bool_decide (h ∈ ks) then None else db_get d h.
Proof.
  revert d. induction ks as [|k ks IH]; intros d.
  - cbn. split; [done|]. by rewrite andb_false_r.
  - cbn [db_remove_batch fold_left]. destruct (IH (db_remove d k)) as [E1 E2].
    change (fold_left db_remove ks (db_remove d k)) with (db_remove_batch (db_remove d k) ks).
    assert (El : light (db_remove d k) = light d) by (unfold db_remove; by destruct (light d) eqn:E).
    rewrite E1, E2, El. split; [done|]. unfold db_remove. destruct (light d) eqn:E; [|done]. cbn [andb].
    destruct (decide (h = k)) as [->|Hk].
    + rewrite (bool_decide_eq_true_2 (k ∈ k :: ks)) by left. case_bool_decide; [done|]. apply lookup_delete.
    + rewrite (bool_decide_ext (h ∈ k :: ks) (h ∈ ks)) by (rewrite elem_of_cons; tauto).
      case_bool_decide; [done|]. by apply lookup_delete_ne.
Qed.
Lemma insert_batch_some d kvs h : light (db_insert_batch d kvs) = light d /\
  (is_Some (db_get d h) -> is_Some (db_get (db_insert_batch d kvs) h)).
Proof.
  revert d. induction kvs as [|[k v] kvs IH]; intros d; [done|]. cbn [db_insert_batch fold_left].
  destruct (IH (db_insert d k v)) as [E1 E2]. split; [exact E1|]. intros H. apply E2. unfold db_get, db_insert. cbn [storage].
  destruct (decide (h = k)) as [->|]; [rewrite lookup_insert; eauto|by rewrite lookup_insert_ne].
Qed.
Lemma insert_batch_other d kvs h : h ∉ kvs.*1 -> db_get (db_insert_batch d kvs) h = db_get d h.
Proof.
  revert d. induction kvs as [|[k v] kvs IH]; intros d H; [done|]. cbn [db_insert_batch fold_left].
  apply not_elem_of_cons in H as [H1 H2]. etrans; [by apply IH|]. by apply lookup_insert_ne.
Qed.

(** What a commit whose encoding succeeds does to an entry. *)
Lemma commit_entry keccak d t cache gen e h : write_node keccak (t_root t) (t_cache t, t_gen t) = ((cache, gen), Ok e) ->
  is_Some (db_get d h) ->
  db_get (commit keccak d t).1.1 h = None <-> light d = true /\ h ∈ t_passing t /\ h ∉ gen.
Proof.
  intros E Hh. unfold commit. rewrite E.
  destruct (match e with EHash h => (h, cache) | EInline data => (keccak data, <[keccak data := data]> cache) end) as [rh cache'].
  set (d1 := db_insert_batch d (map_to_list cache')). set (rm := filter (fun h => h ∉ gen) (elements (t_passing t))).
  assert (Ed : (match recover_from_db (db_remove_batch d1 rm) rh with
    | Ok (Some n) => (db_remove_batch d1 rm, Trie n rh ∅ ∅ ∅, Ok rh)
    | Ok None => (db_remove_batch d1 rm, Trie (t_root t) rh ∅ ∅ ∅, Panic)
    | Err e => (db_remove_batch d1 rm, Trie (t_root t) rh ∅ ∅ ∅, Err e)
    | Panic => (db_remove_batch d1 rm, Trie (t_root t) rh ∅ ∅ ∅, Panic)
    | OutOfFuel => (db_remove_batch d1 rm, Trie (t_root t) rh ∅ ∅ ∅, OutOfFuel)
    end).1.1 = db_remove_batch d1 rm) by (by destruct (recover_from_db _ _) as [[]| | |]).
  rewrite Ed. destruct (remove_batch_get d1 rm h) as [_ ->].
  destruct (insert_batch_some d (map_to_list cache') h) as [El Hs]. fold d1 in El, Hs. rewrite El.
  assert (Hrm : h ∈ rm <-> h ∈ t_passing t /\ h ∉ gen).
  { unfold rm. rewrite elem_of_list_filter, elem_of_elements. tauto. }
  destruct (light d); cbn [andb]; [|split; [intros F; destruct (Hs Hh); congruence|by intros [? _]]].
  case_bool_decide as Hin; [tauto|]. split; [intros F; destruct (Hs Hh); congruence|tauto].
Qed.

(** A key it removes is gone, present before or not. *)
Lemma commit_gone keccak d t cache gen e h : write_node keccak (t_root t) (t_cache t, t_gen t) = ((cache, gen), Ok e) ->
  light d = true -> h ∈ filter (fun h => h ∉ gen) (elements (t_passing t)) -> db_get (commit keccak d t).1.1 h = None.
Proof.
  intros E Hl Hh. unfold commit. rewrite E.
  destruct (match e with EHash h => (h, cache) | EInline data => (keccak data, <[keccak data := data]> cache) end) as [rh cache'].
  set (d1 := db_insert_batch d (map_to_list cache')). set (rm := filter (fun h => h ∉ gen) (elements (t_passing t))) in *.
  transitivity (db_get (db_remove_batch d1 rm) h); [by destruct (recover_from_db _ _) as [[]| | |]|].
  destruct (remove_batch_get d1 rm h) as [_ ->]. unfold d1. rewrite (proj1 (insert_batch_some d _ h)), Hl.
  by rewrite bool_decide_eq_true_2.
Qed.

(** * C94: a commit that fails while entries are written removes nothing,
    and the commit tried again removes exactly the entries that the first one
    would have removed.  For every trie and every database, pruning or not. *)
Theorem C94_nothing_removed keccak order n d t h e : n <= length order -> db_get d h = Some e ->
  db_get (commit_failing keccak order n d t).1 h = Some e \/
  (h ∈ order.*1 /\ is_Some (db_get (commit_failing keccak order n d t).1 h)).
Proof.
  intros Hn Hh. unfold commit_failing. cbn [fst]. replace (n - length order) with 0 by lia. rewrite take_0. change (db_remove_batch ?x []) with x.
  destruct (decide (h ∈ order.*1)) as [Hin|Hout].
  - right. split; [done|]. apply insert_batch_some. eauto.
  - left. rewrite insert_batch_other; [done|]. intros Hin. apply Hout. rewrite fmap_take in Hin.
    rewrite <- (take_drop n order.*1). apply elem_of_app. by left.
Qed.
Theorem C94_retry_removes_the_same keccak order n d t h d2 t2 r : commit keccak d t = (d2, t2, Ok r) ->
  is_Some (db_get d h) ->
  let '(d1, t1) := commit_failing keccak order n d t in
  db_get (commit keccak d1 t1).1.1 h = None <-> db_get d2 h = None.
Proof.
  intros E Hh. destruct (write_node_uniform keccak (t_root t)) as (G & r0 & HG).
  destruct (HG (t_cache t) (t_gen t)) as [c1 E1].
  assert (exists x, r0 = Ok x) as [x ->].
  { unfold commit in E. rewrite E1 in E. destruct r0; [eauto|discriminate..]. }
  assert (Ed : d2 = (commit keccak d t).1.1) by (by rewrite E). rewrite Ed.
  unfold commit_failing. rewrite E1. cbn [fst snd].
  rewrite (commit_entry keccak d t c1 (t_gen t ∪ G) x h E1 Hh).
  set (gen := t_gen t ∪ G). set (rm := filter (fun h => h ∉ gen) (elements (t_passing t))).
  set (t1 := Trie (t_root t) (t_root_hash t) ∅ (t_passing t) gen).
  destruct (HG ∅ gen) as [c2 E2]. replace (gen ∪ G) with gen in E2 by (unfold gen; set_solver).
  set (di := db_insert_batch d (take n order)). set (d1 := db_remove_batch di (take (n - length order) rm)).
  destruct (insert_batch_some d (take n order) h) as [Eli Hsi]. fold di in Eli, Hsi.
  destruct (remove_batch_get di (take (n - length order) rm) h) as [El1 Eg1]. fold d1 in El1, Eg1.
  destruct (db_get d1 h) as [e|] eqn:E1h.
  - rewrite (commit_entry keccak d1 t1 c2 gen x h E2 ltac:(eauto)). by rewrite El1, Eli.
  - assert (Hrm : light di = true /\ h ∈ rm).
    { destruct (light di); cbn [andb] in Eg1; [|destruct (Hsi Hh); congruence].
      case_bool_decide as Hin; [|destruct (Hsi Hh); congruence]. split; [done|].
      rewrite <- (take_drop (n - length order) rm). apply elem_of_app. by left. }
    destruct Hrm as [Hl Hrm]. split.
    + intros _. unfold rm in Hrm. rewrite elem_of_list_filter, elem_of_elements in Hrm. rewrite <- Eli. tauto.
    + intros _. eapply commit_gone; [exact E2| |]; [by rewrite El1|]. exact Hrm.
Qed.

(** A pruning database, a commit, an overwriting insertion, and a commit cut at
    its second entry or at its second removal. *)
Definition lf_world : world := light_world pruned_ops.
Definition lf_view : trie := default (new_trie keccak256) (w_views lf_world !! 0).
Definition lf_order : list (bytes * bytes) := map_to_list (pending keccak256 lf_view).
Definition count_gone (d d' : db) : nat :=
  length (filter (fun kv => db_get d' kv.1 = None) (map_to_list (storage d))).
Definition okc (x : db * trie * tres bytes) : bool := match x.2 with Ok _ => true | _ => false end.
Example C94_example : w_views lf_world !! 0 = Some lf_view /\ light (w_db lf_world) = true /\
  length lf_order = 3 /\ okc (commit keccak256 (w_db lf_world) lf_view) = true /\
  count_gone (w_db lf_world) (commit keccak256 (w_db lf_world) lf_view).1.1 = 2 /\
  count_gone (w_db lf_world) (commit_failing keccak256 lf_order 1 (w_db lf_world) lf_view).1 = 0 /\
  count_gone (w_db lf_world) (commit_failing keccak256 lf_order 4 (w_db lf_world) lf_view).1 = 1 /\
  (let '(d1, t1) := commit_failing keccak256 lf_order 1 (w_db lf_world) lf_view in
   count_gone (w_db lf_world) (commit keccak256 d1 t1).1.1) = 2.
Proof. repeat split; vm_compute; reflexivity. Qed.
Print Assumptions C94_nothing_removed.
Print Assumptions C94_retry_removes_the_same.
