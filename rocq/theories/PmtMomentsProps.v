(** Calls of Patricia tries while other threads write (C103). *)
From Verif Require Import Base KeccakModel PmtNibblesModel RlpModel PmtModel PmtFailModel PmtRunSpec PmtNibblesProof RlpProof PmtSpec
  PmtEncProof PmtLookupProof PmtOpsProof PmtDeleteProof PmtCommitProof PmtRunProof PmtStepProof PmtPropProof PmtExamples
  PmtProofProof PmtFailProps PmtCloneModel PmtCloneProps PmtThreadsModel PmtThreadsProps PmtMomentsModel.

Lemma ubind_ok {A B} (x : upd A) (f : gset bytes -> A -> upd B) pk b : ubind x f = (pk, Ok b) ->
  exists pk1 a, x = (pk1, Ok a) /\ f pk1 a = (pk, Ok b).
Proof. destruct x as [pk1 [a|e| |]]; cbn; try discriminate. eauto. Qed.
Lemma recover_mono d d' h n : storage d ⊆ storage d' -> recover_from_db d h = Ok (Some n) -> recover_from_db d' h = Ok (Some n).
Proof.
  unfold recover_from_db, db_get. intros Hs. destruct (storage d !! h) as [b|] eqn:E; [|discriminate].
  by rewrite (lookup_weaken _ _ _ _ E Hs).
Qed.

Section live.
  Context (d : db) (ds : nat -> nat -> db) (Hs : forall a b, storage d ⊆ storage (ds a b)).

  Lemma get_at_moments rh path r : forall f n idx, get_at f d rh n path idx = Ok r -> get_at_live f ds rh n path idx = Ok r.
  Proof using Hs.
    induction f as [|f IH]; intros n idx; [discriminate|]. cbn [get_at get_at_live].
    destruct (offset path idx) as [partial|e| |]; cbn [rbind]; try discriminate.
    destruct n as [|k v|prefix c|cs v|h]; try done.
    - destruct (common_prefix partial prefix =? length prefix); [apply IH|done].
    - destruct partial as [|x p]; [done|]. destruct (x =? 16); [done|]. destruct (cs !! x); [apply IH|done].
    - destruct (recover_from_db d h) as [[n'|]|e| |] eqn:E; cbn [rbind]; try discriminate.
      + rewrite (recover_mono _ _ _ _ (Hs f 0) E). cbn [rbind]. apply IH.
      + destruct (slice path 0 idx); discriminate.
  Qed.
  Lemma get_path_at_moments rh path : forall f n idx r, get_path_at f d rh n path idx = Ok r -> get_path_at_live f ds rh n path idx = Ok r.
  Proof using Hs.
    induction f as [|f IH]; intros n idx r; [discriminate|]. cbn [get_path_at get_path_at_live].
    destruct (offset path idx) as [partial|e| |]; cbn [rbind]; try discriminate.
    destruct n as [|k v|prefix c|cs v|h]; try done.
    - destruct (common_prefix partial prefix =? length prefix); [apply IH|done].
    - destruct partial as [|x p]; [done|]. destruct (x =? 16); [done|]. destruct (cs !! x); [apply IH|done].
    - destruct (recover_from_db d h) as [[n'|]|e| |] eqn:E; cbn [rbind]; try discriminate.
      rewrite (recover_mono _ _ _ _ (Hs f 0) E). cbn [rbind].
      destruct (get_path_at f d rh n' path idx) as [l|e| |] eqn:El; cbn [rbind]; try discriminate.
      by rewrite (IH _ _ _ El).
  Qed.
  Lemma insert_at_moments rh path value : forall f n idx pk pk' r, insert_at f d rh pk n path idx value = (pk', Ok r) ->
    insert_at_live f ds rh pk n path idx value = (pk', Ok r).
  Proof using Hs.
    induction f as [|f IH]; intros n idx pk pk' r; [discriminate|]. cbn [insert_at insert_at_live].
    destruct (offset path idx) as [partial|e| |]; cbn [ubind]; try discriminate.
    destruct n as [|k v|prefix c|cs v|h]; try done.
    - destruct (common_prefix partial prefix =? 0).
      + match goal with |- match ?e with Ok _ => _ | _ => _ end = _ -> _ => destruct e; try discriminate end. apply IH.
      + destruct (common_prefix partial prefix =? length prefix).
        * intros H. apply ubind_ok in H as (pk1 & b & E & H). by rewrite (IH _ _ _ _ _ E).
        * destruct (offset prefix _) as [o|e| |]; cbn [ubind]; try discriminate. intros H.
          apply ubind_ok in H as (pk2 & b2 & E2 & H). by rewrite (IH _ _ _ _ _ E2).
    - destruct partial as [|x p]; [done|]. destruct (x =? 16); [done|]. destruct (cs !! x); [|done].
      intros H. apply ubind_ok in H as (pk1 & b & E & H). by rewrite (IH _ _ _ _ _ E).
    - destruct (recover_from_db d h) as [[n'|]|e| |] eqn:E; cbn [ubind]; try discriminate.
      + rewrite (recover_mono _ _ _ _ (Hs f 0) E). cbn [ubind]. apply IH.
      + destruct (slice path 0 idx); discriminate.
  Qed.
End live.
Lemma degenerate_moments d ds rh : (forall a, storage d ⊆ storage (ds a)) -> forall f n pk pk' r,
  degenerate f d rh pk n = (pk', Ok r) -> degenerate_live f ds rh pk n = (pk', Ok r).
Proof.
  intros Hs. induction f as [|f IH]; intros n pk pk' r; [discriminate|]. cbn [degenerate degenerate_live].
  destruct n as [|k v|prefix c|cs v|h]; try done.
  - destruct c as [|k v|sp c'|cs v|h]; try done; [apply IH|].
    destruct (recover_from_db d h) as [[n'|]|e| |] eqn:E; cbn [ubind]; try discriminate.
    rewrite (recover_mono _ _ _ _ (Hs f) E). cbn [ubind]. apply IH.
  - destruct (used_indices cs) as [|i [|j l]], v; try done. destruct (cs !! i); [apply IH|done].
Qed.
Lemma delete_at_moments d ds rh path : (forall a b, storage d ⊆ storage (ds a b)) -> forall f n idx pk pk' r,
  delete_at f d rh pk n path idx = (pk', Ok r) -> delete_at_live f ds rh pk n path idx = (pk', Ok r).
Proof.
  intros Hs. induction f as [|f IH]; intros n idx pk pk' r; [discriminate|]. cbn [delete_at delete_at_live].
  destruct (offset path idx) as [partial|e| |]; cbn [ubind]; try discriminate.
  assert (Hfin : forall (x y : upd (node * bool)) pk' r, (forall pk1 a, x = (pk1, Ok a) -> y = (pk1, Ok a)) ->
    ubind x (fun pk nd => if nd.2 then ubind (degenerate f d rh pk nd.1) (fun pk n' => (pk, Ok (n', true))) else (pk, Ok nd)) = (pk', Ok r) ->
    ubind y (fun pk nd => if nd.2 then ubind (degenerate_live f (fun b => ds f (S b)) rh pk nd.1) (fun pk n' => (pk, Ok (n', true))) else (pk, Ok nd)) = (pk', Ok r)).
  { intros x y pk2 r2 Hxy H. apply ubind_ok in H as (pk1 & [n1 b1] & E & H). rewrite (Hxy _ _ E). cbn [ubind fst snd] in *.
    destruct b1; [|done]. apply ubind_ok in H as (pk3 & n3 & E3 & H).
    by rewrite (degenerate_moments d _ rh (fun b => Hs f (S b)) _ _ _ _ _ E3). }
  destruct n as [|k v|prefix c|cs v|h].
  - done.
  - by destruct (decide (k = partial)).
  - destruct (common_prefix partial prefix =? length prefix); [|done].
    apply Hfin. intros pk1 a H. apply ubind_ok in H as (pk3 & b & E & H). by rewrite (IH _ _ _ _ _ E).
  - destruct partial as [|x p]; [done|]. destruct (x =? 16); [done|]. destruct (cs !! x); [|done].
    apply Hfin. intros pk1 a H. apply ubind_ok in H as (pk3 & b & E & H). by rewrite (IH _ _ _ _ _ E).
  - destruct (recover_from_db d h) as [[n'|]|e| |] eqn:E; cbn [ubind]; try discriminate.
    + rewrite (recover_mono _ _ _ _ (Hs f 0) E). cbn [ubind]. apply Hfin. intros pk1 a. apply IH.
    + destruct (slice path 0 idx); discriminate.
Qed.

Section hash.
  Context (keccak : bytes -> bytes) (Hk : forall x, length (keccak x) = 32).

  (** An archive database only grows. *)
  Lemma estep_grows x s sp e : tinv keccak s sp -> enabled s e -> inj_on keccak (w_trace (th_world (estep keccak x s e).2)) ->
    storage (w_db (th_world s)) ⊆ storage (w_db (th_world (estep keccak x s e).2)).
  Proof using.
    intros [Hinv Hb] Hen Hi. destruct e as [o|i|i k|i]; cbn [estep] in *.
    - destruct (call_frame keccak x (th_world s) o) as [Hdb _]. { intros i ->. by destruct Hen. }
      destruct (cstep keccak x (th_world s) o). cbn [snd th_world] in *. rewrite Hdb. reflexivity.
    - destruct (w_views (th_world s) !! i); reflexivity.
    - destruct Hen as (rest & Hl & [e He]). rewrite Hl in Hi |- *. rewrite He in Hi |- *. cbn [snd th_world w_trace w_db db_insert storage] in *.
      destruct (Hb i rest Hl) as (v & Hv & A & B & C & D). destruct (A k e) as [Ek Ein]; [by eapply lookup_weaken|].
      destruct Hinv as [_ Hd _ _]. apply map_subseteq_spec. intros h e' He'. destruct (decide (k = h)) as [<-|Hne].
      + rewrite lookup_insert. f_equal. destruct (Hd k e' He') as [E1 E2]. apply Hi; [done|done|congruence].
      + by rewrite lookup_insert_ne.
    - destruct (w_views (th_world s) !! i); [|reflexivity]. destruct (commit_end _ _ _). reflexivity.
  Qed.
  Lemma erun_tinv x es : forall s sp, tinv keccak s sp -> possible keccak x s es -> Forall event_short es ->
    inj_on keccak (w_trace (th_world (erun keccak x s es).2)) ->
    tinv keccak (erun keccak x s es).2 (fold_left sestep es sp) /\
    storage (w_db (th_world s)) ⊆ storage (w_db (th_world (erun keccak x s es).2)).
  Proof using Hk.
    induction es as [|e es IH]; intros s sp Hinv Hp Hs Hi; [done|]. inversion Hs; subst. cbn [erun fold_left possible] in *.
    destruct Hp as [Hen Hp]. pose proof (estep_inv keccak Hk x s sp e Hinv Hen) as Hst.
    pose proof (estep_grows x s sp e Hinv Hen) as Hg. destruct (estep keccak x s e) as [r s1].
    pose proof (erun_trace keccak x es s1) as Hpre. specialize (IH s1 (sestep sp e)).
    destruct (erun keccak x s1 es) as [rs s2]. cbn [fst snd] in *.
    assert (inj_on keccak (w_trace (th_world s1))) as Hi1.
    { eapply inj_on_sub; [|exact Hi]. intros e' He. destruct Hpre as [z ->]. apply elem_of_app. by left. }
    destruct Hst as [Hinv1 Hok]; [done|done|]. destruct IH as [H3 H4]; [done..|]. split; [done|]. etrans; [by apply Hg|done].
  Qed.

  (** A call that succeeds on the database as it was at its start does the same
      while the database grows. *)
  Lemma get_moments f d ds t k r : (forall a b, storage d ⊆ storage (ds a b)) -> get f d t k = Ok r -> get_live f ds t k = Ok r.
  Proof using.
    unfold get, get_live. intros Hs H. destruct (get_at f d _ _ _ _) as [o|e| |] eqn:E; cbn in H; try discriminate; [|by destruct e].
    by rewrite (get_at_moments d ds Hs _ _ _ _ _ _ E).
  Qed.
  Lemma contains_moments f d ds t k r : (forall a b, storage d ⊆ storage (ds a b)) -> contains f d t k = Ok r -> contains_live f ds t k = Ok r.
  Proof using.
    unfold contains, contains_live. intros Hs H. destruct (get_at f d _ _ _ _) as [o|e| |] eqn:E; cbn in H; try discriminate.
    by rewrite (get_at_moments d ds Hs _ _ _ _ _ _ E).
  Qed.
  Lemma insert_moments f d ds t k v t' : (forall a b, storage d ⊆ storage (ds a b)) -> insert f d t k v = (t', Ok tt) -> insert_live f ds t k v = (t', Ok tt).
  Proof using.
    unfold insert, insert_live. intros Hs H. destruct v as [|c v]; [done|].
    destruct (insert_at f d _ _ _ _ _ _) as [pk [n|e| |]] eqn:E; cbn in H; try discriminate; [|by destruct e].
    by rewrite (insert_at_moments d ds Hs _ _ _ _ _ _ _ _ _ E).
  Qed.
  Lemma remove_moments f d ds t k t' r : (forall a b, storage d ⊆ storage (ds a b)) -> remove f d t k = (t', Ok r) -> remove_live f ds t k = (t', Ok r).
  Proof using.
    unfold remove, remove_live. intros Hs H.
    destruct (delete_at f d _ _ _ _ _) as [pk [n|e| |]] eqn:E; cbn in H; try discriminate; [|by destruct e].
    by rewrite (delete_at_moments d ds _ _ Hs _ _ _ _ _ _ E).
  Qed.
End hash.

(** After any possible history, a call on a trie whose single look-ups fall at
    any moments of what the other threads do next returns what it would have at
    its start: reads return the contents, changes the same trie, proofs the same
    nodes. *)
Theorem C103_moments keccak x es later i t m k : hash32 keccak ->
  let s0 := Threads (world0 keccak) ∅ in
  let s := (erun keccak x s0 es).2 in
  let d := w_db (th_world s) in
  let ds a b := w_db (th_world (erun keccak x s (later a b)).2) in
  possible keccak x s0 es -> Forall event_short es ->
  (forall a b, possible keccak x s (later a b) /\ Forall event_short (later a b) /\
    inj_on keccak (w_trace (th_world (erun keccak x s (later a b)).2))) ->
  w_views (th_world s) !! i = Some t -> s_views (fold_left sestep es spec0) !! i = Some m -> short k ->
  get_live (fuel_for x k) ds t k = Ok (m !! k) /\
  contains_live (fuel_for x k) ds t k = Ok (bool_decide (is_Some (m !! k))) /\
  (forall v, short v -> insert_live (fuel_for x k) ds t k v = insert (fuel_for x k) d t k v) /\
  remove_live (fuel_for x k) ds t k = remove (fuel_for x k) d t k /\
  get_proof_live keccak (fuel_for x k) ds t k = get_proof keccak (fuel_for x k) d t k.
Proof.
  intros Hk s0 s d ds Hp Hes Hl Ht Hm Hsk.
  assert (inj_on keccak (w_trace (th_world s))) as Hi.
  { destruct (Hl 0 0) as (_ & _ & Hi). eapply inj_on_sub; [|exact Hi]. intros e He.
    destruct (erun_trace keccak x (later 0 0) s) as [z ->]. apply elem_of_app. by left. }
  destruct (erun_tinv keccak Hk x es s0 spec0) as [Hinv _]; [|done|done|done|].
  { split; [apply (inv0 keccak)|]. intros j rest Hj. cbn in Hj. by rewrite lookup_empty in Hj. }
  fold s in Hinv.
  assert (Hs : forall a b, storage d ⊆ storage (ds a b)).
  { intros a b. destruct (Hl a b) as (A & B & C). by destruct (erun_tinv keccak Hk x _ s _ Hinv A B C). }
  clearbody s. destruct Hinv as [Hinv _]. set (w := th_world s) in *.
  assert (Hst : forall a, action_short a -> w_trace (act keccak x w i t a).2 = w_trace w -> act_ok false m a (act keccak x w i t a).1).
  { intros a Ha Htr. destruct (step_inv keccak Hk false x w (fold_left sestep es spec0) (OAct i a) Hinv) as [_ H]; [done|done| |].
    - cbn [step]. rewrite Ht, Htr. done.
    - cbn [step step_ok] in H. rewrite Ht, Hm in H. done. }
  split; [|split; [|split; [|split]]].
  - apply (get_moments _ d); [done|]. specialize (Hst (AGet k) Hsk eq_refl). exact Hst.
  - apply (contains_moments _ d); [done|]. specialize (Hst (AContains k) Hsk eq_refl). exact Hst.
  - intros v Hv. specialize (Hst (AInsert k v) (conj Hsk Hv)). cbn [act] in Hst. fold d in Hst.
    destruct v as [|c v]; [done|]. destruct (insert (fuel_for x k) d t k (c :: v)) as [t' r] eqn:E.
    cbn [fst snd act_ok] in Hst. specialize (Hst eq_refl). subst r. by apply (insert_moments _ d).
  - specialize (Hst (ARemove k) Hsk). cbn [act] in Hst. fold d in Hst.
    destruct (remove (fuel_for x k) d t k) as [t' r] eqn:E.
    cbn [fst snd act_ok] in Hst. destruct (Hst eq_refl) as (b & -> & _). by apply (remove_moments _ d).
  - destruct Hinv as [_ _ Hvs _]. destruct (Forall2_lookup_l _ _ _ _ _ Hvs Ht) as (m' & _ & (tr & Hr & Hw & _)).
    destruct (get_path_spec keccak Hk (fuel_for x k) d (t_root_hash t) (t_root t) tr (from_raw k true) 0 false Bmax)
      as (ss & E & _); [exact Hr|exact Hw|lia|lia|rewrite drop_0; apply tpath_from_raw| |].
    { rewrite <- fuel_for_enough. unfold enough. pose proof (rank_le (t_root t)). lia. }
    unfold get_proof, get_proof_live. rewrite E. by rewrite (get_path_at_moments d ds Hs _ _ _ _ _ _ E).
Qed.

(** Two clones have committed; one has changed a key and is committing again;
    the other reads, inserts and removes meanwhile. *)
Lemma possible_take keccak x es : forall s n, possible keccak x s es -> possible keccak x s (take n es).
Proof.
  induction es as [|e es IH]; intros s [|n]; try done. cbn [take possible]. intros [H1 H2]. auto.
Qed.
Lemma take_trace keccak x es : forall s n,
  w_trace (th_world (erun keccak x s (take n es)).2) `prefix_of` w_trace (th_world (erun keccak x s es).2).
Proof.
  induction es as [|e es IH]; intros s [|n]; try done.
  - apply (erun_trace keccak x (e :: es) s).
  - cbn [take erun]. destruct (estep keccak x s e) as [r s1]. specialize (IH s1 n).
    destruct (erun keccak x s1 (take n es)), (erun keccak x s1 es). exact IH.
Qed.
Definition moments_pre : list event :=
  threads_pre ++ turns (puts_of 1) (puts_of 0) ++
  [EEnd 0; EEnd 1; ECall (CCall (OAct 0 (AInsert k1 (v40 9)))); EBegin 0].
Definition moments_state : threads := (erun keccak256 0 threads0 moments_pre).2.
Definition moments_puts : list event :=
  map (EPut 0) (map fst (map_to_list (default ∅ (th_left moments_state !! 0)))) ++ [EEnd 0].
Definition short_eventb (e : event) : bool := match e with ECall (CCall o) => op_shortb o | _ => true end.
Lemma short_eventb_spec l : forallb short_eventb l = true -> Forall event_short l.
Proof.
  intros H. apply Forall_forall. intros e He. rewrite forallb_forall in H.
  apply elem_of_list_In in He. specialize (H e He). destruct e as [[o|i]|i|i k|i]; try exact I.
  cbn [event_short cop_short]. assert (Forall op_short [o]) as Ho by (apply op_shortb_spec; cbn [forallb]; by rewrite (H : op_shortb o = true)).
  by inversion Ho.
Qed.
Lemma takes_ok keccak x s l : possible keccak x s l -> Forall event_short l -> inj_on keccak (w_trace (th_world (erun keccak x s l).2)) ->
  forall a : nat, possible keccak x s (take a l) /\ Forall event_short (take a l) /\
    inj_on keccak (w_trace (th_world (erun keccak x s (take a l)).2)).
Proof.
  intros Hp Hs Hi a. split; [by apply possible_take|]. split; [by apply Forall_take|].
  eapply inj_on_sub; [|exact Hi]. intros e He. destruct (take_trace keccak x l s a) as [z ->]. apply elem_of_app. by left.
Qed.
Example C103_example : possible keccak256 0 threads0 moments_pre /\ Forall event_short moments_pre /\
  (forall a b : nat, possible keccak256 0 moments_state (take (a + b) moments_puts) /\ Forall event_short (take (a + b) moments_puts) /\
    inj_on keccak256 (w_trace (th_world (erun keccak256 0 moments_state (take (a + b) moments_puts)).2))) /\
  length moments_puts = 4 /\ is_Some (w_views (th_world moments_state) !! 1) /\
  s_views (fold_left sestep moments_pre spec0) !! 1 = Some {[k1 := v40 5; k2 := v40 7; k4 := v40 8]}.
Proof.
  split; [apply possibleb_spec; vm_compute; reflexivity|]. split; [apply short_eventb_spec; vm_compute; reflexivity|]. split.
  { intros a b. apply takes_ok.
    - apply possibleb_spec. vm_compute. reflexivity.
    - apply short_eventb_spec. vm_compute. reflexivity.
    - apply inj_onb_spec. vm_compute. reflexivity. }
  split; [vm_compute; reflexivity|]. split; apply (bool_decide_unpack _); vm_compute; exact I.
Qed.
Print Assumptions C103_moments.

Lemma get_proof_moments keccak f d ds t k t' p : (forall a b, storage d ⊆ storage (ds a b)) ->
  get_proof keccak f d t k = (t', Ok p) -> get_proof_live keccak f ds t k = (t', Ok p).
Proof.
  unfold get_proof, get_proof_live. intros Hs H. destruct (get_path_at f d _ _ _ _) as [o|e| |] eqn:E; cbn [with_key] in H; try discriminate.
  - by rewrite (get_path_at_moments d ds Hs _ _ _ _ _ _ E).
  - by destruct e.
Qed.

(** When a commit has ended, a proof for any key made by its trie, whatever the
    other threads write meanwhile, verifies against the root the commit returned
    and gives what the key has. *)
Theorem C104_proofs keccak x es i later m k y : hash32 keccak ->
  let s0 := Threads (world0 keccak) ∅ in
  let s := (erun keccak x s0 es).2 in
  let s' := (estep keccak x s (EEnd i)).2 in
  let ds a b := w_db (th_world (erun keccak x s' (later a b)).2) in
  possible keccak x s0 es -> enabled s (EEnd i) -> Forall event_short es ->
  (forall a b, possible keccak x s' (later a b) /\ Forall event_short (later a b) /\
    inj_on keccak (w_trace (th_world (erun keccak x s' (later a b)).2))) ->
  s_views (fold_left sestep es spec0) !! i = Some m -> m <> ∅ ->
  exists t h t' proof, (estep keccak x s (EEnd i)).1 = RRoot (Ok h) /\ w_views (th_world s') !! i = Some t /\
    get_proof_live keccak (fuel_for x k) ds t k = (t', Ok proof) /\
    verify_proof keccak (fuel_for y k) h k proof = Ok (m !! k).
Proof.
  intros Hk s0 s s' ds Hp Hen Hes Hl Hm Hne.
  assert (inj_on keccak (w_trace (th_world s'))) as Hi'.
  { destruct (Hl 0 0) as (_ & _ & Hi). eapply inj_on_sub; [|exact Hi]. intros e He.
    destruct (erun_trace keccak x (later 0 0) s') as [z ->]. apply elem_of_app. by left. }
  assert (inj_on keccak (w_trace (th_world s))) as Hi.
  { eapply inj_on_sub; [|exact Hi']. intros e He.
    destruct (estep_trace keccak x s (EEnd i)) as [z Hz]. unfold s'. rewrite Hz. apply elem_of_app. by left. }
  destruct (erun_tinv keccak Hk x es s0 spec0) as [Hinv _]; [|done|done|done|].
  { split; [apply (inv0 keccak)|]. intros j rest Hj. cbn in Hj. by rewrite lookup_empty in Hj. }
  fold s in Hinv. pose proof (estep_inv keccak Hk x s _ (EEnd i) Hinv Hen I Hi') as [Hinv' _]. fold s' in Hinv'.
  pose proof (estep_grows keccak x s _ (EEnd i) Hinv Hen Hi') as Hg. fold s' in Hg.
  assert (Hs : forall a b, storage (w_db (th_world s)) ⊆ storage (ds a b)).
  { intros a b. destruct (Hl a b) as (A & B & C). destruct (erun_tinv keccak Hk x _ s' _ Hinv' A B C) as [_ H]. by etrans. }
  clear Hl Hinv' Hg Hi'. clearbody ds. unfold s'. clear s'. clearbody s. cbn [enabled] in Hen.
  destruct Hinv as [Hinv Hb]. destruct (Hb i ∅ Hen) as (v & Hv & A & B & C & D).
  destruct Hinv as [Hli Hd Hvs Hrs]. destruct (Forall2_lookup_l _ _ _ _ _ Hvs Hv) as (m' & Em & (t & Hr & Hw & Hh & Hc)).
  rewrite Hm in Em. injection Em as <-.
  destruct (commit_exact keccak Hk false (w_db (th_world s)) (w_trace (th_world s)) v t Hli Hd Hr Hw Hc)
    as (d' & E & _ & _ & _ & Hrc & Hkn & Hst).
  { eapply inj_on_sub; [|exact Hi]. intros e He. apply elem_of_app in He as [He|He]; auto. }
  assert (Hpd : forall h e, pending keccak v !! h = Some e -> storage (w_db (th_world s)) !! h = Some e).
  { intros h e He. destruct (B h e He) as [H|H]; [by rewrite lookup_empty in H|done]. }
  destruct (end_commit keccak _ _ _ _ _ Hli Hpd E) as [-> Ee].
  destruct (proof_complete keccak Hk false (w_db (th_world s)) (w_trace (th_world s)) (Trie (collapse keccak t) (keccak (enc keccak t)) ∅ ∅ ∅) m t k x y)
    as (v2 & proof & E2 & _ & E3); try done.
  cbn [estep]. rewrite Hv, Ee. cbn [fst snd th_world w_views]. eexists _, _, v2, proof. split; [reflexivity|].
  split; [apply list_lookup_insert; by eapply lookup_lt_Some|]. split; [|exact E3].
  by apply (get_proof_moments keccak _ (w_db (th_world s))).
Qed.
(** One of two commits ends; the other writes its nodes and ends meanwhile. *)
Definition proofs_pre : list event := threads_pre ++ puts_of 0.
Definition proofs_state : threads := (estep keccak256 0 (erun keccak256 0 threads0 proofs_pre).2 (EEnd 0)).2.
Definition proofs_later : list event := puts_of 1 ++ [EEnd 1].
Example C104_example : possible keccak256 0 threads0 proofs_pre /\ enabled (erun keccak256 0 threads0 proofs_pre).2 (EEnd 0) /\
  Forall event_short proofs_pre /\
  (forall a b : nat, possible keccak256 0 proofs_state (take (a + b) proofs_later) /\ Forall event_short (take (a + b) proofs_later) /\
    inj_on keccak256 (w_trace (th_world (erun keccak256 0 proofs_state (take (a + b) proofs_later)).2))) /\
  length proofs_later = 7 /\ s_views (fold_left sestep proofs_pre spec0) !! 0 = Some {[k1 := v40 5; k2 := v40 6]}.
Proof.
  split; [apply possibleb_spec; vm_compute; reflexivity|]. split; [apply enabledb_spec; vm_compute; reflexivity|].
  split; [apply short_eventb_spec; vm_compute; reflexivity|]. split.
  { intros a b. apply takes_ok.
    - apply possibleb_spec. vm_compute. reflexivity.
    - apply short_eventb_spec. vm_compute. reflexivity.
    - apply inj_onb_spec. vm_compute. reflexivity. }
  split; [vm_compute; reflexivity|]. apply (bool_decide_unpack _). vm_compute. exact I.
Qed.
Print Assumptions C104_proofs.
