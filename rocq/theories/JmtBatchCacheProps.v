(** Hash caches given to batch insertion (C70). *)
From Verif Require Import Base KeccakModel Sha256Model JmtNibModel JmtSpec JmtModel JmtBatchModel JmtAbsProof JmtCacheProof
  JmtPutProof JmtHistProof JmtValueProof JmtRunSpec JmtRunProof JmtPropProof JmtBatchListProof JmtBatchProof JmtBatchRunProof
  JmtExamples JmtProps JmtBatchProps JmtRestoreProps.
Local Open Scope N_scope.

(** * The values do not depend on the hash caches *)
Definition vals (tc : cache) := (tc_values tc, fz_values tc).
Lemma rbind_inv {A B} (x : res jerr A) (f : A -> res jerr B) b :
  rbind x f = Ok b -> exists a, x = Ok a /\ f a = Ok b.
Proof. destruct x as [a| | |]; cbn [rbind]; [|discriminate..]. eauto. Qed.
Lemma put_vals tc nk nd tc' : tc_put tc nk nd = Ok tc' -> vals tc' = vals tc.
Proof. unfold tc_put. destruct (tc_nodes tc !! nk); [discriminate|]. by intros [= <-]. Qed.
Lemma delete_vals tc nk b tc' : tc_delete tc nk b = Ok tc' -> vals tc' = vals tc.
Proof.
  unfold tc_delete. destruct (tc_nodes tc !! nk).
  - destruct (b && _); [discriminate|]. by intros [= <-].
  - destruct (decide _); [discriminate|]. by intros [= <-].
Qed.
Lemma each_range_vals {A} (step : nib -> list (bytes * bytes) -> A -> res jerr A) (tcof : A -> cache) kvs depth rs :
  (forall i sub a a', step i sub a = Ok a' -> vals (tcof a') = vals (tcof a)) ->
  forall a a', each_range step kvs depth rs a = Ok a' -> vals (tcof a') = vals (tcof a).
Proof.
  intros Hs. induction rs as [|[l r] rs IH]; intros a a'; cbn [each_range]; [by intros [= <-]|].
  destruct (kvs !! l) as [[k x]|]; [|discriminate]. destruct (get_nibble k depth) as [i|]; [|discriminate].
  intros (sub & _ & (a1 & E1 & E2)%rbind_inv)%rbind_inv. rewrite (IH _ _ E2). by eapply Hs.
Qed.
Lemma internal_vals nk cs tc nk' nd tc' : put_internal nk cs tc = Ok (nk', nd, tc') -> vals tc' = vals tc.
Proof. intros (n0 & _ & (tc1 & E & [= <- <- <-])%rbind_inv)%rbind_inv. by eapply put_vals. Qed.

Section Vals.
Context (sha hv : bytes -> bytes).
Lemma create_vals hc v fuel : forall nk kvs depth tc nk' nd tc',
  batch_create sha fuel nk v kvs depth hc tc = Ok (nk', nd, tc') -> vals tc' = vals tc.
Proof.
  induction fuel as [|n IH]; intros nk kvs depth tc nk' nd tc'.
  - destruct kvs as [|[k x] [|? ?]]; cbn [batch_create]; [discriminate| |discriminate].
    intros (tc1 & E & [= <- <- <-])%rbind_inv. by eapply put_vals.
  - assert (rbind (ranges kvs depth) (fun rs =>
        rbind (each_range (fun i sub '(cs, tc) =>
            rbind (batch_create sha n (child_key nk v i) v sub (S depth) hc tc) (fun '(nk', nd, tc) =>
            rbind (add_child sha hc v i nk' nd cs) (fun cs => Ok (cs, tc)))) kvs depth rs (∅, tc))
          (fun '(cs, tc) => put_internal nk cs tc)) = Ok (nk', nd, tc') -> vals tc' = vals tc) as Hs.
    { intros (rs & _ & ([cs tc1] & E1 & E2)%rbind_inv)%rbind_inv. rewrite (internal_vals _ _ _ _ _ _ E2).
      eapply (each_range_vals _ snd) in E1; [exact E1|].
      intros i sub [cs0 tc0] a' ([[? ?] tc2] & H1 & (cs2 & H2 & [= <-])%rbind_inv)%rbind_inv. cbn [snd]. by eapply IH. }
    destruct kvs as [|[k x] [|? ?]]; cbn [batch_create]; [exact Hs| |exact Hs].
    intros (tc1 & E & [= <- <- <-])%rbind_inv. by eapply put_vals.
Qed.
Lemma create_leaf_vals hc v k0 x0 fuel : forall nk kvs depth tc nk' nd tc',
  batch_create_leaf sha fuel nk v k0 x0 kvs depth hc tc = Ok (nk', nd, tc') -> vals tc' = vals tc.
Proof.
  induction fuel as [|n IH]; intros nk kvs depth tc nk' nd tc'.
  - destruct kvs as [|[k x] [|? ?]]; cbn [batch_create_leaf]; [discriminate| |discriminate].
    destruct (decide _); [|discriminate]. intros (tc1 & E & [= <- <- <-])%rbind_inv. by eapply put_vals.
  - match goal with |- batch_create_leaf _ _ _ _ _ _ _ _ _ _ = _ -> _ => cbn [batch_create_leaf] end.
    lazymatch goal with |- match kvs with _ => _ end = _ -> _ => idtac end.
    assert (match get_nibble k0 depth with
        | None => Panic
        | Some bucket =>
            rbind (ranges kvs depth) (fun rs =>
            rbind (each_range (fun i sub '(cs, alone, tc) =>
                let ck := child_key nk v i in
                rbind (if decide (bucket = i)
                       then rbind (batch_create_leaf sha n ck v k0 x0 sub (S depth) hc tc) (fun r => Ok (false, r))
                       else rbind (batch_create sha n ck v sub (S depth) hc tc) (fun r => Ok (alone, r)))
                  (fun '(alone, (nk', nd, tc)) =>
                rbind (add_child sha hc v i nk' nd cs) (fun cs => Ok (cs, alone, tc))))
                kvs depth rs (∅, true, tc)) (fun '(cs, alone, tc) =>
            rbind (if (alone : bool)
                   then rbind (tc_put tc (child_key nk v bucket) (NLeaf k0 x0)) (fun tc =>
                        Ok (<[bucket := Child (sm_leaf sha k0 x0) v TLeaf]> cs, tc))
                   else Ok (cs, tc)) (fun '(cs, tc) =>
            put_internal nk cs tc)))
        end = Ok (nk', nd, tc') -> vals tc' = vals tc) as Hs.
    { destruct (get_nibble k0 depth) as [bucket|]; [|discriminate].
      intros (rs & _ & ([[cs alone] tc1] & E1 & ([cs2 tc2] & E2 & E3)%rbind_inv)%rbind_inv)%rbind_inv.
      rewrite (internal_vals _ _ _ _ _ _ E3).
      assert (vals tc2 = vals tc1) as ->.
      { destruct alone; [|by injection E2 as _ <-]. apply rbind_inv in E2 as (tc3 & E2 & [= _ <-]). by eapply put_vals. }
      eapply (each_range_vals _ snd) in E1; [exact E1|].
      intros i sub [[cs0 al0] tc0] a' ([al [[? ?] tc3]] & H1 & (cs3 & H2 & [= <-])%rbind_inv)%rbind_inv. cbn [snd].
      destruct (decide (bucket = i)).
      - apply rbind_inv in H1 as (r & H1 & [= _ ->]). by eapply IH.
      - apply rbind_inv in H1 as (r & H1 & [= _ ->]). by eapply create_vals. }
    destruct kvs as [|[k x] [|? ?]]; [exact Hs| |exact Hs].
    destruct (decide _); [|exact Hs]. intros (tc1 & E & [= <- <- <-])%rbind_inv. by eapply put_vals.
Qed.
Lemma insert_vals hc v fuel : forall nk kvs depth tc nk' nd tc',
  batch_insert_at sha fuel nk v kvs depth hc tc = Ok (nk', nd, tc') -> vals tc' = vals tc.
Proof.
  induction fuel as [|n IH]; intros nk kvs depth tc nk' nd tc';
    (destruct kvs as [|kv kvs]; [discriminate|]); cbn [batch_insert_at];
    intros (nd0 & _ & H)%rbind_inv; destruct nd0 as [|k0 x0|n0].
  1,4: destruct (snd nk); [|discriminate];
    apply rbind_inv in H as (tc1 & H1 & H2); rewrite (create_vals _ _ _ _ _ _ _ _ _ _ H2);
    destruct (fst nk =? v); [by eapply delete_vals|by injection H1 as <-].
  1,3: apply rbind_inv in H as (tc1 & H1 & H2); rewrite (create_leaf_vals _ _ _ _ _ _ _ _ _ _ _ _ H2);
    by eapply delete_vals.
  - by apply rbind_inv in H as (tc1 & H1 & [=]).
  - apply rbind_inv in H as (tc1 & H1 & H2). rewrite <- (delete_vals _ _ _ _ H1).
    apply rbind_inv in H2 as (rs & _ & H2). apply rbind_inv in H2 as ([cs tc2] & E1 & E2).
    rewrite (internal_vals _ _ _ _ _ _ E2). eapply (each_range_vals _ snd) in E1; [exact E1|].
    intros i sub [cs0 tc0] a' ([[? ?] tc3] & H3 & (cs3 & H4 & [= <-])%rbind_inv)%rbind_inv. cbn [snd].
    destruct (in_children n0 !! i); [by eapply IH|by eapply create_vals].
Qed.
Lemma freeze_vals tc tc' : tc_freeze sha tc = Ok tc' -> vals tc' = (∅, tc_values tc ∪ fz_values tc).
Proof.
  unfold tc_freeze. intros ([nd tc1] & E1 & (h & _ & (tc2 & E2 & E3)%rbind_inv)%rbind_inv)%rbind_inv.
  destruct (tc_next tc2 =? u64_max); [discriminate|]. injection E3 as <-. unfold vals. cbn [tc_values fz_values]. f_equal.
  assert (vals tc1 = vals tc) as V1.
  { destruct (tc_get_option tc (tc_root tc)); [by injection E1 as _ <-|].
    apply rbind_inv in E1 as (tc3 & E1 & [= _ <-]). by eapply put_vals. }
  assert (vals tc2 = vals tc1) as V2.
  { destruct (_ && _ && _); [|by injection E2 as <-]. apply rbind_inv in E2 as (? & _ & E2). by eapply put_vals. }
  rewrite V1 in V2. by injection V2 as -> ->.
Qed.
Lemma fold_values_vals v l : forall tc tc', vals tc = vals tc' ->
  vals (fold_left (fun tc kv => tc_put_value tc v (fst kv) (Some (snd kv))) l tc) =
  vals (fold_left (fun tc kv => tc_put_value tc v (fst kv) (Some (snd kv))) l tc').
Proof.
  induction l as [|[k x] l IH]; intros tc tc' E; [exact E|]. cbn [fold_left]. apply IH.
  unfold vals in *. cbn. by injection E as -> ->.
Qed.
Lemma batch_sets_vals sets : forall v hcs hcs' tc1 tc2 tc1' tc2', vals tc1 = vals tc2 ->
  batch_sets sha hv v sets hcs tc1 = Ok tc1' -> batch_sets sha hv v sets hcs' tc2 = Ok tc2' -> vals tc1' = vals tc2'.
Proof.
  induction sets as [|kvs sets IH]; intros v hcs hcs' tc1 tc2 tc1' tc2' E.
  - destruct hcs, hcs'; cbn [batch_sets]; try discriminate. by intros [= <-] [= <-].
  - destruct hcs as [|hc hcs], hcs' as [|hc' hcs']; cbn [batch_sets]; try discriminate.
    destruct (u64_max <? v); [discriminate|].
    intros (a1 & A1 & (b1 & B1 & C1)%rbind_inv)%rbind_inv (a2 & A2 & (b2 & B2 & C2)%rbind_inv)%rbind_inv.
    eapply (IH _ _ _ b1 b2); [|exact C1|exact C2].
    rewrite (freeze_vals _ _ B1), (freeze_vals _ _ B2).
    assert (vals a1 = vals a2) as Ea; [|unfold vals in Ea; by injection Ea as -> ->].
    destruct kvs as [|kv kvs]; [discriminate|]. unfold batch_set in A1, A2.
    apply rbind_inv in A1 as ([[? ?] d1] & A1 & [= <-]). apply rbind_inv in A2 as ([[? ?] d2] & A2 & [= <-]).
    apply insert_vals in A1. apply insert_vals in A2. unfold vals in *. cbn [tc_set_root tc_values fz_values].
    rewrite A1, A2. by apply fold_values_vals.
Qed.
End Vals.

(** With any hash caches, whatever they say, a call that succeeds stores the
    values that the call without them stores, and reads answer the same. *)
Theorem C70_values_any_hashes sha hv ops s sets hs roots b s' : reached sha hv ops s -> wf_batch sets ->
  versions ops + N.of_nat (length sets) <= u64_max ->
  batch_put_value_sets sha hv s sets (Some hs) (versions ops) = Ok (roots, b) -> write_batch s b = Ok s' ->
  forall k v, trie_get s' k v = value_at k (history ops ++ all_present sets) v.
Proof.
  intros HR Hwf Hmax E Ew k v.
  destruct (C27_batch_contents sha hv ops s sets HR Hwf Hmax) as (roots0 & b0 & s0 & E0 & Ew0 & HR0 & _).
  assert (b_values b = b_values b0) as Ev.
  { unfold batch_put_value_sets in E, E0. apply rbind_inv in E as (tc & E & [= _ <-]).
    apply rbind_inv in E0 as (tc0 & E0 & [= _ <-]). cbn [b_values].
    pose proof (batch_sets_vals sha hv _ _ _ _ _ _ _ _ eq_refl E E0) as V. unfold vals in V. by injection V as _ ->. }
  assert (st_hist s' = st_hist s0) as Eh.
  { unfold write_batch, write_node_batch in Ew, Ew0.
    apply rbind_inv in Ew as (x & Ew & E1). apply rbind_inv in Ew0 as (x0 & Ew0 & E2).
    destruct (negb _ && _) in Ew; [discriminate|]. destruct (negb _ && _) in Ew0; [discriminate|].
    apply rbind_inv in Ew as (h & Ew & [= <-]). apply rbind_inv in Ew0 as (h0 & Ew0 & [= <-]).
    rewrite Ev, Ew0 in Ew. injection Ew as <-.
    destruct (bool_decide _) in E1; [|discriminate]. destruct (bool_decide _) in E2; [|discriminate].
    injection E1 as <-. injection E2 as <-. done. }
  unfold trie_get, st_get_value_option. rewrite Eh.
  pose proof (proj1 (C22_versioned_reads sha hv _ _ HR0 k v)) as H. rewrite history_app, history_put in H. exact H.
Qed.

(** Caches that name every path of the batch, with wrong hashes. *)
Definition pair_sets : list (list (bytes * bytes)) := [[(ka, va); (kd, vb)]].
Definition pair_ok : list bytes * batch :=
  match put_value_sets mix mix empty_store (all_present pair_sets) 0 with Ok r => r | _ => ([], Batch ∅ ∅ ∅ []) end.
Definition bad_hashes : list (gmap path bytes) := [(fun _ => replicate 32 x00) <$> hashes_at mix (snd pair_ok) 0].
Definition bad_out : list bytes * batch :=
  match batch_put_value_sets mix mix empty_store pair_sets (Some bad_hashes) 0 with Ok r => r | _ => ([], Batch ∅ ∅ ∅ []) end.
Definition bad_root : bytes := match fst bad_out with [r] => r | _ => [] end.
Definition bad_store : store := match write_batch empty_store (snd bad_out) with Ok s => s | _ => empty_store end.
Definition bad_proof : proof := match get_with_proof mix bad_store ka 0 with Ok (_, p) => p | _ => Proof None [] end.
Lemma pair_wf : wf_batch pair_sets.
Proof. repeat constructor; done. Qed.
Lemma start_reached : reached mix mix [] empty_store.
Proof. split; [|done]. split; [constructor|vm_compute; discriminate]. Qed.
Lemma bad_out_ok : batch_put_value_sets mix mix empty_store pair_sets (Some bad_hashes) 0 = Ok (fst bad_out, snd bad_out).
Proof.
  assert (H : match batch_put_value_sets mix mix empty_store pair_sets (Some bad_hashes) 0 with Ok _ => true | _ => false end = true)
    by (vm_compute; reflexivity).
  unfold bad_out. revert H. destruct (batch_put_value_sets mix mix empty_store pair_sets (Some bad_hashes) 0) as [[? ?]| | |];
    [reflexivity|discriminate..].
Qed.
Lemma bad_store_ok : write_batch empty_store (snd bad_out) = Ok bad_store.
Proof.
  assert (H : match write_batch empty_store (snd bad_out) with Ok _ => true | _ => false end = true) by (vm_compute; reflexivity).
  unfold bad_store. revert H. destruct (write_batch empty_store (snd bad_out)); [reflexivity|discriminate..].
Qed.
Example C70_example : reached mix mix [] empty_store /\ wf_batch pair_sets /\
  versions [] + N.of_nat (length pair_sets) <= u64_max /\
  batch_put_value_sets mix mix empty_store pair_sets (Some bad_hashes) (versions []) = Ok (fst bad_out, snd bad_out) /\
  write_batch empty_store (snd bad_out) = Ok bad_store /\ trie_get bad_store kd 0 = Some vb.
Proof.
  split; [exact start_reached|]. split; [exact pair_wf|]. split; [vm_compute; discriminate|].
  split; [exact bad_out_ok|]. split; [exact bad_store_ok|vm_compute; reflexivity].
Qed.

Lemma is_panic {A} (r : res jerr A) : match r with Panic => true | _ => false end = true -> r = Panic.
Proof. by destruct r. Qed.
(** A hash that the cache lacks is not computed: the call panics, where the call
    without a cache succeeds. *)
Theorem C70_missing_hash_refuted : exists ops s sets hs, forall sha hv : bytes -> bytes,
  reached sha hv ops s /\ wf_batch sets /\ length hs = length sets /\
  batch_put_value_sets sha hv s sets (Some hs) (versions ops) = Panic /\
  exists roots b, batch_put_value_sets sha hv s sets None (versions ops) = Ok (roots, b).
Proof.
  exists [], empty_store, pair_sets, [∅]. intros sha hv. split_and!.
  - split; [|done]. split; [constructor|vm_compute; discriminate].
  - exact pair_wf.
  - reflexivity.
  - apply is_panic. vm_compute. reflexivity.
  - assert (HR : reached sha hv [] empty_store) by (split; [split; [constructor|vm_compute; discriminate]|done]).
    assert (Hm : versions [] + N.of_nat (length pair_sets) <= u64_max) by (vm_compute; discriminate).
    destruct (C27_batch_contents sha hv [] empty_store pair_sets HR pair_wf Hm) as (roots & b & s' & E & _).
    exists roots, b. exact E.
Qed.

(** A hash that the cache has is taken as it is: the root is not that of the
    contents, and the store's own proofs do not verify against it. *)
Theorem C70_wrong_hash_refuted : exists sha hv ops s sets hs r b s' k x p,
  reached sha hv ops s /\ wf_batch sets /\ versions ops + N.of_nat (length sets) <= u64_max /\
  batch_put_value_sets sha hv s sets (Some hs) (versions ops) = Ok ([r], b) /\ write_batch s b = Ok s' /\
  r <> smt_root sha hv (contents_at (history ops ++ all_present sets) (versions ops)) /\
  get_with_proof sha s' k (versions ops) = Ok (Some x, p) /\ verify sha hv p r k (Some x) = Err RootMismatch.
Proof.
  exists mix, mix, [], empty_store, pair_sets, bad_hashes, bad_root, (snd bad_out), bad_store, ka, va, bad_proof.
  split; [exact start_reached|]. split; [exact pair_wf|]. split; [vm_compute; discriminate|].
  split; [change (versions []) with 0; rewrite bad_out_ok; do 2 f_equal; vm_compute; reflexivity|]. split; [exact bad_store_ok|].
  split; [intros E; vm_compute in E; discriminate E|]. split; [vm_compute; reflexivity|vm_compute; reflexivity].
Qed.

Print Assumptions C70_values_any_hashes.
Print Assumptions C70_missing_hash_refuted.
Print Assumptions C70_wrong_hash_refuted.
