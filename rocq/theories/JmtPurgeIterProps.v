(** Iteration at every version of a pruned store (C74). *)
From Verif Require Import Base KeccakModel Sha256Model JmtNibModel JmtSpec JmtModel JmtAbsProof JmtCacheProof
  JmtPutProof JmtHistProof JmtValueProof JmtRunSpec JmtRunProof JmtPropProof JmtExamples JmtProps JmtPurgeProof JmtPurgeProps
  JmtNibSpec JmtIterModel JmtIterSpec JmtIterProof JmtIterProps.
Local Open Scope N_scope.

(** Calling [next] again and again gives the pairs of [l] and then [None] for
    ever, or some first pairs of [l] and then the same missing node for ever. *)
Inductive yields_or_stops (s : store) : iter -> list (bytes * bytes) -> Prop :=
| ys_end it : it_next s it = Ok (None, it) -> yields_or_stops s it []
| ys_pair it kv it' l : it_next s it = Ok (Some (inl kv), it') -> yields_or_stops s it' l ->
    yields_or_stops s it (kv :: l)
| ys_stop it nk it' l : it_next s it = Ok (Some (inr (MissingNode nk)), it') ->
    it_next s it' = Ok (Some (inr (MissingNode nk)), it') -> st_nodes s !! nk = None -> yields_or_stops s it l.

Section Sub.
Context (s s0 : store).
Hypothesis Hsub : forall nk nd, st_nodes s !! nk = Some nd -> st_nodes s0 !! nk = Some nd.
Hypothesis Hh : st_hist s = st_hist s0.

Lemma value_sub v k : st_get_value s v k = st_get_value s0 v k.
Proof. unfold st_get_value, st_get_value_option. by rewrite Hh. Qed.
Lemma node_sub nk : st_get_node s nk = st_get_node s0 nk \/
  (st_get_node s nk = Err (MissingNode nk) /\ st_nodes s !! nk = None).
Proof.
  unfold st_get_node. destruct (st_nodes s !! nk) as [nd|] eqn:E; [left; by rewrite (Hsub _ _ E)|by right].
Qed.
Definition refused {A} (r : res jerr A) : Prop := exists nk, r = Err (MissingNode nk) /\ st_nodes s !! nk = None.
Lemma refused_bind {A B} (r : res jerr A) (f : A -> res jerr B) : refused r -> refused (rbind r f).
Proof. intros (nk & -> & H). by exists nk. Qed.

Lemma it_descend_sub v start : forall rest nk st,
  it_descend s v start rest nk st = it_descend s0 v start rest nk st \/ refused (it_descend s v start rest nk st).
Proof.
  induction rest as [|i rest IH]; intros nk st; cbn [it_descend];
    (destruct (node_sub nk) as [->|[-> Hn]]; [|right; by exists nk]).
  - by left.
  - destruct (st_get_node s0 nk) as [[|k x|n]| | |]; cbn [rbind]; [by left..| |by left|by left|by left].
    destruct (in_children n !! i) as [c|]; [|by left].
    destruct (visit_at nk n i) as [vi| | |]; cbn [rbind]; [apply IH|by left..].
Qed.
Lemma it_index_sub v idx : forall f nk nd skipped st,
  it_index f s v idx nk nd skipped st = it_index f s0 v idx nk nd skipped st \/ refused (it_index f s v idx nk nd skipped st).
Proof.
  induction f as [|f IH]; intros nk nd skipped st; cbn [it_index]; [by left|].
  destruct nd as [|k x|n]; [by left|by left|].
  destruct (skip_leaves _ skipped idx) as [[[i c] sk]| | |]; cbn [rbind]; [|by left..].
  destruct (visit_at nk n i) as [vi| | |]; cbn [rbind]; [|by left..].
  destruct (node_sub (child_key nk (c_ver c) i)) as [->|[-> Hn]]; [|right; by eexists].
  destruct (st_get_node s0 _) as [nd'| | |]; cbn [rbind]; [apply IH|by left..].
Qed.
Lemma it_loop_sub v : forall f st, it_loop f s v st = it_loop f s0 v st \/
  exists nk st', it_loop f s v st = Ok (Some (inr (MissingNode nk)), Iter v st' false) /\ st' <> [] /\
    st_nodes s !! nk = None /\ forall f', it_loop (S f') s v st' = Ok (Some (inr (MissingNode nk)), Iter v st' false).
Proof.
  induction f as [|f IH]; intros st; [by left|]. cbn [it_loop].
  destruct st as [|vi st]; [by left|]. destruct (nib_of _) as [i|] eqn:Ei; [|by left].
  destruct (in_children (vi_node vi) !! i) as [c|] eqn:Ec; [|by left].
  destruct (st_nodes s !! child_key (vi_key vi) (c_ver c) i) as [nd|] eqn:En.
  - rewrite (Hsub _ _ En). destruct nd as [|k x|n]; [by left|left; by rewrite value_sub|].
    destruct (visit_new _ n) as [vi'| | |]; cbn [rbind]; [apply IH|by left..].
  - right. eexists _, (vi :: st). split; [reflexivity|]. split; [discriminate|]. split; [exact En|].
    intros f'. cbn [it_loop]. by rewrite Ei, Ec, En.
Qed.
Lemma it_next_sub it : it_next s it = it_next s0 it \/
  exists nk it', it_next s it = Ok (Some (inr (MissingNode nk)), it') /\
    it_next s it' = Ok (Some (inr (MissingNode nk)), it') /\ st_nodes s !! nk = None.
Proof.
  unfold it_next. destruct (it_done it) eqn:Ed; [by left|]. destruct (it_stack it) as [|vi st] eqn:Es.
  - destruct (st_nodes s !! (it_version it, [])) as [nd|] eqn:E.
    + left. rewrite (Hsub _ _ E). destruct nd; [done|by rewrite value_sub|done].
    + right. eexists _, it. split; [reflexivity|]. rewrite Ed, Es, E. done.
  - destruct (it_loop_sub (it_version it) 65 (vi :: st)) as [->|(nk & st' & -> & H1 & H2 & H3)]; [by left|].
    right. exists nk, (Iter (it_version it) st' false). split; [done|]. cbn [it_done it_stack it_version].
    destruct st' as [|vi' st']; [done|]. split; [apply H3|done].
Qed.
Lemma yields_sub it l : yields s0 it l -> yields_or_stops s it l.
Proof.
  induction 1 as [it E|it kv it' l E _ IH]; destruct (it_next_sub it) as [H|(nk & it1 & H1 & H2 & H3)].
  - apply ys_end. by rewrite H.
  - by eapply ys_stop.
  - eapply ys_pair; [rewrite H; exact E|exact IH].
  - by eapply ys_stop.
Qed.
End Sub.

(** * C74: at every version, purged, kept or not written yet, iterating gives the
    pairs of that version in order, or a first part of them and then an error
    for ever, or fails at once. *)
Theorem C74_from_key sha hv ops s v start : reached sha hv ops s -> length start = 32%nat ->
  refused s (iter_new s v start) \/
  v < versions ops /\ exists it l, iter_new s v start = Ok it /\ yields_or_stops s it l /\ ascending l /\
    forall k x, (k, x) ∈ l <-> contents_at (history ops) v !! k = Some x /\ ~ bytes_lt k start.
Proof.
  intros HR Hk. destruct (full_store sha hv ops s HR) as (s0 & HR0 & Hsub & Hh).
  assert (versions (unpurged ops) = versions ops) as Hv by (unfold versions; by rewrite unpurged_history).
  destruct (it_descend_sub s s0 Hsub v start (nibs start) (v, []) []) as [H|H]; [|by left].
  fold (iter_new s v start) in H. fold (iter_new s0 v start) in H.
  destruct (decide (v < versions ops)) as [Hvv|Hvv].
  - right. split; [done|]. destruct (C36_iterate_from_key sha hv _ s0 v start HR0) as (it & l & E & Hy & Ha & Hl); [|done|].
    { rewrite unpurged_low, Hv. lia. }
    exists it, l. rewrite H. split; [done|]. split; [by apply (yields_sub s s0)|]. split; [done|].
    by rewrite unpurged_history in Hl.
  - left. assert (st_nodes s !! (v, []) = None) as Hn.
    { destruct (st_nodes s !! (v, [])) as [nd|] eqn:E; [|done]. apply Hsub in E.
      pose proof (reached_inv _ _ _ _ HR0) as HS0. destruct (si_hist _ _ _ _ _ HS0) as [vs HI].
      pose proof (hi_fresh _ _ _ _ _ _ _ _ HI _ nd E) as Hf. cbn [fst] in Hf. fold (versions (unpurged ops)) in Hf. lia. }
    exists (v, []). split; [|done]. unfold iter_new. destruct (nibs start); cbn [it_descend]; unfold st_get_node; by rewrite Hn.
Qed.
Theorem C74_from_index sha hv ops s v i : reached sha hv ops s ->
  refused s (iter_new_by_index s v (N.of_nat i)) \/
  v < versions ops /\ exists it sorted, iter_new_by_index s v (N.of_nat i) = Ok it /\
    yields_or_stops s it (drop i sorted) /\ ascending sorted /\
    length sorted = size (contents_at (history ops) v) /\
    forall k x, (k, x) ∈ sorted <-> contents_at (history ops) v !! k = Some x.
Proof.
  intros HR. destruct (full_store sha hv ops s HR) as (s0 & HR0 & Hsub & Hh).
  assert (versions (unpurged ops) = versions ops) as Hv by (unfold versions; by rewrite unpurged_history).
  assert (iter_new_by_index s v (N.of_nat i) = iter_new_by_index s0 v (N.of_nat i) \/
    refused s (iter_new_by_index s v (N.of_nat i))) as [H|H]; [| |by left].
  { unfold iter_new_by_index. destruct (node_sub s s0 Hsub (v, [])) as [->|[-> Hn]]; [|right; by eexists].
    destruct (st_get_node s0 (v, [])) as [nd| | |]; cbn [rbind]; [|by left..].
    destruct (node_leaf_count nd) as [total|]; [|by left]. destruct (total <=? N.of_nat i); [by left|].
    by apply it_index_sub. }
  destruct (decide (v < versions ops)) as [Hvv|Hvv].
  - right. split; [done|]. destruct (C37_iterate_from_index sha hv _ s0 v i HR0) as (it & l & E & Hy & Ha & Hn & Hl).
    { rewrite unpurged_low, Hv. lia. }
    exists it, l. rewrite H. split; [done|]. split; [by apply (yields_sub s s0)|]. split; [done|].
    by rewrite unpurged_history in Hn, Hl.
  - left. assert (st_nodes s !! (v, []) = None) as Hn.
    { destruct (st_nodes s !! (v, [])) as [nd|] eqn:E; [|done]. apply Hsub in E.
      pose proof (reached_inv _ _ _ _ HR0) as HS0. destruct (si_hist _ _ _ _ _ HS0) as [vs HI].
      pose proof (hi_fresh _ _ _ _ _ _ _ _ HI _ nd E) as Hf. cbn [fst] in Hf. fold (versions (unpurged ops)) in Hf. lia. }
    exists (v, []). split; [|done]. unfold iter_new_by_index, st_get_node. by rewrite Hn.
Qed.
(** Version 1 is purged: its second leaf is gone, so a first pair comes and then
    the error; version 0 has lost its root; version 2 is kept; version 3 is not
    written yet. *)
Definition piter_ops : list op := [OpPut [[(ka, Some va); (kc, Some vb)]; []; [(kc, Some vc)]]; OpPurge 2].
Definition piter_store : store := match run sha256 sha256 piter_ops with Ok s => s | _ => empty_store end.
Fixpoint listing (n : nat) (s : store) (it : iter) : list (option (bytes * bytes + jerr)) :=
  match n with
  | O => []
  | S n => match it_next s it with Ok (x, it') => x :: listing n s it' | _ => [] end
  end.
Definition listing_from (v : N) (start : bytes) : list (option (bytes * bytes + jerr)) :=
  match iter_new piter_store v start with Ok it => listing 4 piter_store it | Err e => [Some (inr e)] | _ => [] end.
Example C74_example : reached sha256 sha256 piter_ops piter_store /\ low piter_ops = 2 /\
  let gone := Some (inr (MissingNode (0, take 1 (nibs kc)))) in
  map (fun v => listing_from v ka) [0; 1; 2; 3] =
  [[Some (inr (MissingNode (0, [])))]; [Some (inl (ka, va)); gone; gone; gone];
   [Some (inl (ka, va)); Some (inl (kc, vc)); None; None]; [Some (inr (MissingNode (3, [])))]].
Proof.
  split; [|split; [vm_compute; reflexivity|cbv zeta; vm_compute; reflexivity]].
  split; [wf|]. assert (H : (match run sha256 sha256 piter_ops with Ok _ => true | _ => false end) = true)
    by (vm_compute; reflexivity).
  unfold piter_store. revert H. destruct (run sha256 sha256 piter_ops); [reflexivity|discriminate..].
Qed.
Print Assumptions C74_from_key.
Print Assumptions C74_from_index.
