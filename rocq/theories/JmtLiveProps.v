(** Reads while other threads write and prune (C83, C84). *)
From Verif Require Import Base KeccakModel Sha256Model JmtNibModel JmtSpec JmtModel JmtAbsProof JmtCacheProof
  JmtPutProof JmtHistProof JmtValueProof JmtRunSpec JmtRunProof JmtPropProof JmtProofProof JmtExamples JmtProps JmtPurgeProof JmtPurgeProps
  JmtNibSpec JmtIterModel JmtIterSpec JmtIterProof JmtIterProps JmtWriteModel JmtWriteProof JmtWriteProps JmtLiveModel.
Local Open Scope N_scope.

(** The other threads go through the steps of [ops]; lookup number [j] of the
    reader happens after the first [t j] of them. *)
Definition live (sha hv : bytes -> bytes) (ops : list op) (t : nat -> nat) (rd : nat -> store) : Prop :=
  (forall i j, (i <= j)%nat -> (t i <= t j)%nat) /\ forall j, reached sha hv (take (t j) ops) (rd j).

(** What [c] calls of [next] return when nothing is missing: the pairs of [l],
    then [None] for ever. *)
Fixpoint called (l : list (bytes * bytes)) (c : nat) : list (option (bytes * bytes + jerr)) :=
  match c, l with
  | O, _ => []
  | S c, kv :: l => Some (inl kv) :: called l c
  | S c, [] => None :: called [] c
  end.

(** ** Nodes of older versions only ever vanish *)
Lemma older_nodes sha hv more : forall ops s s', reached sha hv ops s -> reached sha hv (ops ++ more) s' ->
  forall nk nd, fst nk < versions ops -> st_nodes s' !! nk = Some nd -> st_nodes s !! nk = Some nd.
Proof.
  induction more as [|o more IH] using rev_ind; intros ops s s' HR HR' nk nd Hlt Hn.
  - rewrite app_nil_r in HR'. destruct HR as [_ A], HR' as [_ B]. rewrite A in B. by injection B as <-.
  - rewrite app_assoc in HR'. pose proof HR' as [Hwf _]. destruct (reached_snoc _ _ _ _ _ HR') as (s1 & HR1 & Eo).
    apply (IH ops s s1 HR HR1 nk nd Hlt). destruct o as [sets|least]; cbn [run_op] in Eo.
    + apply rbind_inv in Eo as ([r b] & Ep & Ew). destruct (batch_new sha hv _ s1 sets r b HR1 Hwf Ep) as [Hb _].
      unfold write_batch, write_node_batch in Ew. apply rbind_inv in Ew as (x & Ew & E1).
      destruct (negb _ && _) in Ew; [discriminate|]. apply rbind_inv in Ew as (h & Ew & [= <-]).
      destruct (bool_decide _) in E1; [|discriminate]. injection E1 as <-. cbn [st_nodes] in Hn.
      apply lookup_union_Some_raw in Hn as [Hn|[_ Hn]]; [|done]. apply Hb in Hn.
      unfold versions in *. rewrite history_app, app_length in Hn. lia.
    + unfold purge in Eo. destruct (_ && _) in Eo; [|discriminate]. injection Eo as <-. cbn [st_nodes] in Hn.
      by apply map_filter_lookup_Some in Hn as [Hn _].
Qed.
Lemma take_more {A} (l : list A) a b : (a <= b)%nat -> exists m, take b l = take a l ++ m.
Proof.
  intros H. exists (take (b - a) (drop a l)). rewrite take_take_drop. f_equal. lia.
Qed.

(** What the proofs use of a live reader: the full store of the versions
    written before the first lookup. *)
Lemma live_base sha hv ops t rd : live sha hv ops t rd ->
  exists s0, reached sha hv (unpurged (take (t 0%nat) ops)) s0 /\
  (forall j nk nd, st_nodes s0 !! nk = Some nd -> st_nodes (rd j) !! nk = Some nd \/
     forall j', (j <= j')%nat -> st_nodes (rd j') !! nk = None) /\
  (forall j v k, v < versions (take (t 0%nat) ops) -> st_get_value (rd j) v k = st_get_value s0 v k) /\
  (forall nk nd, st_nodes s0 !! nk = Some nd -> fst nk < versions (take (t 0%nat) ops)) /\
  (forall v, versions (take (t 0%nat) ops) <= v -> st_nodes (rd 0%nat) !! (v, []) = None).
Proof.
  intros [Hm HR]. destruct (full_store sha hv _ _ (HR 0%nat)) as (s0 & HR0 & Hsub & Hh). exists s0.
  assert (forall nk nd, st_nodes s0 !! nk = Some nd -> fst nk < versions (take (t 0%nat) ops)) as Hf.
  { intros nk nd Hn. pose proof (reached_inv _ _ _ _ HR0) as HS0. destruct (si_hist _ _ _ _ _ HS0) as [vs HI].
    pose proof (hi_fresh _ _ _ _ _ _ _ _ HI nk nd Hn) as H. rewrite unpurged_history in H. exact H. }
  assert (forall i j nk nd, (i <= j)%nat -> fst nk < versions (take (t i) ops) ->
    st_nodes (rd j) !! nk = Some nd -> st_nodes (rd i) !! nk = Some nd) as Hold.
  { intros i j nk nd Hij Hlt Hn. destruct (take_more ops (t i) (t j) (Hm i j Hij)) as [m E].
    pose proof (HR j) as HRj. rewrite E in HRj. by apply (older_nodes sha hv m _ _ _ (HR i) HRj nk nd Hlt). }
  assert (forall j, versions (take (t 0%nat) ops) <= versions (take (t j) ops)) as Hge.
  { intros j. destruct (take_more ops (t 0%nat) (t j) (Hm 0%nat j ltac:(lia))) as [m E].
    rewrite E. unfold versions. rewrite history_app, app_length. lia. }
  split; [done|]. split; [|split; [|split; [done|]]].
  - intros j nk nd Hn. pose proof (Hf _ _ Hn) as Hlt. destruct (st_nodes (rd j) !! nk) as [nd'|] eqn:E.
    + left. rewrite <-Hn. symmetry. apply Hsub. by apply (Hold 0%nat j nk nd' ltac:(lia)).
    + right. intros j' Hj. destruct (st_nodes (rd j') !! nk) as [nd'|] eqn:E'; [|done].
      rewrite (Hold j j' nk nd' Hj) in E; [done| |done]. pose proof (Hge j). lia.
  - intros j v k Hv. unfold st_get_value.
    pose proof (proj1 (C22_versioned_reads sha hv _ _ (HR j) k v)) as H1.
    pose proof (proj1 (C22_versioned_reads sha hv _ _ HR0 k v)) as H2. unfold trie_get in H1, H2. rewrite H1, H2.
    rewrite unpurged_history, <-!contents_value.
    destruct (take_more ops (t 0%nat) (t j) (Hm 0%nat j ltac:(lia))) as [m E].
    by rewrite E, history_app, contents_at_app by exact Hv.
  - intros v Hv. destruct (st_nodes (rd 0%nat) !! (v, [])) as [nd|] eqn:E; [|done].
    apply Hsub in E. apply Hf in E. cbn [fst] in E. lia.
Qed.

Section Live.
Context (rd : nat -> store) (s0 : store) (n : N).
Hypothesis Hnode : forall j nk nd, st_nodes s0 !! nk = Some nd -> st_nodes (rd j) !! nk = Some nd \/
  forall j', (j <= j')%nat -> st_nodes (rd j') !! nk = None.
Hypothesis Hval : forall j v k, v < n -> st_get_value (rd j) v k = st_get_value s0 v k.
Hypothesis Hfresh : forall nk nd, st_nodes s0 !! nk = Some nd -> fst nk < n.

(** A read that succeeds on the full store succeeds with the same result, or
    stops at a node that is gone from one of the stores seen; the read on that
    store alone fails too. *)
Lemma gwp_live_ok sha v k r : v < n -> forall rest j nk b sibs, gwp sha s0 v k rest nk b sibs = Ok r ->
  gwp_live sha rd j v k rest nk b sibs = Ok r \/
  (((b = true /\ gwp_live sha rd j v k rest nk b sibs = Err (MissingRoot v)) \/
    exists nk', gwp_live sha rd j v k rest nk b sibs = Err (MissingNode nk')) /\
   exists j' e, gwp sha (rd j') v k rest nk b sibs = Err e).
Proof using Hnode Hval Hfresh.
  intros Hv. induction rest as [|i rest IH]; intros j nk b sibs; cbn [gwp gwp_live];
    (destruct (st_nodes s0 !! nk) as [nd|] eqn:E; [|destruct b; discriminate]);
    (destruct (Hnode j nk nd E) as [Ej|Ej];
     [rewrite Ej|rewrite (Ej j ltac:(lia)); intros _; right;
      split; [destruct b; [left|right]; [done|by eexists]|exists j, (if b then MissingRoot v else MissingNode nk); by rewrite (Ej j ltac:(lia))]]);
    (destruct nd as [|k0 x0|nd]; [by left|rewrite Hval by done; by left|]).
  - discriminate.
  - destruct (get_child_with_siblings sha nd nk i) as [[[nk'|] more]| | |] eqn:Eg; cbn [rbind]; [|by left|discriminate..].
    intros H. destruct (IH (S j) nk' false (sibs ++ more) H) as [H1|[[[? _]|H1] (j' & e & H2)]]; [by left|discriminate|].
    right. split; [by right|]. destruct (Hnode j' nk _ E) as [E1|E1].
    + exists j', e. by rewrite E1, Eg.
    + exists j', (if b then MissingRoot v else MissingNode nk). by rewrite (E1 j' ltac:(lia)).
Qed.

(** Making an iterator likewise. *)
Lemma it_descend_live_ok v start it : forall rest j nk st, it_descend s0 v start rest nk st = Ok it ->
  (exists j1, it_descend_live rd j v start rest nk st = Ok (it, j1) /\ (j <= j1)%nat) \/
  ((exists nk', it_descend_live rd j v start rest nk st = Err (MissingNode nk')) /\
   exists j' e, it_descend (rd j') v start rest nk st = Err e).
Proof using Hnode Hval Hfresh.
  induction rest as [|i rest IH]; intros j nk st; cbn [it_descend it_descend_live]; unfold st_get_node;
    (destruct (st_nodes s0 !! nk) as [nd|] eqn:E; [|discriminate]); cbn [rbind];
    (destruct (Hnode j nk nd E) as [Ej|Ej];
     [rewrite Ej; cbn [rbind]|rewrite (Ej j ltac:(lia)); intros _; right;
      split; [by eexists|exists j, (MissingNode nk); by rewrite (Ej j ltac:(lia))]]);
    destruct nd as [|k0 x0|nd].
  1,4: intros [= <-]; left; exists (S j); split; [done|lia].
  1,3: destruct (key_ltb k0 start); [destruct (cleanup st) as [st1| | |]; cbn [rbind]; [|discriminate..]|];
       intros [= <-]; left; exists (S j); split; [done|lia|done|lia].
  - discriminate.
  - destruct (in_children nd !! i) as [c|] eqn:Ec.
    + destruct (visit_at nk nd i) as [vi| | |] eqn:Evi; cbn [rbind]; [|discriminate..].
      intros H. destruct (IH (S j) _ _ H) as [(j1 & H1 & H2)|[H1 (j' & e & H2)]].
      * left. exists j1. split; [done|lia].
      * right. split; [done|]. destruct (Hnode j' nk _ E) as [E1|E1].
        -- exists j', e. rewrite E1. cbn [rbind]. by rewrite Ec, Evi.
        -- exists j', (MissingNode nk). by rewrite (E1 j' ltac:(lia)).
    + destruct (gen_bitmaps (in_children nd)) as [bm| | |]; cbn [rbind]; [|discriminate..].
      destruct (15 <? leading_zeros (fst bm)); [discriminate|].
      destruct (nib_val i <? 15 - leading_zeros (fst bm)).
      * destruct (visit_at nk nd i) as [vi| | |]; cbn [rbind]; [|discriminate..].
        intros [= <-]. left. exists (S j). split; [done|lia].
      * destruct (cleanup st) as [st1| | |]; cbn [rbind]; [|discriminate..].
        intros [= <-]. left. exists (S j). split; [done|lia].
Qed.

(** A call of [next] that gives a pair on the full store gives the same pair, or
    stops at a missing node for ever. *)
Lemma it_loop_live_ok v kv it : forall f j st, it_loop f s0 v st = Ok (Some (inl kv), it) ->
  (exists j1, it_loop_live rd f j v st = Ok (Some (inl kv), it, j1) /\ (j <= j1)%nat) \/
  (exists nk st1 j1, it_loop_live rd f j v st = Ok (Some (inr (MissingNode nk)), Iter v st1 false, j1) /\ st1 <> [] /\ (j <= j1)%nat /\
     (forall f' j2, (j1 <= j2)%nat -> it_loop_live rd (S f') j2 v st1 = Ok (Some (inr (MissingNode nk)), Iter v st1 false, S j2)) /\
     exists j' nk' it2, it_loop f (rd j') v st = Ok (Some (inr (MissingNode nk')), it2)).
Proof using Hnode Hval Hfresh.
  induction f as [|f IH]; intros j st; cbn [it_loop it_loop_live]; [discriminate|].
  destruct st as [|vi st]; [discriminate|]. destruct (nib_of _) as [i|] eqn:Ei; [|discriminate].
  destruct (in_children (vi_node vi) !! i) as [c|] eqn:Ec; [|discriminate].
  destruct (st_nodes s0 !! child_key (vi_key vi) (c_ver c) i) as [nd|] eqn:E; [|discriminate].
  destruct (Hnode j _ nd E) as [Ej|Ej].
  - rewrite Ej. destruct nd as [|k x|nd]; [discriminate| |].
    + rewrite Hval by (by eapply Hfresh). destruct (st_get_value s0 _ k) as [y| | |]; [|discriminate..].
      destruct (cleanup (vi :: st)) as [st1| | |]; cbn [rbind]; [|discriminate..]. intros [= <- <-]. left.
      exists (S (S j)). split; [done|lia].
    + destruct (visit_new _ nd) as [vi'| | |] eqn:Ev; cbn [rbind]; [|discriminate..]. intros H.
      destruct (IH (S j) _ H) as [(j1 & H1 & H2)|(nk & st1 & j1 & H1 & H2 & H3 & H4 & j' & nk' & it2 & H5)].
      * left. exists j1. split; [done|lia].
      * right. exists nk, st1, j1. split; [done|]. split; [done|]. split; [lia|]. split; [done|].
        destruct (Hnode j' _ _ E) as [E1|E1].
        -- exists j', nk', it2. by rewrite E1, Ev.
        -- exists j'. rewrite (E1 j' ltac:(lia)). by eexists _, _.
  - intros _. right. eexists _, (vi :: st), (S j). rewrite (Ej j ltac:(lia)). split; [reflexivity|].
    split; [discriminate|]. split; [lia|]. split.
    + intros f' j2 Hj. cbn [it_loop_live]. by rewrite Ei, Ec, (Ej j2 ltac:(lia)).
    + exists j. rewrite (Ej j ltac:(lia)). by eexists _, _.
Qed.
Lemma it_next_live_ok x it it' j : it_next s0 it = Ok (x, it') -> (forall e, x <> Some (inr e)) ->
  (exists j1, it_next_live rd j it = Ok (x, it', j1) /\ (j <= j1)%nat) \/
  (exists nk it1 j1, it_next_live rd j it = Ok (Some (inr (MissingNode nk)), it1, j1) /\ (j <= j1)%nat /\
     (forall j2, (j1 <= j2)%nat -> it_next_live rd j2 it1 = Ok (Some (inr (MissingNode nk)), it1, S j2)) /\
     exists j' nk' it2, it_next (rd j') it = Ok (Some (inr (MissingNode nk')), it2)).
Proof using Hnode Hval Hfresh.
  intros H Hx. unfold it_next in H. unfold it_next_live at 1 2. unfold it_next at 1.
  destruct (it_done it) eqn:Ed; [injection H as <- <-; left; exists j; split; [done|lia]|].
  destruct (it_stack it) as [|vi st] eqn:Es.
  - destruct (st_nodes s0 !! (it_version it, [])) as [nd|] eqn:E; [|injection H as <- _; by destruct (Hx (MissingNode (it_version it, [])))].
    destruct (Hnode j _ nd E) as [Ej|Ej].
    + rewrite Ej. left. destruct nd as [|k y|nd]; [discriminate| |injection H as <- <-; exists (S j); split; [done|lia]].
      rewrite Hval by (apply (Hfresh _ _ E)).
      destruct (st_get_value s0 (it_version it) k) as [z|e| |]; [|injection H as <- _; by destruct (Hx e)|discriminate..].
      injection H as <- <-. exists (S (S j)). split; [done|lia].
    + right. rewrite (Ej j ltac:(lia)). eexists _, it, (S j). split; [reflexivity|]. split; [lia|]. split.
      * intros j2 Hj. unfold it_next_live. by rewrite Ed, Es, (Ej j2 ltac:(lia)).
      * exists j. rewrite (Ej j ltac:(lia)). by eexists _, _.
  - assert (exists kv, x = Some (inl kv)) as [kv ->].
    { destruct x as [[kv|e]|]; [by eexists|by destruct (Hx e)|].
      exfalso. revert H. generalize 65%nat (vi :: st). clear. induction n as [|f IH]; intros st; cbn [it_loop]; [discriminate|].
      destruct st as [|vi st]; [discriminate|]. destruct (nib_of _); [|discriminate].
      destruct (in_children (vi_node vi) !! _) as [c|]; [|discriminate].
      destruct (st_nodes s0 !! _) as [[|k y|nd]|]; [discriminate| | |discriminate].
      - destruct (st_get_value s0 _ k); [|discriminate..]. destruct (cleanup _); discriminate.
      - destruct (visit_new _ nd); cbn [rbind]; [apply IH|discriminate..]. }
    destruct (it_loop_live_ok _ _ _ 65 j _ H) as [H1|(nk & st1 & j1 & H1 & H2 & H3 & H4 & H5)]; [by left|].
    right. exists nk, (Iter (it_version it) st1 false), j1. split; [done|]. split; [done|]. split; [|done].
    intros j2 Hj. unfold it_next_live. cbn [it_done it_stack it_version]. destruct st1 as [|vi1 st1]; [done|].
    by apply H4.
Qed.

End Live.

(** On a store that does not change the two models agree. *)
Lemma it_loop_const s v : forall f j st, match it_loop_live (fun _ => s) f j v st with
  | Ok (x, it, _) => it_loop f s v st = Ok (x, it) | _ => True end.
Proof.
  induction f as [|f IH]; intros j st; cbn [it_loop it_loop_live]; [done|].
  destruct st as [|vi st]; [done|]. destruct (nib_of _) as [i|]; [|done].
  destruct (in_children (vi_node vi) !! i) as [c|]; [|done].
  destruct (st_nodes s !! _) as [[|k x|nd]|]; [done| | |done].
  - destruct (st_get_value s _ k) as [y|e| |]; [|done..]. by destruct (cleanup _).
  - destruct (visit_new _ nd) as [vi'| | |]; cbn [rbind]; [apply IH|done..].
Qed.
Lemma it_next_const s j it x it' j1 : it_next_live (fun _ => s) j it = Ok (x, it', j1) -> it_next s it = Ok (x, it').
Proof.
  unfold it_next_live, it_next. destruct (it_done it); [by intros [= <- <- _]|].
  destruct (it_stack it) as [|vi st].
  - destruct (st_nodes s !! _) as [[|k y|nd]|]; [discriminate| |by intros [= <- <- _]..].
    by destruct (st_get_value s _ k) as [z|e| |]; [intros [= <- <- _]..| |].
  - intros H. pose proof (it_loop_const s (it_version it) 65 j (vi :: st)) as Hc. by rewrite H in Hc.
Qed.

Section Many.
Context (rd : nat -> store) (s0 : store) (n : N).
Hypothesis Hnode : forall j nk nd, st_nodes s0 !! nk = Some nd -> st_nodes (rd j) !! nk = Some nd \/
  forall j', (j <= j')%nat -> st_nodes (rd j') !! nk = None.
Hypothesis Hval : forall j v k, v < n -> st_get_value (rd j) v k = st_get_value s0 v k.
Hypothesis Hfresh : forall nk nd, st_nodes s0 !! nk = Some nd -> fst nk < n.

Lemma one_store it x it' j : it_next s0 it = Ok (x, it') -> (forall e, x <> Some (inr e)) ->
  it_next (rd j) it = Ok (x, it') \/ exists nk it2, it_next (rd j) it = Ok (Some (inr (MissingNode nk)), it2).
Proof using Hnode Hval Hfresh.
  intros E Hx. destruct (it_next_live_ok (fun _ => rd j) s0 n) with (x := x) (it := it) (it' := it') (j := 0%nat)
    as [(j1 & H & _)|(nk & it1 & j1 & H & _)]; try done.
  - intros j0 nk nd Hn. destruct (Hnode j nk nd Hn) as [H|H]; [by left|right]. intros _ _. by apply H.
  - intros j0 v k. by apply Hval.
  - left. by apply it_next_const in H.
  - right. apply it_next_const in H. by eexists _, _.
Qed.
Lemma yields_next it kv it' j l' : it_next s0 it = Ok (Some (inl kv), it') -> yields (rd j) it l' -> exists l, yields (rd j) it' l.
Proof using Hnode Hval Hfresh.
  intros E H. destruct (one_store it _ it' j E ltac:(discriminate)) as [E1|(nk & it2 & E1)]; inversion H; subst; [congruence| |congruence..].
  eexists. rewrite E1 in H0. injection H0 as _ <-. done.
Qed.

(** Many calls. *)
Lemma stuck_listing nk it c : forall j, (forall j2, (j <= j2)%nat -> it_next_live rd j2 it = Ok (Some (inr (MissingNode nk)), it, S j2)) ->
  listing_live rd c j it = replicate c (Some (inr (MissingNode nk))).
Proof using Hnode Hval Hfresh.
  induction c as [|c IH]; intros j H; [done|]. cbn [listing_live replicate]. rewrite (H j ltac:(lia)). f_equal. apply IH.
  intros j2 Hj. apply H. lia.
Qed.
Lemma listing_live_ok it l : yields s0 it l -> forall c j,
  listing_live rd c j it = called l c \/
  ((exists i nk, (i < c)%nat /\ listing_live rd c j it = take i (called l c) ++ replicate (c - i) (Some (inr (MissingNode nk)))) /\
   exists j', forall l', ~ yields (rd j') it l').
Proof using Hnode Hval Hfresh.
  induction 1 as [it E|it kv it' l E Hy IH].
  - induction c as [|c IHc]; intros j; [by left|]. cbn [listing_live called].
    destruct (it_next_live_ok rd s0 n Hnode Hval Hfresh None it it j E ltac:(discriminate)) as [(j1 & H1 & _)|(nk & it1 & j1 & H1 & H2 & H3 & j' & nk' & it2 & H4)]; rewrite H1.
    + destruct (IHc j1) as [H|[(i & nk & Hi & H) Hb]]; rewrite H; [by left|right]. split; [|done].
      exists (S i), nk. split; [lia|]. done.
    + right. split.
      * exists 0%nat, nk. split; [lia|]. rewrite take_0, Nat.sub_0_r. cbn [replicate app]. f_equal. by apply stuck_listing.
      * exists j'. intros l' Hl'. inversion Hl'; congruence.
  - intros c j. destruct c as [|c]; [by left|]. cbn [listing_live called].
    destruct (it_next_live_ok rd s0 n Hnode Hval Hfresh (Some (inl kv)) it it' j E ltac:(discriminate)) as [(j1 & H1 & _)|(nk & it1 & j1 & H1 & H2 & H3 & j' & nk' & it2 & H4)]; rewrite H1.
    + destruct (IH c j1) as [H|[(i & nk & Hi & H) [j' Hb]]]; rewrite H; [by left|right]. split.
      * exists (S i), nk. split; [lia|]. done.
      * exists j'. intros l' Hl'. destruct (yields_next _ _ _ _ _ E Hl') as [l2 Hl2]. by eapply Hb.
    + right. split.
      * exists 0%nat, nk. split; [lia|]. rewrite take_0, Nat.sub_0_r. cbn [replicate app]. f_equal. by apply stuck_listing.
      * exists j'. intros l' Hl'. inversion Hl'; congruence.
Qed.
Lemma one_descend v start it j : forall rest nk st, it_descend s0 v start rest nk st = Ok it ->
  it_descend (rd j) v start rest nk st = Ok it \/ exists e, it_descend (rd j) v start rest nk st = Err e.
Proof using Hnode Hval Hfresh.
  induction rest as [|i rest IH]; intros nk st; cbn [it_descend]; unfold st_get_node;
    (destruct (st_nodes s0 !! nk) as [nd|] eqn:E; [|discriminate]); cbn [rbind];
    (destruct (Hnode j nk nd E) as [Ej|Ej]; [rewrite Ej; cbn [rbind]|rewrite (Ej j ltac:(lia)); intros _; right; by eexists]);
    [by left|]. destruct nd as [|k0 x0|nd]; [by left..|].
  destruct (in_children nd !! i) as [c|]; [|by left].
  destruct (visit_at nk nd i) as [vi| | |]; cbn [rbind]; [apply IH|discriminate..].
Qed.
End Many.

(** Versions that no purge of the execution touches are readable all along. *)
Lemma kept_take ops a v : low ops <= v -> low (take a ops) <= v.
Proof. intros H. pose proof (low_app_ge (take a ops) (drop a ops)) as H1. rewrite take_drop in H1. lia. Qed.

(** * C83: a proof read while others write and prune is right or an error. *)
Theorem C83_live_read sha hv ops t rd v k : live sha hv ops t rd -> length k = 32%nat ->
  let right := v < versions (take (t 0%nat) ops) /\ exists p, get_with_proof_live sha rd k v = Ok (value_at k (history ops) v, p) /\
     verify sha hv p (smt_root sha hv (contents_at (history ops) v)) k (value_at k (history ops) v) = Ok tt in
  (right \/ get_with_proof_live sha rd k v = Err (MissingRoot v) \/
   (v < versions (take (t 0%nat) ops) /\ exists nk, get_with_proof_live sha rd k v = Err (MissingNode nk))) /\
  (low ops <= v < versions (take (t 0%nat) ops) -> right).
Proof.
  intros HL Hk right. destruct (live_base sha hv ops t rd HL) as (s0 & HR0 & Hnode & Hval & Hfresh & Hnew).
  destruct (decide (v < versions (take (t 0%nat) ops))) as [Hv|Hv].
  2: { split; [|lia]. right. left. unfold get_with_proof_live.
       pose proof (Hnew v ltac:(lia)) as E. destruct (nibs k); cbn [gwp_live]; by rewrite E. }
  assert (history ops = history (take (t 0%nat) ops) ++ history (drop (t 0%nat) ops)) as Hh by (by rewrite <-history_app, take_drop).
  assert (contents_at (history ops) v = contents_at (history (take (t 0%nat) ops)) v) as Hc by (rewrite Hh; by apply contents_at_app).
  assert (value_at k (history ops) v = value_at k (history (take (t 0%nat) ops)) v) as Hval' by (by rewrite <-!contents_value, Hc).
  assert (versions (unpurged (take (t 0%nat) ops)) = versions (take (t 0%nat) ops)) as Hver by (unfold versions; by rewrite unpurged_history).
  destruct (C72_every_version sha hv _ s0 v k HR0 Hk) as [(_ & p & E & Hp)|H].
  2: { exfalso. destruct (proj2 (C22_versioned_reads sha hv _ s0 HR0 k v)) as [p E]; [rewrite unpurged_low, Hver; lia|done|].
       rewrite E in H. destruct H as [H|(_ & nk & H)]; discriminate H. }
  rewrite unpurged_history, <-Hval' in E. rewrite unpurged_history, <-Hval', <-Hc in Hp.
  destruct (gwp_live_ok rd s0 _ Hnode Hval Hfresh sha v k _ Hv (nibs k) 0%nat (v, []) true [] E) as [H|[H (j' & e & Hbad)]].
  - assert right as Hr by (unfold right; split; [exact Hv|]; exists p; split; [exact H|exact Hp]). split; [by left|done].
  - split; [right; destruct H as [[_ H]|H]; [by left|right; split; [done|exact H]]|].
    intros [Hlow _]. exfalso. destruct HL as [Hm HR].
    destruct (proj2 (C22_versioned_reads sha hv _ _ (HR j') k v)) as [p' E']; [|done|].
    + split; [by apply kept_take|]. destruct (take_more ops (t 0%nat) (t j') (Hm 0%nat j' ltac:(lia))) as [m Em].
      rewrite Em. unfold versions in *. rewrite history_app, app_length. lia.
    + unfold get_with_proof in E'. rewrite E' in Hbad. discriminate.
Qed.

(** * C84: iterating while others write and prune gives the pairs of the version
    in order, up to an error that then stays for ever. *)
Theorem C84_live_iterate sha hv ops t rd v start : live sha hv ops t rd -> length start = 32%nat ->
  (exists nk, iter_new_live rd v start = Err (MissingNode nk) /\ ~ (low ops <= v < versions (take (t 0%nat) ops))) \/
  (v < versions (take (t 0%nat) ops) /\ exists it j l, iter_new_live rd v start = Ok (it, j) /\ ascending l /\
    (forall k x, (k, x) ∈ l <-> contents_at (history ops) v !! k = Some x /\ ~ bytes_lt k start) /\
    forall c, listing_live rd c j it = called l c \/
      exists i nk, (i < c)%nat /\ ~ low ops <= v /\
        listing_live rd c j it = take i (called l c) ++ replicate (c - i) (Some (inr (MissingNode nk)))).
Proof.
  intros HL Hk. destruct (live_base sha hv ops t rd HL) as (s0 & HR0 & Hnode & Hval & Hfresh & Hnew).
  destruct (decide (v < versions (take (t 0%nat) ops))) as [Hv|Hv].
  2: { left. exists (v, []). split; [|lia]. unfold iter_new_live.
       pose proof (Hnew v ltac:(lia)) as E. destruct (nibs start); cbn [it_descend_live]; unfold st_get_node; by rewrite E. }
  assert (history ops = history (take (t 0%nat) ops) ++ history (drop (t 0%nat) ops)) as Hh by (by rewrite <-history_app, take_drop).
  assert (contents_at (history ops) v = contents_at (history (take (t 0%nat) ops)) v) as Hc by (rewrite Hh; by apply contents_at_app).
  assert (versions (unpurged (take (t 0%nat) ops)) = versions (take (t 0%nat) ops)) as Hver by (unfold versions; by rewrite unpurged_history).
  destruct (C36_iterate_from_key sha hv _ s0 v start HR0) as (it & l & E & Hy & Ha & Hl); [rewrite unpurged_low, Hver; lia|done|].
  rewrite unpurged_history, <-Hc in Hl.
  assert (low ops <= v -> forall j, exists it' l', iter_new (rd j) v start = Ok it' /\ yields (rd j) it' l') as Hkept.
  { intros Hlow j. destruct HL as [Hm HR].
    destruct (C36_iterate_from_key sha hv _ (rd j) v start (HR j)) as (it' & l' & E' & Hy' & _); [|done|by exists it', l'].
    split; [by apply kept_take|]. destruct (take_more ops (t 0%nat) (t j) (Hm 0%nat j ltac:(lia))) as [m Em].
    rewrite Em. unfold versions in *. rewrite history_app, app_length. lia. }
  destruct (it_descend_live_ok rd s0 _ Hnode Hval Hfresh v start it (nibs start) 0%nat (v, []) [] E) as [(j & H & _)|[[nk H] (j' & e & Hbad)]].
  - right. split; [done|]. exists it, j, l. split; [done|]. split; [done|]. split; [done|]. intros c.
    destruct (listing_live_ok rd s0 _ Hnode Hval Hfresh it l Hy c j) as [H1|[(i & nk & Hi & H1) [j' Hb]]]; [by left|right].
    exists i, nk. split; [done|]. split; [|done]. intros Hlow. destruct (Hkept Hlow j') as (it' & l' & E1 & Hy1).
    destruct (one_descend rd s0 _ Hnode Hval Hfresh v start it j' (nibs start) (v, []) [] E) as [E2|[e E2]];
      fold (iter_new (rd j') v start) in E2; rewrite E1 in E2; [|discriminate]. injection E2 as ->. by apply (Hb l').
  - left. exists nk. split; [done|]. intros [Hlow _]. destruct (Hkept Hlow j') as (it' & l' & E1 & _).
    unfold iter_new in E1. rewrite E1 in Hbad. discriminate.
Qed.

(** Another thread overwrites the second key and prunes between the lookups of
    the reader: a read of the first key at the old version is right, one of the
    second stops at the missing leaf; the version written meanwhile was not
    there when the read began.  An iterator that has come to its end fails once
    the root it looks up again is gone. *)
Definition live_ops : list op := [OpPut [[(ka, Some va); (kc, Some vb)]]; OpPut [[(kc, Some vc)]]; OpPurge 1].
Definition live_at (a : nat) : store := match run sha256 sha256 (take a live_ops) with Ok s => s | _ => empty_store end.
Definition live_t (c j : nat) : nat := if (j <? c)%nat then 1 else 3.
Definition live_rd (c j : nat) : store := live_at (live_t c j).
Lemma live_reached a : (match run sha256 sha256 (take a live_ops) with Ok _ => true | _ => false end) = true ->
  wf_ops (take a live_ops) -> reached sha256 sha256 (take a live_ops) (live_at a).
Proof. intros H Hw. split; [done|]. unfold live_at. revert H. destruct (run sha256 sha256 (take a live_ops)); [reflexivity|discriminate..]. Qed.
Lemma live_ex c : live sha256 sha256 live_ops (live_t c) (live_rd c).
Proof.
  split.
  - intros i j H. unfold live_t. destruct (Nat.ltb_spec i c), (Nat.ltb_spec j c); lia.
  - intros j. unfold live_rd. assert (live_t c j = 1%nat \/ live_t c j = 3%nat) as [E|E]
      by (unfold live_t; destruct (j <? c)%nat; [by left|by right]); rewrite E; (apply live_reached; [vm_compute; reflexivity|wf]).
Qed.
Example C83_example : live sha256 sha256 live_ops (live_t 1) (live_rd 1) /\ versions (take (live_t 1 0) live_ops) = 1 /\
  map (fun '(k, v) => outcome (get_with_proof_live sha256 (live_rd 1) k v)) [(ka, 0); (kc, 0); (kc, 1)] =
  [inl (Some (Some va)); inr (MissingNode (0, take 1 (nibs kc))); inr (MissingRoot 1)] /\
  live sha256 sha256 live_ops (fun _ => 3%nat) (fun _ => live_at 3) /\ low live_ops = 1 /\
  outcome (get_with_proof_live sha256 (fun _ => live_at 3) kc 1) = inl (Some (Some vc)).
Proof.
  split; [apply live_ex|]. split; [reflexivity|]. split; [vm_compute; reflexivity|]. split; [|split; [reflexivity|vm_compute; reflexivity]].
  split; [done|]. intros _. apply (proj2 (live_ex 0) 0%nat).
Qed.
Definition live_listing (c : nat) : list (option (bytes * bytes + jerr)) :=
  match iter_new_live (live_rd c) 0 ka with Ok (it, j) => listing_live (live_rd c) 5 j it | _ => [] end.
Example C84_example : live sha256 sha256 live_ops (live_t 7) (live_rd 7) /\ live sha256 sha256 live_ops (live_t 4) (live_rd 4) /\
  live_listing 4 = [Some (inl (ka, va)); Some (inr (MissingNode (0, take 1 (nibs kc)))); Some (inr (MissingNode (0, take 1 (nibs kc))));
                    Some (inr (MissingNode (0, take 1 (nibs kc)))); Some (inr (MissingNode (0, take 1 (nibs kc))))] /\
  live_listing 7 = [Some (inl (ka, va)); Some (inl (kc, vb)); None; Some (inr (MissingNode (0, []))); Some (inr (MissingNode (0, [])))] /\
  live_listing 99 = [Some (inl (ka, va)); Some (inl (kc, vb)); None; None; None].
Proof. split; [apply live_ex|]. split; [apply live_ex|]. split_and!; vm_compute; reflexivity. Qed.
Print Assumptions C83_live_read.
Print Assumptions C84_live_iterate.
