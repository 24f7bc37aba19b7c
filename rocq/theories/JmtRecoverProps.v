(** Interrupted restorations (C62, C63, C64) and the shape of the store (C65).
    Sessions are defined in JmtRecoverSpec.v. *)
From Coq Require Import Sorting.Sorted.
From Verif Require Import Base JmtNibModel JmtNibProof JmtSpec JmtTraceSpec JmtNibSpec JmtModel JmtHashProof
  JmtAbsProof JmtCacheProof JmtInsertProof JmtPutProof JmtHistProof JmtRunSpec JmtValueProof JmtRunProof JmtReadProof JmtProofProof
  JmtPropProof JmtOrderProof JmtIterModel JmtIterSpec PmtExamples JmtExamples JmtProps JmtRestoreModel JmtRestoreSpec
  JmtRestoreVerifyProof JmtRestoreRunSpec JmtRestoreRunProof JmtRestoreFinishProof JmtRestorePropProof JmtRestoreProps
  JmtRecoverSpec JmtRecoverProof JmtRecoverRunProof JmtAncestorProof.
Local Open Scope N_scope.

Lemma sends_ne l rcv ss : sends l rcv ss -> Forall (Forall (fun c : sent => fst c <> [])) ss -> l <> [].
Proof.
  assert (forall W (cs : list sent), cs <> [] -> Forall (fun c : sent => fst c <> []) cs -> W ++ concat (map fst cs) <> []) as Hne.
  { intros W [|[c r] cs] Hne Hc; [done|]. apply Forall_cons in Hc as [Hc _]. cbn in Hc |- *. destruct c; [done|]. by destruct W. }
  induction 1 as [rcv cs H El|rcv ss _ IH|rcv cs ss rest H El _ _]; intros Hcs; apply Forall_cons in Hcs as [Hc Hcs'].
  - rewrite <-El. by apply Hne.
  - by apply IH.
  - rewrite <-El. intros [E _]%app_nil. by apply (Hne (removelast rcv) cs H Hc).
Qed.

(** * C62: a tree is rebuilt, however often the restoration is interrupted. *)
Theorem C62_resume sha hv ops s u root t v l ss : reached sha hv ops s -> low ops <= u < versions ops ->
  let m := contents_at (history ops) u in
  get_root_hash sha s u = Ok root -> Forall (fun i => sha i <> spec_empty_hash) (tree_inputs sha hv m) ->
  fresh t v -> no_leaves t -> ascending l -> (forall k y, (k, y) ∈ l <-> m !! k = Some y) -> sends l [] ss ->
  Forall (Forall (fun c : sent => exists k x, last (fst c) = Some (k, x) /\ get_range_proof sha s k u = Ok (snd c))) ss ->
  exists st t', sessions sha hv t v root ss = Some st /\ finish sha st = Ok t' /\
    get_root_hash sha t' v = Ok root /\ get_leaf_count t' v = get_leaf_count s u /\
    (forall k, length k = 32%nat -> get_with_proof sha t' k v = get_with_proof sha s k u) /\
    (forall k, trie_get t' k v = match m !! k with Some x => Some x | None => trie_get t k v end) /\
    (forall w q, w <> v -> st_nodes t' !! (w, q) = st_nodes t !! (w, q)).
Proof.
  intros HR Hu m Hroot Hn Hf Hnl Ha Hiff Hss Hcs. pose proof (reached_inv _ _ _ _ HR) as HS.
  rewrite (root_ok sha hv s _ _ u HS Hu) in Hroot. injection Hroot as <-. fold m.
  pose proof (Between_start sha hv t v (smt_root sha hv m) Hf) as HB.
  assert (forall k y, (∅ : gmap bytes bytes) !! k = Some y -> (k, y) ∈ l) as Hlo0 by (intros k y Hk; by rewrite lookup_empty in Hk).
  pose proof (sessions_ok sha hv t v (smt_root sha hv m) Hf Hnl ops s u HR Hu eq_refl Hn l Ha Hiff [] ss Hss t ∅ l HB eq_refl Hcs Hlo0) as (st & lo & E & H & Hlo).
  assert (l <> []) as Hl.
  { apply (sends_ne l [] ss Hss). eapply Forall_impl; [exact Hcs|]. intros cs Hc. eapply Forall_impl; [exact Hc|].
    intros c (k & x & Hk & _) E0. by rewrite E0 in Hk. }
  assert (to_map l = m) as Em.
  { apply map_eq. intros k. apply option_eq. intros y. rewrite to_map_elem by by apply ascending_NoDup. apply Hiff. }
  destruct (finish_ok sha hv t v _ _ Hf st l [] H) as (t' & E' & HF); [by rewrite app_nil_r|done|].
  rewrite app_nil_r, Em in HF. pose proof (fi_holds _ _ _ _ _ _ _ HF) as HH.
  assert (forall k, trie_get t' k v = match m !! k with Some x => Some x | None => trie_get t k v end) as Hget.
  { intros k. unfold trie_get. rewrite (Finished_value sha hv t v lo t' m HF). destruct (m !! k) as [x|] eqn:Ek; [done|].
    destruct (lo !! k) as [y|] eqn:Ey; [|done]. apply Hlo, Hiff in Ey. congruence. }
  exists st, t'. split; [done|]. split; [done|]. split; [by apply (root_holds sha hv t' v m _ HH)|]. split.
  { rewrite (leaf_count_ok sha hv s _ _ u HS Hu). by apply (count_holds sha hv t' v m _ HH). }
  split; [|split; [exact Hget|apply (fi_old _ _ _ _ _ _ _ HF)]].
  intros k Hk. rewrite (read_ok sha hv s _ _ k u HS Hu Hk). apply (read_holds sha hv t' v m _ k HH Hk).
  intros x Hx. specialize (Hget k). unfold trie_get in Hget. by rewrite Hget, Hx.
Qed.
(** Three interruptions, one of a session that sent nothing. *)
Definition ex_sessions : list (list sent) :=
  [[([(ka, vb); (kb, va)], rp ex_u kb)]; []; [([(kb, va); (kd, vb)], rp ex_u kd)]; [([(kd, vb); (kc, va)], rp ex_u kc)]].
Definition ex_list : list (bytes * bytes) := [(ka, vb); (kb, va); (kd, vb); (kc, va)].
Example C62_example :
  get_root_hash mix rx_store ex_u = Ok (src_root ex_u) /\ fresh empty_store 7 /\ no_leaves empty_store /\ ascending ex_list /\
  (forall k y, (k, y) ∈ ex_list <-> ex_cs ex_u !! k = Some y) /\ sends ex_list [] ex_sessions /\
  Forall (Forall (fun c : sent => exists k x, last (fst c) = Some (k, x) /\ get_range_proof mix rx_store k ex_u = Ok (snd c))) ex_sessions /\
  match sessions mix mix empty_store 7 (src_root ex_u) ex_sessions with
  | Some st => match finish mix st with
               | Ok t => get_root_hash mix t 7 = Ok (src_root ex_u) /\ get_leaf_count t 7 = Ok (Some 4) /\ trie_get t kd 7 = Some vb
               | _ => False end
  | None => False end.
Proof.
  destruct C51_example as (H1 & H2 & H3 & H4 & _ & _). split; [exact H1|]. split; [exact H2|]. split; [by intros ???|].
  split; [exact H3|]. split; [exact H4|]. split.
  { apply (sends_part _ _ _ _ [(kd, vb); (kc, va)]); [discriminate|reflexivity|]. apply sends_nothing.
    apply (sends_part _ _ _ _ [(kc, va)]); [discriminate|reflexivity|]. apply sends_last; [discriminate|reflexivity]. }
  split; [|vm_compute; auto].
  apply Forall_cons. split; [apply Forall_cons; split; [exists kb, va; split; [reflexivity|vm_compute; reflexivity]|by apply Forall_nil]|].
  apply Forall_cons. split; [by apply Forall_nil|].
  apply Forall_cons. split; [apply Forall_cons; split; [exists kd, vb; split; [reflexivity|vm_compute; reflexivity]|by apply Forall_nil]|].
  apply Forall_cons. split; [apply Forall_cons; split; [exists kc, va; split; [reflexivity|vm_compute; reflexivity]|by apply Forall_nil]|].
  by apply Forall_nil.
Qed.
Print Assumptions C62_resume.

(** * C63: after an interruption a bad chunk can make [add_chunk] panic, which
    it cannot do in a restoration without interruptions (C61).  The false
    statement: *)
Definition resumed_chunks_never_panic : Prop := forall sha hv t v root cs st st' c sibs, fresh t v -> no_leaves t ->
  feed_all sha hv (new_overwrite t v root) cs = Some st -> restore_new sha (rs_store st) v root = Ok st' ->
  wf_chunk c -> add_chunk sha hv st' c sibs <> RPanic.
(** The first session has stored [ka] and [kb], which share three nibbles, and
    their common parent; the bad chunk has a key with the same three nibbles. *)
Definition bad_key : bytes := mk 0x12 0x36.
Definition panics_after (cs : list sent) (c : list (bytes * bytes)) : Prop :=
  match feed_all mix mix (new_overwrite empty_store 7 (src_root ex_u)) cs with
  | Some st => match restore_new mix (rs_store st) 7 (src_root ex_u) with
               | Ok st' => add_chunk mix mix st' c [] = RPanic
               | _ => False end
  | None => False end.
Theorem C63_resumed_chunk_panics_refuted : ~ resumed_chunks_never_panic.
Proof.
  intros HP. assert (H : panics_after [([(ka, vb); (kb, va); (kd, vb)], rp ex_u kd)] [(bad_key, va)]) by (vm_compute; reflexivity).
  unfold panics_after in H. destruct (feed_all _ _ _ _) as [st|] eqn:E1 in H; [|exact H].
  destruct (restore_new _ _ _ _) as [st'| | |] eqn:E2 in H; [|exact H..]. revert H.
  apply (HP mix mix empty_store 7 (src_root ex_u) [([(ka, vb); (kb, va); (kd, vb)], rp ex_u kd)] st st' [(bad_key, va)] [] (fresh_empty 7)); [by intros ???|exact E1|exact E2|].
  apply Forall_cons. split; [vm_compute; reflexivity|by apply Forall_nil].
Qed.
Print Assumptions C63_resumed_chunk_panics_refuted.

(** * C65: the nodes stored at a readable version are closed upwards, and the
    children they name are stored and not newer. *)
Theorem C65_store_shape sha hv ops s w q nd : reached sha hv ops s -> low ops <= w -> st_nodes s !! (w, q) = Some nd ->
  (forall p, p `prefix_of` q -> is_Some (st_nodes s !! (w, p))) /\
  (forall n i c, nd = NInternal n -> in_children n !! i = Some c ->
    c_ver c <= w /\ is_Some (st_nodes s !! (c_ver c, q ++ [i]))).
Proof.
  intros HR Hw Hn. pose proof (reached_inv _ _ _ _ HR) as HS. destruct (si_hist _ _ _ _ _ HS) as [vs HI]. split.
  { intros p Hp. by eapply ancestors. }
  intros n i c -> Hc. pose proof (hi_fresh _ _ _ _ _ _ _ _ HI _ _ Hn) as Hwn. cbn [fst] in Hwn.
  pose proof (hi_holds _ _ _ _ _ _ _ _ HI w ltac:(lia)) as HH. set (M := cs_of hv (history ops)) in *.
  assert (NInternal n = node_of sha (M w) (vs w) q) as En.
  { destruct (decide (q = [])) as [->|Hq]; [pose proof (h_root _ _ _ _ _ HH) as E; congruence|].
    destruct (stored_live _ _ _ _ _ _ _ _ HI w q _ Hw Hq Hn) as [(_ & Hl & Ev) _]. cbn [fst snd] in Hl, Ev.
    pose proof (h_live _ _ _ _ _ HH q Hq Hl) as E. rewrite Ev in E. congruence. }
  destruct (decide (2 <= pcnt q (M w))%nat) as [H2|H2].
  - rewrite (node_of_internal sha (M w) (vs w) q H2) in En. injection En as ->. cbn [in_children] in Hc. rewrite children_of_lookup in Hc.
    destruct (decide (pcnt (q ++ [i]) (M w) = 0)%nat) as [H0|H0]; [done|]. injection Hc as <-. cbn [child_of c_ver].
    assert (live [] (M w) (q ++ [i])) as Hl.
    { split; [apply prefix_nil|]. split; [lia|right]. by rewrite removelast_last. }
    assert (q ++ [i] <> []) as Hq by by destruct q.
    split; [by apply (h_le _ _ _ _ _ HH)|]. rewrite (h_live _ _ _ _ _ HH _ Hq Hl). done.
  - exfalso. destruct (decide (pcnt q (M w) = 0)%nat) as [H0|H0]; [by rewrite node_of_null in En|].
    destruct (cnt_1 (path_bits q) (M w)) as (k & x & Ek); [unfold pcnt in *; lia|]. by rewrite (node_of_leaf sha _ _ _ _ _ Ek) in En.
Qed.
Notation n1 := (Nib false false false true).
Notation n2 := (Nib false false true false).
Notation n3 := (Nib false false true true).
Notation n8 := (Nib true false false false).
(** A node three nibbles deep, and one that names children of two versions. *)
Example C65_example : reached mix mix ex_ops rx_store /\ low ex_ops <= 4 /\
  match st_nodes rx_store !! (4, [n1; n2; n3]) with Some (NInternal n) => size (in_children n) = 2%nat | _ => False end /\
  match st_nodes rx_store !! (4, [n1; n2]) with
  | Some (NInternal n) => (c_ver <$> in_children n !! n3) = Some 4 /\ (c_ver <$> in_children n !! n8) = Some 3
  | _ => False end.
Proof. split; [exact rx_reached|]. split; [rewrite ex_low; lia|]. vm_compute. auto. Qed.
Print Assumptions C65_store_shape.

(** * C64: [new] does not start on a store that holds a tree. *)
Theorem C64_new_fails_on_a_tree sha hv ops s v root : reached sha hv ops s -> low ops = 0 -> ~ no_leaves s ->
  restore_new sha s v root = Panic \/ restore_new sha s v root = Err RootWritten.
Proof.
  intros HR H0 Hnl. unfold restore_new. pose proof (rightmost_leaf_ok s) as HL.
  destruct (rightmost_leaf s) as [[[w q] [k y]]|]; [|by destruct Hnl]. destruct HL as [HL _].
  unfold recover_partial_nodes. cbn [fst snd]. destruct (rev q) as [|j rp] eqn:Eq; [by right|left].
  rewrite climb_panics; [done|]. intros p Hp.
  apply (proj1 (C65_store_shape sha hv ops s w q _ HR ltac:(lia) HL)). assert (q = rev rp ++ [j]) as ->.
  { rewrite <-(rev_involutive q), Eq. done. }
  by apply prefix_app_r.
Qed.
(** So the following is false: *)
Definition new_never_panics : Prop := forall sha hv ops s v root, reached sha hv ops s -> restore_new sha s v root <> Panic.
Definition two_ops : list op := [OpPut [[(ka, Some va); (kc, Some vc)]]].
Definition two_store : store := match run mix mix two_ops with Ok s => s | _ => empty_store end.
Lemma two_reached : reached mix mix two_ops two_store.
Proof.
  split; [apply (bool_decide_unpack _); vm_compute; exact I|].
  assert (H : (match run mix mix two_ops with Ok _ => true | _ => false end) = true) by (vm_compute; reflexivity).
  unfold two_store. revert H. destruct (run mix mix two_ops); [reflexivity|discriminate..].
Qed.
Theorem C64_new_panics_refuted : ~ new_never_panics.
Proof. intros HP. apply (HP mix mix two_ops two_store 7 [] two_reached). vm_compute. reflexivity. Qed.
Example C64_example : reached mix mix two_ops two_store /\ low two_ops = 0 /\ ~ no_leaves two_store.
Proof.
  split; [exact two_reached|]. split; [reflexivity|]. intros H.
  assert (E : exists vh, st_nodes two_store !! (0, [n1]) = Some (NLeaf ka vh)) by (eexists; vm_compute; reflexivity).
  destruct E as [vh E]. by apply (H (0, [n1]) ka vh).
Qed.
Print Assumptions C64_new_fails_on_a_tree.
Print Assumptions C64_new_panics_refuted.
