(** Writing batches: merged (C78), again (C79), refused (C80). *)
From Verif Require Import Base KeccakModel Sha256Model JmtNibModel JmtNibProof JmtSpec JmtNibSpec JmtTraceSpec JmtModel
  JmtAbsProof JmtCacheProof JmtPutProof JmtHistProof JmtRunSpec JmtValueProof JmtRunProof JmtReadProof JmtProofProof
  JmtMoreProof JmtPropProof JmtExamples JmtProps JmtPurgeProof JmtPurgeProps JmtWriteModel JmtWriteProof.
Local Open Scope N_scope.

(** * C78: writing two node batches merged does what writing one after the other
    does, for every store and all batches, when the latter succeeds. *)
Theorem C78_merge s n1 v1 n2 v2 s1 s2 : write_node_batch s n1 v1 = Ok s1 -> write_node_batch s1 n2 v2 = Ok s2 ->
  write_node_batch s (merge_nodes n1 n2) (merge_values v1 v2) = Ok s2.
Proof.
  unfold write_node_batch. destruct (negb (st_overwrite s) && negb (bool_decide (n1 ##ₘ st_nodes s))) eqn:E1; [done|].
  intros E. apply rbind_inv in E as (h1 & Eh1 & [= <-]). cbn [st_overwrite st_nodes st_hist st_stale].
  destruct (negb (st_overwrite s) && negb (bool_decide (n2 ##ₘ n1 ∪ st_nodes s))) eqn:E2; [done|].
  intros E. apply rbind_inv in E as (h2 & Eh2 & [= <-]).
  assert (negb (st_overwrite s) && negb (bool_decide (merge_nodes n1 n2 ##ₘ st_nodes s)) = false) as ->.
  { destruct (st_overwrite s); [done|]. cbn [negb andb] in *. apply negb_false_iff, bool_decide_eq_true in E1, E2.
    apply negb_false_iff, bool_decide_eq_true. unfold merge_nodes. apply map_disjoint_union_l. split; [|done].
    by apply map_disjoint_union_r in E2 as [_ ?]. }
  rewrite (hist_puts_merge v1 v2 _ h1 h2 Eh1 Eh2). cbn [rbind]. unfold merge_nodes. by rewrite (assoc_L (∪)).
Qed.
(** Two calls in an execution, their batches merged and written at once. *)
Definition merge_batches (a b : batch) : batch :=
  Batch (merge_nodes (b_nodes a) (b_nodes b)) (merge_values (b_values a) (b_values b)) (b_stale a ∪ b_stale b) (b_stats a ++ b_stats b).
Theorem C78_merged_calls sha hv ops s sets1 sets2 : reached sha hv ops s -> wf_ops (ops ++ [OpPut sets1; OpPut sets2]) ->
  exists r1 b1 s1 r2 b2 s2, put_value_sets sha hv s sets1 (versions ops) = Ok (r1, b1) /\ write_batch s b1 = Ok s1 /\
    put_value_sets sha hv s1 sets2 (versions ops + N.of_nat (length sets1)) = Ok (r2, b2) /\ write_batch s1 b2 = Ok s2 /\
    reached sha hv (ops ++ [OpPut sets1; OpPut sets2]) s2 /\ write_batch s (merge_batches b1 b2) = Ok s2.
Proof.
  intros HR Hwf. pose proof (reached_inv _ _ _ _ HR) as HS. pose proof Hwf as [Hw Hm].
  rewrite history_app in Hw, Hm. cbn [history flat_map op_sets] in Hw, Hm. rewrite app_nil_r in Hw, Hm.
  fold (history ops) in Hw, Hm. apply Forall_app in Hw as [Hw0 [Hw1 Hw2]%Forall_app]. rewrite !app_length in Hm.
  destruct (call_ok sha hv s _ _ sets1 HS Hw1) as (r1 & b1 & s1 & E1 & W1 & HS1 & _); [rewrite app_length; lia|].
  destruct (call_ok sha hv s1 _ _ sets2 HS1 Hw2) as (r2 & b2 & s2 & E2 & W2 & HS2 & _); [rewrite !app_length; lia|].
  rewrite app_length, Nat2N.inj_add in E2. fold (versions ops) in E1, E2.
  exists r1, b1, s1, r2, b2, s2. split_and!; [done..| |].
  - split; [done|]. destruct HR as [_ ER]. unfold run in *. rewrite run_from_app, ER. cbn [rbind].
    replace (0 + N.of_nat (length (history ops))) with (versions ops) by (unfold versions; lia).
    cbn [run_from run_op op_sets]. rewrite E1. cbn [rbind]. rewrite W1. cbn [rbind]. rewrite E2. cbn [rbind]. by rewrite W2.
  - unfold write_batch in W1, W2 |- *. apply rbind_inv in W1 as (t1 & N1 & W1). apply rbind_inv in W2 as (t2 & N2 & W2).
    cbv beta in W1, W2. destruct (bool_decide (b_stale b1 ## st_stale t1)) eqn:D1; [|discriminate W1]. injection W1 as <-.
    destruct (bool_decide (b_stale b2 ## st_stale t2)) eqn:D2; [|discriminate W2]. injection W2 as <-.
    apply bool_decide_eq_true in D1, D2.
    assert (st_stale t1 = st_stale s /\ exists h, hist_puts (values_sorted (b_values b1)) (st_hist s) = Ok h) as [Es1 _].
    { unfold write_node_batch in N1. destruct (negb _ && negb _); [done|]. apply rbind_inv in N1 as (h & Eh & [= <-]). split; [done|by exists h]. }
    pose proof N2 as N2'. unfold write_node_batch in N2'. cbn [st_overwrite st_nodes st_hist st_stale] in N2'.
    destruct (negb (st_overwrite t1) && negb _) eqn:Ec; [done|]. apply rbind_inv in N2' as (h2 & Eh2 & Et2).
    assert (write_node_batch t1 (b_nodes b2) (b_values b2) = Ok (Store (b_nodes b2 ∪ st_nodes t1) (st_stale t1) h2 (st_overwrite t1))) as N3.
    { unfold write_node_batch. by rewrite Ec, Eh2. }
    cbn [merge_batches b_nodes b_values b_stale]. rewrite (C78_merge _ _ _ _ _ _ _ N1 N3). cbn [rbind st_stale st_nodes st_hist st_overwrite].
    injection Et2 as <-. cbn [st_stale st_nodes st_hist st_overwrite] in D1, D2 |- *. rewrite Es1 in *.
    rewrite bool_decide_true by set_solver. do 2 f_equal. set_solver.
Qed.

(** * C79: writing a batch again changes nothing, whatever comes of it; on a
    store that forbids overwriting, the batch of an update is refused. *)
Theorem C79_again_harmless s b s' ns vs st : write_batch s b = Ok s' -> lists_batch b ns vs st ->
  write_all s ns vs st = (Ok tt, s') /\ snd (write_all s' ns vs st) = s'.
Proof. intros E HL. split; [by apply (write_all_ok s b)|by eapply write_again]. Qed.
Theorem C79_again_refused sha hv ops s sets r b s' ns vs st : reached sha hv ops s -> wf_ops (ops ++ [OpPut sets]) -> sets <> [] ->
  put_value_sets sha hv s sets (versions ops) = Ok (r, b) -> write_batch s b = Ok s' -> lists_batch b ns vs st ->
  st_overwrite s = false -> write_all s' ns vs st = (Panic, s').
Proof.
  intros HR [Hw Hm] Hne E W HL Ho. pose proof (reached_inv _ _ _ _ HR) as HS.
  rewrite history_app in Hw, Hm. cbn [history flat_map op_sets] in Hw, Hm. rewrite app_nil_r in Hw, Hm.
  fold (history ops) in Hw, Hm. apply Forall_app in Hw as [Hw0 Hw1].
  destruct (call_ok sha hv s _ _ sets HS Hw1 Hm) as (r0 & b0 & s0 & E0 & W0 & HS0 & _ & En & _). fold (versions ops) in E0.
  rewrite E0 in E. injection E as <- <-. rewrite W0 in W. injection W as <-.
  destruct (si_hist _ _ _ _ _ HS0) as [vs0 HI]. destruct (si_hist _ _ _ _ _ HS) as [vs1 HI1].
  assert (low ops <= versions ops < N.of_nat (length (history ops ++ sets))) as Hv.
  { split; [|rewrite app_length; unfold versions; destruct sets; [done|cbn [length]; lia]].
    destruct (decide (versions ops = 0)) as [E1|E1]; [rewrite (si_lo0 _ _ _ _ _ HS E1); lia|].
    pose proof (si_lo _ _ _ _ _ HS). unfold versions in *. lia. }
  pose proof (h_root _ _ _ _ _ (hi_holds _ _ _ _ _ _ _ _ HI _ Hv)) as Hroot.
  destruct (lists_nodes _ _ _ _ HL) as (Hd & _ & Hel).
  assert ((versions ops, []) ∈ ns.*1) as Hin.
  { apply Hel. rewrite En, lookup_union_Some_raw in Hroot. destruct Hroot as [H|[_ H]]; [by eexists|].
    pose proof (hi_fresh _ _ _ _ _ _ _ _ HI1 _ _ H) as Hf. cbn [fst] in Hf. unfold versions in Hf. lia. }
  pose proof (write_again s b0 s0 ns vs st W0 HL) as Hs.
  assert (fst (write_all s0 ns vs st) = Panic) as Hp.
  { assert (st_overwrite s0 = false) as Ho0.
    { unfold write_batch, write_node_batch in W0. destruct (negb _ && negb _); [done|]. destruct (hist_puts _ _); [|done..].
      cbn [rbind st_stale] in W0. case_bool_decide; [|done]. injection W0 as <-. exact Ho. }
    unfold write_all. rewrite Ho0.
    pose proof (insert_nodes_clash ns (st_nodes s0) Hd ltac:(exists (versions ops, []); rewrite Hroot; split; [done|by eexists])) as Hc.
    destruct (insert_nodes false ns (st_nodes s0)) as [r1 n]. cbn [fst] in Hc. by subst r1. }
  destruct (write_all s0 ns vs st) as [r1 s1]. cbn [fst snd] in Hp, Hs. by subst.
Qed.

(** * C80: a refused write.  In full the property says that the store is as
    before: [fst (write_all s ns vs st) <> Ok tt -> snd (write_all s ns vs st) = s].
    That is false, see below.  What holds: versions older than the update that
    the batch belongs to read as before, whatever the outcome. *)
Lemma batch_new sha hv ops s sets r b : reached sha hv ops s -> wf_ops (ops ++ [OpPut sets]) ->
  put_value_sets sha hv s sets (versions ops) = Ok (r, b) ->
  (forall nk nd, b_nodes b !! nk = Some nd -> versions ops <= fst nk) /\
  (forall v k x, b_values b !! (v, k) = Some x -> versions ops <= v).
Proof.
  intros HR [Hw Hm] E. pose proof (reached_inv _ _ _ _ HR) as HS.
  rewrite history_app in Hw, Hm. cbn [history flat_map op_sets] in Hw, Hm. rewrite app_nil_r in Hw, Hm.
  fold (history ops) in Hw, Hm. apply Forall_app in Hw as [Hw0 Hw1]. rewrite app_length in Hm.
  pose proof (start_ok sha hv s (history ops) (low ops) sets HS) as HL0. fold (versions ops) in HL0.
  destruct (loop_sets sha hv (cs_of hv (history ops ++ sets)) (wr_of (history ops ++ sets)) s (versions ops) (low ops)
    (fold_left apply_set (history ops) ∅) sets [] (cache_new s (versions ops))) as (tc & Et & HL); try done.
  { apply (si_lo _ _ _ _ _ HS). } { apply (si_lo0 _ _ _ _ _ HS). }
  { cbn [app]. unfold versions. lia. }
  { cbn [app length]. intros i [_ Hi]. unfold cs_of, contents_at. f_equal.
    replace (S (N.to_nat (versions ops + N.of_nat i))) with (length (history ops) + S i)%nat by (unfold versions; lia).
    rewrite firstn_app_2. by rewrite fold_left_app. }
  { cbn [app length]. intros i k [_ Hi] (kvs & A & B). exists kvs. split; [|done].
    replace (N.to_nat (versions ops + N.of_nat i)) with (length (history ops) + i)%nat in A by (unfold versions; lia).
    by rewrite lookup_app_r, Nat.add_comm, Nat.add_sub in A by lia. }
  cbn [app length] in HL, Et. replace (versions ops + N.of_nat 0) with (versions ops) in Et by lia.
  unfold put_value_sets in E. rewrite Et in E. cbn [rbind batch_of] in E. injection E as <- <-. cbn [b_nodes b_values]. split.
  - intros nk nd Hn. by apply (lp_nodes _ _ _ _ _ _ _ _ _ _ HL) in Hn as [? _].
  - intros v k x Hx. rewrite (lp_vals _ _ _ _ _ _ _ _ _ _ HL) in Hx. by case_decide.
Qed.
Lemma write_all_old s ns vs st w u : (forall nk nd, (nk, nd) ∈ ns -> w <= fst nk) -> (forall v k x, (v, k, x) ∈ vs -> w <= v) -> u < w ->
  (forall nk, fst nk < w -> st_nodes (snd (write_all s ns vs st)) !! nk = st_nodes s !! nk) /\
  (forall k, st_get_value_option (snd (write_all s ns vs st)) u k = st_get_value_option s u k).
Proof.
  intros Hn Hv Hu. pose proof (insert_nodes_old (st_overwrite s) w ns (st_nodes s) Hn) as H1.
  pose proof (insert_values_old w u Hu vs (st_hist s) Hv) as H2. unfold write_all.
  destruct (insert_nodes (st_overwrite s) ns (st_nodes s)) as [r1 n]. cbn [snd] in H1.
  destruct (insert_values vs (st_hist s)) as [r2 h]. cbn [snd] in H2.
  destruct (insert_stale st (st_stale s)) as [r3 t].
  assert (forall k, match h !! k with Some l => hist_find (rev l) u | None => None end =
    match st_hist s !! k with Some l => hist_find (rev l) u | None => None end) as H3 by exact H2.
  destruct r1 as [[]| | |]; cbn [snd st_nodes]; (split; [|intros k; unfold st_get_value_option; cbn [st_hist]]); try done;
    destruct r2 as [[]| | |]; cbn [snd st_nodes st_hist]; done.
Qed.
Theorem C80_older_versions_partial sha hv ops s ops0 s0 sets r b ns vs st u k : reached sha hv ops s -> low ops <= u < versions ops ->
  reached sha hv ops0 s0 -> wf_ops (ops0 ++ [OpPut sets]) -> put_value_sets sha hv s0 sets (versions ops0) = Ok (r, b) ->
  lists_batch b ns vs st -> u < versions ops0 -> length k = 32%nat ->
  let s' := snd (write_all s ns vs st) in
  get_with_proof sha s' k u = get_with_proof sha s k u /\ get_root_hash sha s' u = get_root_hash sha s u /\
  get_leaf_count s' u = get_leaf_count s u /\ trie_get s' k u = trie_get s k u.
Proof.
  intros HR Hu HR0 Hwf E HL Hlt Hk s'. destruct (batch_new sha hv ops0 s0 sets r b HR0 Hwf E) as [Hn Hv].
  destruct (write_all_old s ns vs st (versions ops0) u) as [H1 H2]; [| |done|].
  { intros nk nd Hin. destruct HL as (Hp & _). rewrite Hp in Hin. apply elem_of_map_to_list in Hin. by eapply Hn. }
  { intros v k' x Hin. destruct HL as (_ & Hl & _). apply (lists_elem _ _ v k' x Hl) in Hin. by eapply Hv. }
  fold s' in H1, H2. pose proof (reached_inv _ _ _ _ HR) as HS. destruct (si_hist _ _ _ _ _ HS) as [vers HI].
  pose proof (hi_holds _ _ _ _ _ _ _ _ HI u Hu) as HH.
  assert (Holds sha (st_nodes s') u (cs_of hv (history ops) u) (vers u)) as HH'.
  { split; [apply (h_wf _ _ _ _ _ HH)|rewrite H1 by (cbn [fst]; lia); apply (h_root _ _ _ _ _ HH)| |apply (h_le _ _ _ _ _ HH)].
    intros q Hq Hl. pose proof (h_le _ _ _ _ _ HH q Hq Hl). rewrite H1 by (cbn [fst]; lia). by apply (h_live _ _ _ _ _ HH). }
  split_and!.
  - unfold get_with_proof.
    rewrite (gwp_ok sha s u _ (vers u) k HH Hk (nibs k) [] (u, []) true []); [|apply (h_root _ _ _ _ _ HH)|done|by left|done|done].
    rewrite (gwp_ok sha s' u _ (vers u) k HH' Hk (nibs k) [] (u, []) true []); [|apply (h_root _ _ _ _ _ HH')|done|by left|done|done].
    destruct (bpath _ _ _ _) as [l sb]. f_equal. unfold found_value, st_get_value. destruct l as [[k0 h0]|]; [|done]. destruct (decide _); by rewrite ?H2.
  - unfold get_root_hash. by rewrite (h_root _ _ _ _ _ HH), (h_root _ _ _ _ _ HH').
  - unfold get_leaf_count. by rewrite (h_root _ _ _ _ _ HH), (h_root _ _ _ _ _ HH').
  - apply H2.
Qed.

(** Two updates made for the same version from the same store: the second write
    is refused, but has replaced the root of that version by its own.  The root
    hash of the version is another one, and the proof of the tree for the value
    it returns does not verify. *)
Definition fork_ops : list op := [OpPut [[(ka, Some va)]]].
Definition fork_one : list op := fork_ops ++ [OpPut [[(ka, Some vb)]]].
Definition fork_set : list (list write) := [[(ka, Some vc)]].
Definition fork_store (ops : list op) : store := match run sha256 sha256 ops with Ok s => s | _ => empty_store end.
Definition fork_batch : batch :=
  match put_value_sets sha256 sha256 (fork_store fork_ops) fork_set 1 with Ok (_, b) => b | _ => Batch ∅ ∅ ∅ [] end.
Definition fork_left : res jerr unit * store :=
  write_all (fork_store fork_one) (map_to_list (b_nodes fork_batch)) (values_sorted (b_values fork_batch)) (elements (b_stale fork_batch)).
Lemma listed b : lists_batch b (map_to_list (b_nodes b)) (values_sorted (b_values b)) (elements (b_stale b)).
Proof. split; [done|]. split; [apply values_sorted_lists|done]. Qed.
Lemma run_reached ops : wf_ops ops -> (match run sha256 sha256 ops with Ok _ => true | _ => false end) = true ->
  reached sha256 sha256 ops (fork_store ops).
Proof. intros Hw H. split; [done|]. unfold fork_store. destruct (run sha256 sha256 ops); [done|discriminate H..]. Qed.
Theorem C80_refused_write_refuted : exists ops s ws r b s1 k x ns vs st s2 root root2 p,
  reached sha256 sha256 ops s /\ put_value_sets sha256 sha256 s [ws] (versions ops) = Ok (r, b) /\
  reached sha256 sha256 (ops ++ [OpPut [[(k, Some x)]]]) s1 /\ lists_batch b ns vs st /\ length ns = 1%nat /\
  write_all s1 ns vs st = (Panic, s2) /\
  get_root_hash sha256 s1 (versions ops) = Ok root /\ get_root_hash sha256 s2 (versions ops) = Ok root2 /\ root <> root2 /\
  get_with_proof sha256 s2 k (versions ops) = Ok (Some x, p) /\ verify sha256 sha256 p root2 k (Some x) = Err ValueMismatch.
Proof.
  assert (H : match put_value_sets sha256 sha256 (fork_store fork_ops) fork_set 1, fork_left,
      get_root_hash sha256 (fork_store fork_one) 1, get_root_hash sha256 (snd fork_left) 1, get_with_proof sha256 (snd fork_left) ka 1 with
      | Ok (_, b), (Panic, _), Ok root, Ok root2, Ok (Some x, p) =>
          bool_decide (length (map_to_list (b_nodes b)) = 1%nat) && negb (bool_decide (root = root2)) && bool_decide (x = vb) &&
          match verify sha256 sha256 p root2 ka (Some vb) with Err ValueMismatch => true | _ => false end
      | _, _, _, _, _ => false end = true) by (vm_compute; reflexivity).
  destruct (put_value_sets sha256 sha256 (fork_store fork_ops) fork_set 1) as [[r b]| | |] eqn:E1; [|discriminate H..].
  destruct fork_left as [[[]| | |] s2] eqn:E2; [discriminate H|discriminate H| |discriminate H]. cbn [snd] in H.
  destruct (get_root_hash sha256 (fork_store fork_one) 1) as [root| | |] eqn:E3; [|discriminate H..].
  destruct (get_root_hash sha256 s2 1) as [root2| | |] eqn:E4; [|discriminate H..].
  destruct (get_with_proof sha256 s2 ka 1) as [[[x|] p]| | |] eqn:E5; [|discriminate H..].
  apply andb_prop in H as [H H4]. apply andb_prop in H as [H H3]. apply andb_prop in H as [H1 H2].
  apply bool_decide_eq_true in H1, H3. apply negb_true_iff, bool_decide_eq_false in H2. subst x.
  assert (fork_batch = b) as Eb by (unfold fork_batch; by rewrite E1).
  exists fork_ops, (fork_store fork_ops), [(ka, Some vc)], r, b, (fork_store fork_one), ka, vb,
    (map_to_list (b_nodes b)), (values_sorted (b_values b)), (elements (b_stale b)), s2, root, root2, p.
  split; [apply run_reached; [wf|vm_compute; reflexivity]|]. split; [exact E1|].
  split; [apply (run_reached fork_one); [wf|vm_compute; reflexivity]|]. split; [apply listed|]. split; [exact H1|].
  split; [rewrite <-Eb; exact E2|]. split; [exact E3|]. split; [exact E4|]. split; [exact H2|]. split; [exact E5|].
  destruct (verify sha256 sha256 p root2 ka (Some vb)) as [|[]| |]; try discriminate H4. reflexivity.
Qed.

(** Batches with a key written twice at one version, merged; and two that are
    refused one after the other because the second is older, but not merged. *)
Definition hist_of (r : res jerr store) : option (list (bytes * list (N * option bytes))) :=
  match r with Ok s => Some (map_to_list (st_hist s)) | _ => None end.
Definition one_then (v1 v2 : gmap (N * bytes) (option bytes)) : res jerr store :=
  rbind (write_node_batch empty_store ∅ v1) (fun s => write_node_batch s ∅ v2).
Example C78_example :
  let v1 : gmap (N * bytes) (option bytes) := <[(0, ka) := Some va]> {[(1, ka) := Some vb]} in
  let v2 : gmap (N * bytes) (option bytes) := <[(1, ka) := None]> {[(2, ka) := Some vc]} in
  hist_of (one_then v1 v2) = Some [(ka, [(0, Some va); (1, None); (2, Some vc)])] /\
  hist_of (write_node_batch empty_store (merge_nodes ∅ ∅) (merge_values v1 v2)) = hist_of (one_then v1 v2) /\
  hist_of (one_then v2 v1) = None /\
  hist_of (write_node_batch empty_store (merge_nodes ∅ ∅) (merge_values v2 v1)) = Some [(ka, [(0, Some va); (1, Some vb); (2, Some vc)])] /\
  reached sha256 sha256 fork_ops (fork_store fork_ops) /\ wf_ops (fork_ops ++ [OpPut [[(kb, Some vb)]; [(ka, None)]]; OpPut fork_set]).
Proof.
  split; [vm_compute; reflexivity|]. split; [vm_compute; reflexivity|]. split; [vm_compute; reflexivity|].
  split; [vm_compute; reflexivity|]. split; [apply run_reached; [wf|vm_compute; reflexivity]|wf].
Qed.
(** Writing the same update twice; a refused write of another update and the
    version before it. *)
Definition fork_again : res jerr unit * store :=
  let b := match put_value_sets sha256 sha256 (fork_store fork_ops) [[(ka, Some vb)]] 1 with Ok (_, b) => b | _ => Batch ∅ ∅ ∅ [] end in
  write_all (fork_store fork_one) (map_to_list (b_nodes b)) (values_sorted (b_values b)) (elements (b_stale b)).
Definition panicked (r : res jerr unit) : bool := match r with Panic => true | _ => false end.
Example C79_example : reached sha256 sha256 fork_ops (fork_store fork_ops) /\ wf_ops fork_one /\
  st_overwrite (fork_store fork_ops) = false /\ panicked (fst fork_again) = true /\
  map_to_list (st_nodes (snd fork_again)) = map_to_list (st_nodes (fork_store fork_one)).
Proof.
  split; [apply run_reached; [wf|vm_compute; reflexivity]|]. split; [wf|]. split; [vm_compute; reflexivity|].
  split; vm_compute; reflexivity.
Qed.
Example C80_example : reached sha256 sha256 fork_one (fork_store fork_one) /\ low fork_one <= 0 < versions fork_one /\
  reached sha256 sha256 fork_ops (fork_store fork_ops) /\ wf_ops (fork_ops ++ [OpPut fork_set]) /\ 0 < versions fork_ops /\
  panicked (fst fork_left) = true /\
  match get_with_proof sha256 (snd fork_left) ka 0 with Ok (x, _) => x | _ => None end = Some va.
Proof.
  split; [apply (run_reached fork_one); [wf|vm_compute; reflexivity]|]. split; [vm_compute; split; [discriminate|reflexivity]|].
  split; [apply run_reached; [wf|vm_compute; reflexivity]|]. split; [wf|]. split; [vm_compute; reflexivity|].
  split; vm_compute; reflexivity.
Qed.
Print Assumptions C78_merge.
Print Assumptions C78_merged_calls.
Print Assumptions C79_again_harmless.
Print Assumptions C79_again_refused.
Print Assumptions C80_older_versions_partial.
Print Assumptions C80_refused_write_refuted.
