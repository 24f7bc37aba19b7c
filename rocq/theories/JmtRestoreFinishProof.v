(** What [finish] writes, and reading it back. *)
From Coq Require Import Sorting.Sorted.
From Verif Require Import Base JmtNibModel JmtNibProof JmtSpec JmtTraceSpec JmtNibSpec JmtModel JmtHashProof JmtAbsProof JmtCacheProof
  JmtInsertProof JmtPutProof JmtHistProof JmtRunSpec JmtValueProof JmtRunProof JmtReadProof JmtProofProof JmtOrderProof
  JmtIterModel JmtIterProof JmtRestoreModel JmtRestoreProof JmtRestoreAddProof JmtRestoreVerifyProof JmtRestoreSpec JmtRestoreCheckProof
  JmtRestoreRunSpec JmtRestoreRunProof.
Local Open Scope nat_scope.

Lemma one_elem {A} (l : list A) x : NoDup l -> (forall y, y ∈ l <-> y = x) -> l = [x].
Proof.
  intros Hd H. symmetry. apply Permutation_singleton_l. apply NoDup_Permutation; [apply NoDup_singleton|done|].
  intros y. rewrite H. apply elem_of_list_singleton.
Qed.
Lemma size_to_map l : NoDup (l.*1) -> size (to_map l) = length l.
Proof.
  intros H. unfold to_map. rewrite <-(Permutation_length (map_to_list_to_map l H)). reflexivity.
Qed.

(** ** Reading a store that holds a tree and its values *)
Section Read.
Context (sha hv : bytes -> bytes).
Notation hvm := (hvm hv).
Lemma read_holds t w m ver k : Holds sha (st_nodes t) w (hvm m) ver -> length k = 32 ->
  (forall x, m !! k = Some x -> st_get_value_option t w k = Some x) ->
  get_with_proof sha t k w = Ok (m !! k, made_proof sha hv k m).
Proof.
  intros H Hk Hval. unfold get_with_proof. pose proof (h_wf _ _ _ _ _ H) as Hw.
  rewrite (gwp_ok sha t w (hvm m) ver k H Hk (nibs k) [] (w, []) true []);
    [|apply (h_root _ _ _ _ _ H)|done|by left|done|done].
  rewrite <-key_bits_nibs. change (path_bits []) with (@nil bool).
  pose proof (bpath_key sha hv (hvm m) k Hw Hk) as Hb. unfold made_proof, proof_of.
  destruct (bpath sha (hvm m) [] (key_bits k)) as [[[k0 x0]|] sb]; cbn [fst snd] in Hb; cbn [app].
  - destruct Hb as (Hk0 & _ & Hor). unfold JmtPutProof.hvm in *. rewrite lookup_fmap in Hk0. unfold found_value.
    destruct (decide (k0 = k)) as [->|Hne].
    + destruct (m !! k) as [x|] eqn:E; [|done]. unfold st_get_value. rewrite (Hval x eq_refl). reflexivity.
    + destruct Hor as [|Hn]; [done|]. rewrite lookup_fmap in Hn.
      destruct (m !! k) as [x|]; [done|]. reflexivity.
  - unfold JmtPutProof.hvm in Hb. rewrite lookup_fmap in Hb.
    destruct (m !! k) as [x|]; [done|]. reflexivity.
Qed.
Lemma root_holds t w m ver : Holds sha (st_nodes t) w (hvm m) ver -> get_root_hash sha t w = Ok (smt_root sha hv m).
Proof.
  intros H. unfold get_root_hash. rewrite (h_root _ _ _ _ _ H), node_of_hash by apply (h_wf _ _ _ _ _ H).
  rewrite smt_root_hash. reflexivity.
Qed.
Lemma count_holds t w m ver : Holds sha (st_nodes t) w (hvm m) ver -> get_leaf_count t w = Ok (Some (N.of_nat (size m))).
Proof.
  intros H. unfold get_leaf_count. rewrite (h_root _ _ _ _ _ H), node_of_leaf_count. do 3 f_equal. unfold cnt. cbn [path_bits flat_map].
  rewrite subm_nil. unfold JmtPutProof.hvm. apply map_size_fmap.
Qed.
End Read.

Section Finish.
Context (sha hv : bytes -> bytes) (s0 : store) (v : N) (root : bytes) (lo : gmap bytes bytes).
Hypothesis Hfresh : fresh s0 v.
Notation Pend := (Pend sha v).
Notation hvm := (hvm hv).
Notation RI := (RI sha hv s0 v root lo).
Implicit Types (Wr Pd l : list (bytes * bytes)).

(** The store after [finish]. *)
Record Finished (t : store) (m : gmap bytes bytes) : Prop := {
  fi_holds : Holds sha (st_nodes t) v (hvm m) (fun _ => v);
  fi_old : forall u q, u <> v -> st_nodes t !! (u, q) = st_nodes s0 !! (u, q);
  fi_stale : st_stale t = st_stale s0;
  fi_hist : forall k, st_hist t !! k = hist_with s0 v lo m k
}.

Lemma one_child M k vh cs : M = {[k := vh]} -> length k = 32 -> complete sha M [] cs ->
  exists i, filter (fun i => is_Some (cs !! i)) all_nibs = [i] /\ cs !! i = Some (CLeaf k vh).
Proof.
  intros -> Hk Hc. destruct (nibs_cons k Hk) as (i & r & Ei). exists i.
  assert (subm (path_bits [i]) {[k := vh]} = {[k := vh]}) as Es.
  { apply map_eq. intros l. apply option_eq. intros y. rewrite subm_Some, lookup_singleton_Some. split; [tauto|].
    intros [<- <-]. split; [done|]. rewrite key_bits_nibs, path_bits_prefix, Ei. by exists r. }
  assert (cs !! i = Some (CLeaf k vh)) as Hi by (rewrite (Hc i); cbn [app]; by apply finfo_1).
  split; [|done]. apply one_elem; [apply NoDup_filter, all_nibs_NoDup|]. intros j. rewrite elem_of_list_filter. split.
  - intros [[c Hj] _]. rewrite (Hc j) in Hj. cbn [app] in Hj. destruct (decide (pcnt [j] {[k := vh]} = 0)) as [H0|H0].
    { by rewrite finfo_0 in Hj. }
    destruct (cnt_pos_inv (path_bits [j]) {[k := vh]}) as (l & y & Hl & Hp); [lia|].
    apply lookup_singleton_Some in Hl as [<- _]. rewrite key_bits_nibs, path_bits_prefix, Ei in Hp.
    destruct Hp as [z Hz]. by injection Hz.
  - intros ->. rewrite Hi. split; [done|apply all_nibs_in].
Qed.

Lemma not_one_child M cs i k vh : wfm M -> 2 <= size M -> complete sha M [] cs ->
  filter (fun i => is_Some (cs !! i)) all_nibs = [i] -> cs !! i = Some (CLeaf k vh) -> False.
Proof.
  intros Hw H2 Hc Hf Hi.
  assert (pcnt [i] M = 1) as H1.
  { rewrite (Hc i) in Hi. cbn [app] in Hi. destruct (decide (pcnt [i] M = 0)) as [H0|H0]; [by rewrite finfo_0 in Hi|].
    destruct (decide (pcnt [i] M = 1)) as [|Hn]; [done|]. rewrite finfo_2 in Hi by lia. done. }
  destruct (cnt_1 _ _ H1) as (k0 & x0 & E).
  destruct (cnt_ge2_inv (path_bits []) M k0) as (l & y & Hne & Hl & _); [by rewrite pcnt_nil|].
  destruct (nibs_cons l) as (j & r & Ej); [by eapply Hw|].
  assert (path_bits [j] `prefix_of` key_bits l) as Hp by (rewrite key_bits_nibs, path_bits_prefix, Ej; by exists r).
  assert (j ∈ filter (fun i => is_Some (cs !! i)) all_nibs) as Hj.
  { apply elem_of_list_filter. split; [|apply all_nibs_in]. rewrite (Hc j). cbn [app].
    destruct (finfo sha M [j]) eqn:Ef; [done|]. apply finfo_None in Ef. pose proof (cnt_pos _ _ _ _ Hl Hp). lia. }
  rewrite Hf in Hj. apply elem_of_list_singleton in Hj as ->.
  assert (subm (path_bits [i]) M !! l = Some y) as Hs by by apply subm_Some.
  rewrite E in Hs. by apply lookup_singleton_Some in Hs as [? _].
Qed.

Lemma RI_wf st Wr Pd : RI st Wr Pd -> wfm (hvm (to_map (Wr ++ Pd))).
Proof.
  intros H. pose proof (ri_tree _ _ _ _ _ _ _ _ _ H) as Ht. destruct (last (Wr ++ Pd)) as [[k x]|] eqn:El.
  - destruct Ht as [p HP]. apply (pd_wf _ _ _ _ _ _ _ _ HP).
  - apply last_None in El as ->. intros k x Hk. unfold JmtPutProof.hvm, to_map in Hk. cbn in Hk. by rewrite fmap_empty in Hk.
Qed.
Lemma RI_size st Wr Pd : RI st Wr Pd -> size (hvm (to_map (Wr ++ Pd))) = length (Wr ++ Pd).
Proof.
  intros H. unfold JmtPutProof.hvm. rewrite map_size_fmap. apply size_to_map. apply (ri_dup _ _ _ _ _ _ _ _ _ H).
Qed.

Lemma finish_ok st Wr Pd : RI st Wr Pd -> Wr ++ Pd <> [] -> (length (Wr ++ Pd) = 1 -> Pd = []) ->
  exists t, finish sha st = Ok t /\ Finished t (to_map (Wr ++ Pd)).
Proof.
  intros H Hne Hone. pose proof (RI_size _ _ _ H) as Hsz. pose proof H as [Hv Hr Hnum Hp Hd Ht Ho Hst How Hval Hh _].
  set (M := hvm (to_map (Wr ++ Pd))) in *.
  destruct (last (Wr ++ Pd)) as [[k x]|] eqn:El; [|by apply last_None in El]. destruct Ht as [p HP].
  pose proof HP as [Hw (vh & Hk) Hg Hpath Hpp (cs & ps & Eps & HU & Hc) Hf Hfz].
  assert (rs_num st <> 0%N) as Hn0 by (by rewrite Hnum).
  destruct (decide (length (Wr ++ Pd) = 1)) as [H1|H1].
  - assert (Pd = []) as HPd by auto.
    assert (M = {[k := vh]}) as EM.
    { destruct (cnt_1 (path_bits []) M) as (k0 & x0 & E0); [by rewrite pcnt_nil, Hsz|].
      change (path_bits []) with (@nil bool) in E0. rewrite subm_nil in E0. rewrite E0 in Hk |- *.
      by apply lookup_singleton_Some in Hk as [-> ->]. }
    assert (length k = 32) as Hk32 by by eapply Hw.
    assert (p = []) as ->.
    { destruct Hpp as [|Hpp]; [done|]. pose proof (pcnt_mono [] p M (prefix_nil _)) as Hm. rewrite pcnt_nil, Hsz, H1 in Hm. lia. }
    pose proof (Up_length _ _ _ _ _ HU) as HL. destruct ps; [|done].
    destruct (one_child M k vh cs EM Hk32 Hc) as (i & Ei & Hi).
    assert (forall q, ~ rlive [] M q \/ q `prefix_of` nibs k) as Hnl.
    { intros q. destruct (decide (rlive [] M q)) as [Hl|]; [right|by left].
      destruct Hl as (_ & Hpos & _). destruct (cnt_pos_inv _ _ Hpos) as (l & y & Hl & Hpl).
      rewrite EM in Hl. apply lookup_singleton_Some in Hl as [<- _]. by rewrite key_bits_nibs, path_bits_prefix in Hpl. }
    assert (forall q, st_nodes (rs_store st) !! (v, q) = None /\ rs_frozen st !! (v, q) = None) as Hnone.
    { intros q. pose proof (Hf q) as Hq. rewrite decide_False in Hq by (destruct (Hnl q); tauto).
      apply lookup_union_None in Hq. tauto. }
    assert (rs_frozen st = ∅) as Efz.
    { apply map_eq. intros [w q]. rewrite lookup_empty. destruct (rs_frozen st !! (w, q)) as [nd|] eqn:E; [|done].
      destruct Hfz as [_ Hfz]. pose proof (Hfz _ _ E) as Ew. cbn in Ew. subst w. by rewrite (proj2 (Hnone q)) in E. }
    assert (rs_values st = ∅) as Eval.
    { apply map_eq. intros [w l]. rewrite lookup_empty, Hval, HPd. by case_decide. }
    unfold finish. rewrite Eps. cbn [pi_children]. rewrite Ei, Hi, !bool_decide_true by done. cbn [andb].
    rewrite (write_ok v (rs_store st) {[(rs_ver st, []) := NLeaf k vh]} ∅ (st_hist (rs_store st))).
    + eexists. split; [reflexivity|]. split; cbn [st_nodes st_stale st_hist].
      * fold M. split; [done| | |].
        -- rewrite Hv. apply lookup_union_l'. rewrite lookup_singleton. unfold node_of. change (path_bits []) with (@nil bool).
           by rewrite subm_nil, EM, map_to_list_singleton.
        -- intros q Hq (_ & _ & [->|Hl]); [done|]. exfalso. pose proof (pcnt_mono [] (removelast q) M (prefix_nil _)) as Hm.
           rewrite pcnt_nil, Hsz, H1 in Hm. lia.
        -- intros q _ _. lia.
      * intros u q Hu. rewrite Hv. rewrite lookup_union_r; [by apply Ho|]. by apply lookup_singleton_ne; congruence.
      * done.
      * intros l. rewrite HPd, app_nil_r. apply Hh.
    + split.
      * apply map_disjoint_singleton_l_2. rewrite Hv. by apply Hnone.
      * intros nk nd E. apply lookup_singleton_Some in E as [<- _]. done.
    + reflexivity.
  - assert (2 <= size M) as H2 by (rewrite Hsz; destruct (Wr ++ Pd) as [|? [|]]; cbn [length] in *; [done..|lia]).
    assert (finish sha st = rbind (freeze sha st 0) (fun st => write_node_batch (rs_store st) (rs_frozen st) (rs_values st))) as ->.
    { unfold finish. rewrite Eps. destruct ps as [|p1 ps]; [|done]. cbn [pi_children].
      pose proof (Up_length _ _ _ _ _ HU) as HL. destruct p; [|done].
      destruct (filter _ _) as [|i [|]] eqn:Ef; try done. destruct (cs !! i) as [[|k0 vh0]|] eqn:Ei; try done.
      exfalso. by eapply not_one_child. }
    destruct (freeze_pend sha v st M k p 0) as (ps' & fz' & E & _ & Hall); [done..|lia| |].
    { intros _. destruct Hpp as [->|]; [by rewrite pcnt_nil|done]. }
    specialize (Hall eq_refl) as [Hfz' Hall]. rewrite E. cbn [rbind with_partial rs_store rs_frozen rs_values].
    destruct (RI_hist_ok _ _ _ _ _ _ Hfresh _ _ _ H) as (h & Eh & Hh').
    rewrite (write_ok v _ _ _ h Hfz' Eh). eexists. split; [reflexivity|]. split; cbn [st_nodes st_stale st_hist].
    + fold M. split; [done| | |].
      * rewrite Hall, decide_True; [done|]. split_and!; [done|rewrite pcnt_nil; lia|by left].
      * intros q _ Hl. by rewrite Hall, decide_True.
      * intros q _ _. lia.
    + intros u q Hu. rewrite lookup_union_r; [by apply Ho|]. destruct Hfz' as [_ Hfz'].
      destruct (fz' !! (u, q)) as [nd|] eqn:En; [|done]. by apply Hfz' in En.
    + done.
    + done.
Qed.

Lemma finish_none st : RI st [] [] -> finish sha st = Panic.
Proof.
  intros [Hv _ Hnum _ _ (Hp & Hf & _) _ _ _ _ _ _]. unfold finish. rewrite Hp. cbn [pinfo_empty pi_children].
  replace (filter (fun i => is_Some ((∅ : gmap nib cinfo) !! i)) all_nibs) with (@nil nib) by (vm_compute; reflexivity).
  unfold freeze, freeze_previous_leaf. rewrite (proj2 Hnum) by done. cbn [N.eqb rbind]. rewrite Hp. reflexivity.
Qed.
Lemma finish_one st Wr Pd : RI st Wr Pd -> length (Wr ++ Pd) = 1 -> Pd <> [] -> finish sha st = Panic.
Proof.
  intros H H1 HPd. pose proof (RI_size _ _ _ H) as Hsz. pose proof H as [Hv Hr Hnum Hp Hd Ht Ho Hst How Hval Hh _].
  set (M := hvm (to_map (Wr ++ Pd))) in *.
  destruct (last (Wr ++ Pd)) as [[k x]|] eqn:El; [|apply last_None in El; by rewrite El in H1]. destruct Ht as [p HP].
  pose proof HP as [Hw (vh & Hk) Hg Hpath Hpp (cs & ps & Eps & HU & Hc) Hf Hfz].
  assert (M = {[k := vh]}) as EM.
  { destruct (cnt_1 (path_bits []) M) as (k0 & x0 & E0); [by rewrite pcnt_nil, Hsz|].
    change (path_bits []) with (@nil bool) in E0. rewrite subm_nil in E0. rewrite E0 in Hk |- *.
    by apply lookup_singleton_Some in Hk as [-> ->]. }
  assert (length k = 32) as Hk32 by by eapply Hw.
  assert (p = []) as ->.
  { destruct Hpp as [|Hpp]; [done|]. pose proof (pcnt_mono [] p M (prefix_nil _)) as Hm. rewrite pcnt_nil, Hsz, H1 in Hm. lia. }
  pose proof (Up_length _ _ _ _ _ HU) as HL. destruct ps; [|done].
  destruct (one_child M k vh cs EM Hk32 Hc) as (i & Ei & Hi).
  unfold finish. rewrite Eps. cbn [pi_children]. rewrite Ei, Hi.
  rewrite (bool_decide_false (rs_values st = ∅)), andb_false_r; [done|].
  intros E. destruct Pd as [|[k1 x1] Pd]; [done|]. specialize (Hval v k1). rewrite E, lookup_empty, decide_True in Hval by done.
  unfold to_map in Hval. cbn in Hval. by rewrite lookup_insert in Hval.
Qed.

Lemma Finished_value t m : Finished t m -> forall k,
  st_get_value_option t v k = match m !! k with
                              | Some x => Some x
                              | None => match lo !! k with Some y => Some y | None => st_get_value_option s0 v k end
                              end.
Proof.
  intros H k. unfold st_get_value_option. rewrite (fi_hist _ _ H). unfold hist_with.
  destruct (m !! k) as [x|]; [|destruct (lo !! k) as [y|]; [|done]]; rewrite rev_unit; cbn [hist_find]; by rewrite N.leb_refl.
Qed.
End Finish.
