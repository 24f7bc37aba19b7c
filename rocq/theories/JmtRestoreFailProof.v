(** A restoration whose writes can fail. *)
From Coq Require Import Sorting.Sorted.
From Verif Require Import Base JmtNibModel JmtNibProof JmtSpec JmtTraceSpec JmtNibSpec JmtModel JmtHashProof JmtAbsProof JmtCacheProof
  JmtInsertProof JmtPutProof JmtHistProof JmtRunSpec JmtValueProof JmtRunProof JmtReadProof JmtProofProof JmtPropProof JmtOrderProof
  JmtIterModel JmtIterProof JmtIterSpec JmtRestoreModel JmtRestoreProof JmtRestoreAddProof JmtRestoreVerifyProof JmtRestoreSpec
  JmtRestoreCheckProof JmtRestoreRunSpec JmtRestoreRunProof JmtRestoreFinishProof JmtRestorePropProof
  JmtRestoreFailModel JmtRestoreFailSpec.
Local Open Scope nat_scope.

Section Fail.
Context (sha hv : bytes -> bytes).
Notation hvm := (hvm hv).
Notation smt_root := (smt_root sha hv).
Notation no_empty m := (Forall (fun x => sha x <> spec_empty_hash) (tree_inputs sha hv m)).

(** A call that would be accepted, when the write works and when it fails. *)
Lemma io_of_accepted st c right st' : add_chunk sha hv st c right = RDone st' None ->
  add_chunk_io sha hv true st c right = WDone st' Accepted /\
  exists st1, add_pairs sha hv st c = Ok (st1, true) /\ add_chunk_io sha hv false st c right = WDone st1 WriteFailed.
Proof.
  unfold add_chunk, add_chunk_io. destruct c as [|kx c]; [intros H; discriminate H|].
  destruct (add_pairs sha hv st (kx :: c)) as [[st1 [|]]|e| |] eqn:E; try (intros H; discriminate H).
  destruct (rs_verify sha st1 right); try (intros H; discriminate H).
  destruct (write_node_batch _ _ _) as [s|e| |]; intros H; try discriminate H. injection H as <-. split; [done|]. by exists st1.
Qed.

Section One.
Context (t : store) (v : N) (root : bytes) (lo : gmap bytes bytes).
Hypothesis Hfresh : fresh t v.
Notation RI := (RI sha hv t v root lo).

Lemma resend_refused st Wr Pd k x c right w : RI st Wr Pd -> last (Wr ++ Pd) = Some (k, x) ->
  (exists k0 x0 c0, c = (k0, x0) :: c0 /\ key_le k0 k) -> add_chunk_io sha hv w st c right = WDone st (Refused KeysNotIncreasing).
Proof using.
  intros H El (k0 & x0 & c0 & -> & Hle). pose proof (ri_prev _ _ _ _ _ _ _ _ _ H) as Hp. rewrite El in Hp.
  unfold add_chunk_io. cbn [add_pairs]. rewrite Hp. cbn.
  replace (key_ltb k k0) with false; [done|]. symmetry. apply not_true_iff_false. rewrite key_ltb_lt. intros Hlt.
  destruct Hle as [->|Hle]; [by apply klt_irrefl in Hlt|]. by apply (klt_irrefl k), (klt_trans _ k0).
Qed.
Lemma resends_refused st Wr Pd k x c ws : RI st Wr Pd -> last (Wr ++ Pd) = Some (k, x) ->
  (exists k0 x0 c0, fst c = (k0, x0) :: c0 /\ key_le k0 k) ->
  send_again sha hv st c ws = Some (st, map (fun _ => Refused KeysNotIncreasing) ws).
Proof using.
  intros H El Hc. induction ws as [|w ws IH]; [done|]. cbn [send_again map].
  rewrite (resend_refused st Wr Pd k x _ _ w H El Hc), IH. done.
Qed.

Lemma feed_io_ok ops s u : reached sha hv ops s -> (low ops <= u < versions ops)%N ->
  let m := contents_at (history ops) u in root = smt_root m -> no_empty m ->
  forall rest cs st Wr Pd, RI st Wr Pd -> ascending ((Wr ++ Pd) ++ concat (map (fun c => fst (fst c)) cs) ++ rest) ->
  (forall k y, (k, y) ∈ (Wr ++ Pd) ++ concat (map (fun c => fst (fst c)) cs) ++ rest <-> m !! k = Some y) ->
  Forall (fun c : sent * list bool => snd c <> [] /\
    exists k x, last (fst (fst c)) = Some (k, x) /\ get_range_proof sha s k u = Ok (snd (fst c))) cs ->
  exists st' Wr' Pd', feed_io sha hv st cs = Some (st', concat (map (fun c => answers_for (snd c)) cs)) /\
    RI st' Wr' Pd' /\ Wr' ++ Pd' = (Wr ++ Pd) ++ concat (map (fun c => fst (fst c)) cs) /\
    (Pd' = [] <-> match last cs with Some c => ~ first_failed c | None => Pd = [] end).
Proof using Hfresh.
  intros HR Hu m Hroot Hn.
  assert (forall k' y, m !! k' = Some y -> length k' = 32) as Hm.
  { intros k y. apply contents_wf. apply (si_wf _ _ _ _ _ (reached_inv _ _ _ _ HR)). }
  intros rest. induction cs as [|[[c right] ws] cs IH]; intros st Wr Pd H Ha Hiff Hcs.
  { exists st, Wr, Pd. cbn [map concat feed_io last]. by rewrite app_nil_r. }
  apply Forall_cons in Hcs as [(Hws & k & x & Hl & Hrp) Hcs]. cbn [fst snd] in Hws, Hl, Hrp. cbn [map concat fst snd] in Ha, Hiff |- *.
  set (cs0 := concat (map _ cs)) in Ha, Hiff |- *.
  replace ((Wr ++ Pd) ++ (c ++ cs0) ++ rest) with (((Wr ++ Pd) ++ c) ++ cs0 ++ rest) in Ha, Hiff by by rewrite <-!app_assoc.
  assert ((k, x) ∈ c) as Hkc by (apply last_Some in Hl as [c' ->]; apply elem_of_app; right; by left).
  assert (m !! k = Some x) as Hk by (apply Hiff; set_solver).
  rewrite (range_proof_ok sha hv _ _ _ _ _ HR Hu (Hm _ _ Hk) Hk) in Hrp. injection Hrp as <-. fold m.
  pose proof (ascending_app_l _ _ Ha) as Hac. pose proof (ascending_increasing _ _ Hac) as Hinc.
  assert (wf_chunk c) as Hwf.
  { apply Forall_forall. intros [k' y] Hin. cbn. apply (Hm k' y). apply Hiff. set_solver. }
  set (right := rev _).
  destruct (chunk_complete sha hv t v root lo Hfresh st Wr Pd c m k x H Hwf Hinc Hl Hm Hroot Hn) as (st' & E & H').
  { intros k' y. split.
    + intros Hin. split; [apply Hiff; set_solver|]. apply last_Some in Hl as [c' Ec].
      rewrite Ec, app_assoc in Hac, Hin. apply elem_of_app in Hin as [Hin|Hin].
      * right. apply (ascending_split _ _ _ (k, x) Hac Hin). by left.
      * apply elem_of_list_singleton in Hin. injection Hin as -> ->. by left.
    + intros [Hy Hle]. apply Hiff in Hy. apply elem_of_app in Hy as [Hy|Hy]; [done|exfalso].
      assert (bytes_lt k k') as Hlt.
      { apply (ascending_split _ _ (k, x) (k', y) Ha); [apply elem_of_app; by right|done]. }
      destruct Hle as [->|Hle]; [by apply klt_irrefl in Hlt|]. by apply (klt_irrefl k), (klt_trans _ k'). }
  destruct (io_of_accepted _ _ _ _ E) as (Et & st1 & E1 & Ef).
  destruct (add_pairs_ok sha hv t v root lo Hfresh c st Wr Pd H Hwf) as (st1' & l & b & E1' & Hil & H1 & Hb).
  assert (l = c) as -> by by eapply increasing_det. rewrite E1 in E1'. injection E1' as <- <-. clear Hb Hil.
  assert (exists k0 x0 c0, c = (k0, x0) :: c0 /\ key_le k0 k) as Hfirst.
  { destruct c as [|[k0 x0] c0]; [by apply elem_of_nil in Hkc|]. exists k0, x0, c0. split; [done|].
    apply elem_of_cons in Hkc as [Hkc|Hkc]; [injection Hkc as -> ->; by left|]. right.
    assert (ascending (((Wr ++ Pd) ++ [(k0, x0)]) ++ c0)) as Ha2 by (by rewrite <-app_assoc).
    apply (ascending_split _ _ (k0, x0) (k, x) Ha2); [apply elem_of_app; right; by left|done]. }
  destruct ws as [|w ws]; [done|]. clear Hws.
  assert (exists st2 Wr2 Pd2, add_chunk_io sha hv w st c right = WDone st2 (if w then Accepted else WriteFailed) /\ RI st2 Wr2 Pd2 /\
    Wr2 ++ Pd2 = (Wr ++ Pd) ++ c /\ (Pd2 = [] <-> w = true)) as (st2 & Wr2 & Pd2 & E2 & H2 & EW & HPd2).
  { destruct w.
    - exists st', ((Wr ++ Pd) ++ c), []. rewrite app_nil_r. split; [exact Et|]. split; [exact H'|]. done.
    - exists st1, Wr, (Pd ++ c). rewrite app_assoc. split; [exact Ef|]. split; [exact H1|]. split; [done|]. split; [|done]. intros [_ ->]%app_nil.
      by apply elem_of_nil in Hkc. }
  assert (last (Wr2 ++ Pd2) = Some (k, x)) as El2.
  { rewrite EW. apply last_Some in Hl as [c' ->]. by rewrite app_assoc, last_snoc. }
  destruct (IH st2 Wr2 Pd2 H2) as (st3 & Wr3 & Pd3 & E3 & H3 & EW3 & HPd3); [by rewrite EW| |done|].
  { intros k' y. rewrite EW. apply Hiff. }
  exists st3, Wr3, Pd3. split; [|split; [exact H3|split; [by rewrite EW3, EW, <-app_assoc|]]].
  - cbn [feed_io send_again fst snd]. rewrite E2, (resends_refused st2 Wr2 Pd2 k x (c, right) ws H2 El2 Hfirst), E3. done.
  - rewrite HPd3. destruct cs as [|c' cs'];
      [|change (last (((c, right), w :: ws) :: c' :: cs')) with (last (c' :: cs')); destruct (last (c' :: cs')) eqn:El; [done|by apply last_None in El]]. cbn [last]. rewrite HPd2. unfold first_failed. cbn [snd head].
    destruct w; split; intros Hx; try done.
Qed.
End One.
End Fail.

(** ** Calls that are refused do not touch the store *)
Section Store.
Context (sha hv : bytes -> bytes).
Lemma freeze_store st n st' : freeze sha st n = Ok st' -> rs_store st' = rs_store st.
Proof.
  unfold freeze. destruct (freeze_previous_leaf st) as [fz| | |]; cbn [rbind]; intros H; try discriminate H.
  destruct (rs_partial st) as [|p ps]; [by injection H as <-|].
  destruct (freeze_internal _ _ _ _ _ _) as [[ps' fz']| | |]; cbn [rbind] in H; try discriminate H. by injection H as <-.
Qed.
Lemma insert_at_leaf_store st i ek evh k vh vi re st' : insert_at_leaf sha st i ek evh k vh vi re = Ok st' -> rs_store st' = rs_store st.
Proof.
  unfold insert_at_leaf. destruct (set_last _ _ _) as [ps| | |]; cbn [rbind]; intros H; try discriminate H.
  destruct (chain _ _ _ _ _) as [[ps1 vi1]| | |]; cbn [rbind] in H; try discriminate H.
  destruct (get_nibble ek _) as [e|]; [|discriminate H]. destruct (get_nibble k _) as [n|]; [|discriminate H].
  destruct (freeze _ _ _) as [st1| | |] eqn:E; cbn [rbind] in H; try discriminate H. apply freeze_store in E.
  destruct (nib_val e <? nib_val n)%N; [|discriminate H]. destruct (set_last _ _ _); cbn [rbind] in H; try discriminate H.
  injection H as <-. exact E.
Qed.
Lemma add_loop_store st k vh re : forall vi st', add_loop sha st k vh vi re = Ok st' -> rs_store st' = rs_store st.
Proof.
  induction re as [|x re IH]; intros vi st' H; cbn [add_loop] in H; [by injection H as <-|].
  destruct (partial_at _ _) as [p|]; [|discriminate H]. destruct (pi_children p !! x) as [[h lc|ek evh]|].
  - by eapply IH.
  - destruct (_ =? _); [|discriminate H]. by eapply insert_at_leaf_store.
  - destruct (freeze _ _ _) as [st1| | |] eqn:E; cbn [rbind] in H; try discriminate H. apply freeze_store in E.
    destruct (partial_at _ _); [|discriminate H]. injection H as <-. exact E.
Qed.
Lemma add_pairs_store c : forall st st' b, add_pairs sha hv st c = Ok (st', b) -> rs_store st' = rs_store st.
Proof.
  induction c as [|[k x] c IH]; intros st st' b H; cbn [add_pairs] in H; [by injection H as <-|].
  destruct (match rs_prev st with Some (pk, _) => key_ltb pk k | None => true end); [|by injection H as <-].
  unfold add_pair, add_one in H. destruct (add_loop _ _ _ _ _ _) as [st1| | |] eqn:E; cbn [rbind] in H; try discriminate H.
  apply IH in H. rewrite H. cbn [rs_store]. apply add_loop_store in E. exact E.
Qed.
Lemma refused_store st c right st' e : add_chunk sha hv st c right = RDone st' (Some e) -> rs_store st' = rs_store st.
Proof.
  unfold add_chunk. destruct c as [|kx c]; [intros H; by injection H as <-|].
  destruct (add_pairs sha hv st (kx :: c)) as [[st1 [|]]|?| |] eqn:E; intros H; try discriminate H; apply add_pairs_store in E.
  - destruct (rs_verify sha st1 right); try discriminate H; [|by injection H as <-].
    destruct (write_node_batch _ _ _); try discriminate H. by injection H as <-.
  - by injection H as <-.
Qed.
Lemma io_store st c right w st' a : add_chunk_io sha hv w st c right = WDone st' a -> a <> Accepted -> rs_store st' = rs_store st.
Proof.
  unfold add_chunk_io. destruct c as [|kx c]; [intros H; by injection H as <-|].
  destruct (add_pairs sha hv st (kx :: c)) as [[st1 [|]]|?| |] eqn:E; intros H Ha; try discriminate H; apply add_pairs_store in E.
  - destruct (rs_verify sha st1 right); try discriminate H; [|by injection H as <-].
    destruct w; [|by injection H as <-].
    destruct (write_node_batch _ _ _); try discriminate H; [|by injection H as <-]. injection H as _ <-. done.
  - by injection H as <-.
Qed.
End Store.

(** ** What is stored has been checked *)
Lemma path_differs (q w : path) : ~ q `prefix_of` w -> length q <= length w ->
  exists p i j, p ++ [i] `prefix_of` q /\ p ++ [j] `prefix_of` w /\ i <> j.
Proof.
  revert w. induction q as [|a q IH]; intros w Hn Hl; [destruct Hn; apply prefix_nil|].
  destruct w as [|b w]; [cbn in Hl; lia|]. destruct (decide (a = b)) as [->|Hne].
  - destruct (IH w) as (p & i & j & Hi & Hj & Hij).
    + intros H. apply Hn. by apply prefix_cons.
    + cbn in Hl. lia.
    + exists (b :: p), i, j. split; [|split; [|done]]; by apply prefix_cons.
  - exists [], a, b. split; [by eexists|]. split; [by eexists|done].
Qed.
Lemma same_side (q : path) k l l' : ~ q `prefix_of` nibs k -> length k = 32 -> length l = 32 -> q `prefix_of` nibs l -> q `prefix_of` nibs l' ->
  bytes_lt l k -> bytes_lt l' k.
Proof.
  intros Hn Hk Hl Hq Hq' Hlt. destruct (path_differs q (nibs k) Hn) as (p & i & j & Hi & Hj & Hij).
  { apply prefix_length in Hq. rewrite nibs_length in *. lia. }
  destruct (N.lt_trichotomy (nib_val i) (nib_val j)) as [H|[H|H]].
  - apply (prefix_klt p i j l' k); [by etrans|done|done].
  - exfalso. by apply Hij, nib_val_inj.
  - exfalso. apply (klt_asym k l); [|done]. apply (prefix_klt p j i k l); [done|by etrans|done].
Qed.

Section Checked.
Context (sha hv : bytes -> bytes) (t : store) (v : N) (m : gmap bytes bytes).
Notation hvm := (hvm hv).
Notation root := (smt_root sha hv m).
Hypothesis Hfresh : fresh t v.
Hypothesis Hm : forall k y, m !! k = Some y -> length k = 32.
Notation RI := (RI sha hv t v root ∅).

Lemma under_same M k q : (forall l y, M !! l = Some y <-> hvm m !! l = Some y /\ key_le l k) -> length k = 32 ->
  ~ q `prefix_of` nibs k -> 0 < pcnt q M -> subm (path_bits q) M = subm (path_bits q) (hvm m).
Proof using sha Hm.
  intros Hiff Hk Hn Hp. destruct (cnt_pos_inv (path_bits q) M Hp) as (l0 & y0 & H0 & Hq0). rewrite key_bits_nibs, path_bits_prefix in Hq0.
  pose proof (wfm_hvm hv m Hm) as Hw. apply Hiff in H0 as [H0 Hle0]. pose proof (Hw _ _ H0) as Hl0.
  destruct Hle0 as [->|Hlt0]; [done|].
  apply map_eq. intros l. apply option_eq. intros y. rewrite !subm_Some. rewrite Hiff. split; [tauto|].
  intros [Hy Hq]. split; [|done]. split; [done|]. right. rewrite key_bits_nibs, path_bits_prefix in Hq.
  by apply (same_side q k l0 l).
Qed.

Lemma accepted_right st' l k x : RI st' l [] -> last l = Some (k, x) ->
  (forall k' h, (exists y, (k', y) ∈ l /\ hv y = h) <-> (exists y, m !! k' = Some y /\ hv y = h) /\ key_le k' k) ->
  stored_right sha hv (rs_store st') v m.
Proof using Hfresh Hm.
  intros H El Hiff. pose proof H as [_ _ _ _ Hd Ht _ _ _ _ Hh Hfz]. specialize (Hfz eq_refl). rewrite app_nil_r in Hd, Ht. rewrite El in Ht.
  destruct Ht as [p HP].
  assert (forall k' h, hvm (to_map l) !! k' = Some h <-> hvm m !! k' = Some h /\ key_le k' k) as Hiff2.
  { intros k' h. unfold JmtPutProof.hvm. rewrite !lookup_fmap, !fmap_Some. split.
    - intros (y & Hy & ->). apply to_map_elem in Hy; [|done]. destruct (proj1 (Hiff k' (hv y))) as [(z & Hz & Ez) Hle]; [by exists y|].
      split; [|done]. by exists z.
    - intros [(y & Hy & ->) Hle]. destruct (proj2 (Hiff k' (hv y))) as (z & Hz & Ez); [split; [by exists y|done]|].
      exists z. split; [by apply to_map_elem|done]. }
  split.
  - intros k' l' y Hl Hin. rewrite Hh in Hl. unfold hist_with in Hl. rewrite lookup_empty in Hl. destruct Hfresh as [_ Hf2].
    destruct (to_map l !! k') as [x'|] eqn:Ex.
    + injection Hl as <-. apply elem_of_app in Hin as [Hin|Hin].
      * exfalso. destruct (st_hist t !! k') as [l0|] eqn:E0; [|by apply elem_of_nil in Hin]. specialize (Hf2 _ _ _ E0 Hin). cbn in Hf2. lia.
      * apply elem_of_list_singleton in Hin. injection Hin as ->. apply to_map_elem in Ex; [|done].
        destruct (proj1 (Hiff k' (hv x'))) as [(z & Hz & Ez) _]; [by exists x'|]. by exists x', z.
    + exfalso. specialize (Hf2 _ _ _ Hl Hin). cbn in Hf2. lia.
  - intros q nd Hnd. pose proof (pd_frz _ _ _ _ _ _ _ _ HP q) as HF. rewrite Hfz, map_empty_union, Hnd in HF.
    case_decide as HD; [|discriminate HF]. injection HF as ->. destruct HD as [(_ & Hp & _) Hnp].
    destruct (pd_key _ _ _ _ _ _ _ _ HP) as [vh Hk]. pose proof (pd_wf _ _ _ _ _ _ _ _ HP) as Hw.
    rewrite node_of_hash by done. change (flat_map nib_bits q) with (path_bits q). change (hv <$> m) with (hvm m).
    rewrite subtree_root_hash. pose proof (under_same _ k q Hiff2 (Hw _ _ Hk) Hnp Hp) as ES. split.
    + unfold hashB. rewrite ES. done.
    + destruct (cnt_pos_inv (path_bits q) _ Hp) as (l0 & y0 & H0 & Hq0). apply Hiff2 in H0 as [H0 _].
      exists l0. split; [|done]. unfold JmtPutProof.hvm in H0. rewrite lookup_fmap in H0. apply fmap_Some in H0 as (z & Hz & _). by exists z.
Qed.

Lemma feed_right cs : forall past st l, received past l -> (exists Wr Pd, RI st Wr Pd /\ Wr ++ Pd = l) ->
  stored_right sha hv (rs_store st) v m -> Forall (fun c : sent => wf_chunk (fst c)) cs ->
  Forall (fun c : sent => Forall (fun s : bytes => length s = 32) (snd c)) cs ->
  (forall cs1 c cs2 l k x, cs = cs1 ++ c :: cs2 -> received (past ++ map fst (cs1 ++ [c])) l -> last l = Some (k, x) ->
     good_hash sha (range_inputs sha hv (to_map l) k x (snd c) ++ tree_inputs sha hv (to_map l) ++ tree_inputs sha hv m)) ->
  forall st', feed sha hv st cs = Some st' -> stored_right sha hv (rs_store st') v m.
Proof using Hfresh Hm.
  induction cs as [|[c right] cs IH]; intros past st l Hr (Wr & Pd & H & El) HS Hcs H32 Hg st' E.
  { cbn [feed] in E. injection E as <-. exact HS. }
  apply Forall_cons in Hcs as [Hc Hcs]. apply Forall_cons in H32 as [Hs H32]. cbn [fst snd] in Hc, Hs. cbn [feed] in E. subst l.
  destruct (add_chunk_ok sha hv t v root ∅ Hfresh st Wr Pd c right H Hc) as (st1 & e & Wr1 & Pd1 & l & E1 & H1 & Hil & Eq & He & Hpd & _).
  rewrite E1 in E. assert (received (past ++ [c]) (Wr1 ++ Pd1)) as Hr1 by (rewrite Eq; by constructor).
  apply (IH (past ++ [c]) st1 (Wr1 ++ Pd1)); [done|by exists Wr1, Pd1| |done|done| |done].
  - destruct e as [e|]; [by rewrite (refused_store sha hv _ _ _ _ _ E1)|]. rewrite (Hpd eq_refl) in H1, Eq, Hr1. rewrite app_nil_r in Eq, Hr1. subst Wr1.
    destruct (proj1 He eq_refl) as (Hne & Elc & _). subst l.
    destruct (last ((Wr ++ Pd) ++ c)) as [[k x]|] eqn:Ell; [|apply last_None in Ell; by destruct (Wr ++ Pd), c].
    apply (accepted_right st1 ((Wr ++ Pd) ++ c) k x H1 Ell).
    apply (chunk_sound sha hv t v root ∅ Hfresh st Wr Pd c right st1 m H Hc E1 Hs Hm eq_refl c k x Hil Ell).
    apply (Hg [] (c, right) cs _ k x eq_refl); [exact Hr1|exact Ell].
  - intros cs1 c2 cs2 l2 k x Ecs Hr2 Hl2. apply (Hg ((c, right) :: cs1) c2 cs2 l2 k x); [by rewrite Ecs| |done].
    cbn [app map fst]. rewrite <-app_assoc in Hr2. exact Hr2.
Qed.
End Checked.
