(** Sessions of an interrupted restoration. *)
From Verif Require Import Base JmtNibModel JmtNibProof JmtSpec JmtTraceSpec JmtNibSpec JmtModel JmtHashProof JmtAbsProof JmtCacheProof
  JmtInsertProof JmtPutProof JmtHistProof JmtRunSpec JmtValueProof JmtRunProof JmtReadProof JmtProofProof JmtPropProof
  JmtOrderProof JmtIterModel JmtIterSpec JmtIterProof JmtRestoreModel JmtRestoreSpec JmtRestoreProof JmtRestoreAddProof
  JmtRestoreVerifyProof JmtRestoreRunSpec JmtRestoreRunProof JmtRestoreFinishProof JmtRestorePropProof JmtRecoverSpec JmtRecoverProof.
Local Open Scope nat_scope.

Section Sessions.
Context (sha hv : bytes -> bytes) (t : store) (v : N) (root : bytes).
Hypothesis Hfresh : fresh t v.
Hypothesis Hnl : no_leaves t.
Notation hvm := (hvm hv).
Notation smt_root := (smt_root sha hv).
Notation RI := (RI sha hv t v root).
Notation no_empty m := (Forall (fun x => sha x <> spec_empty_hash) (tree_inputs sha hv m)).
Notation Kept := (Kept sha v).
Notation Recd := (Recd sha v).
Implicit Types (rcv l : list (bytes * bytes)) (lo : gmap bytes bytes).

(** The store between two sessions. *)
Record Between (s : store) rcv lo : Prop := {
  bt_dup : NoDup (rcv.*1);
  bt_tree : exists p, Kept (st_nodes s) (hvm (to_map (removelast rcv))) p /\
    match last rcv with
    | None => True
    | Some (k, _) => exists j r, nibs k = p ++ j :: r /\ pcnt (p ++ [j]) (hvm (to_map (removelast rcv))) = 0
    end;
  bt_old : forall u q, u <> v -> st_nodes s !! (u, q) = st_nodes t !! (u, q);
  bt_stale : st_stale s = st_stale t;
  bt_ow : st_overwrite s = st_overwrite t;
  bt_hist : forall k, st_hist s !! k = hist_with t v lo (to_map (removelast rcv)) k
}.

Lemma hvm_nil : hvm (to_map []) = ∅.
Proof. unfold JmtPutProof.hvm, to_map. cbn. by rewrite fmap_empty. Qed.
Lemma pcnt_empty p : pcnt p ∅ = 0.
Proof. apply pcnt_none. by intros ???. Qed.
Lemma Between_start : Between t [] ∅.
Proof.
  split; try done; [constructor|]. exists []. split; [|done]. change (removelast []) with (@nil (bytes * bytes)). rewrite hvm_nil. split.
  - by intros ??.
  - by left.
  - cbn. lia.
  - intros k vh Hk. done.
  - intros q. rewrite decide_False.
    + apply eq_None_not_Some. intros [nd Hn]. by apply (proj1 Hfresh) in Hn.
    + intros [(_ & Hp & _) _]. rewrite pcnt_empty in Hp. lia.
Qed.

Lemma Between_stop st Wr k x lo : RI lo st (Wr ++ [(k, x)]) [] -> Between (rs_store st) (Wr ++ [(k, x)]) (<[k := x]> lo).
Proof.
  intros H. pose proof H as [Hv Hr Hnum Hp Hd Ht Ho Hst How Hval Hh Hfz]. rewrite app_nil_r in *. specialize (Hfz eq_refl).
  rewrite last_snoc in Ht. destruct Ht as [p HP]. rewrite Hfz in HP.
  assert (k ∉ Wr.*1) as Hk.
  { rewrite fmap_app in Hd. apply NoDup_app in Hd as (_ & Hd & _). intros Hin. apply (Hd k Hin). cbn. by left. }
  assert (hvm (to_map (Wr ++ [(k, x)])) = <[k := hv x]> (hvm (to_map Wr))) as Em.
  { rewrite to_map_snoc by done. unfold JmtPutProof.hvm. by rewrite fmap_insert. }
  rewrite Em in HP. apply Pend_Kept in HP as [HK Hj].
  2:{ unfold JmtPutProof.hvm. rewrite lookup_fmap. by apply to_map_None in Hk as ->. }
  split; try done.
  - exists p. rewrite removelast_last, last_snoc. done.
  - intros l. rewrite Hh, removelast_last. unfold hist_with. rewrite to_map_snoc by done.
    destruct (decide (l = k)) as [->|Hne].
    + rewrite !lookup_insert. by apply to_map_None in Hk as ->.
    + by rewrite !lookup_insert_ne.
Qed.

(** Opening the store. *)
Lemma open_ok s rcv lo : Between s rcv lo -> forall W, W = removelast rcv -> NoDup (W.*1) -> ascending W ->
  exists st p, restore_new sha s v root = Ok st /\ rs_store st = s /\ rs_ver st = v /\ rs_root st = root /\ rs_num st = 0%N /\
    rs_frozen st = ∅ /\ rs_values st = ∅ /\
    rs_prev st = (fun kx : bytes * bytes => (fst kx, hv (snd kx))) <$> last W /\
    Recd (rs_partial st) ∅ (st_nodes s) (hvm (to_map W)) p /\
    match last rcv with
    | None => p = []
    | Some (k, _) => exists j r, nibs k = p ++ j :: r /\ pcnt (p ++ [j]) (hvm (to_map W)) = 0
    end.
Proof.
  intros [Hdup (p & HK & Hnext) Hold Hst How Hhist] W EW HdW HaW. rewrite <-EW in *.
  destruct (last W) as [[k x]|] eqn:El.
  - apply last_Some in El as [W' EW'].
    assert (hvm (to_map W) !! k = Some (hv x)) as Hk.
    { unfold JmtPutProof.hvm. rewrite lookup_fmap. rewrite (proj2 (to_map_elem W k x HdW)); [done|]. rewrite EW'. apply elem_of_app. right. by left. }
    destruct (restore_new_ok sha v s (hvm (to_map W)) p k (hv x) HK Hk) with (root := root) as (ps & E & HR).
    { intros l y Hl Hlt. unfold JmtPutProof.hvm in Hl. rewrite lookup_fmap in Hl. apply fmap_Some in Hl as (z & Hl & _).
      apply to_map_elem in Hl; [|done]. rewrite EW' in Hl. apply elem_of_app in Hl as [Hl|Hl].
      - apply (klt_asym k l Hlt). rewrite EW' in HaW. apply (ascending_split _ _ (l, z) (k, x) HaW Hl). by left.
      - apply elem_of_list_singleton in Hl. injection Hl as -> ->. by apply klt_irrefl in Hlt. }
    { intros w q l y Hl. destruct (decide (w = v)) as [|Hne]; [done|]. rewrite Hold in Hl by done. by apply Hnl in Hl. }
    do 2 eexists. split; [exact E|]. cbn. split_and!; try done. destruct (last rcv) as [[k1 x1]|] eqn:E1; [done|].
    apply last_None in E1. subst rcv. subst W. by destruct W'.
  - apply last_None in El. subst W. rewrite El in *. rewrite hvm_nil in *.
    assert (p = []) as ->. { destruct (kp_p _ _ _ _ _ HK) as [|Hc]; [done|]. rewrite pcnt_empty in Hc. lia. }
    exists (new_overwrite s v root), []. cbn [new_overwrite rs_store rs_ver rs_root rs_num rs_frozen rs_values rs_prev rs_partial].
    split_and!; try done.
    + unfold restore_new. pose proof (rightmost_leaf_ok s) as HL. destruct (rightmost_leaf s) as [[[w q] [k y]]|]; [exfalso|done].
      destruct HL as [HL _]. destruct (decide (w = v)) as [->|Hne].
      * by apply (Kept_leaf _ _ _ _ _ _ _ _ HK) in HL as (? & _).
      * rewrite Hold in HL by done. by apply Hnl in HL.
    + apply Recd_new; [done..|]. intros q. rewrite (kp_frz _ _ _ _ _ HK q), decide_False; [done|].
      intros [(_ & Hc & _) _]. rewrite pcnt_empty in Hc. lia.
    + by destruct (last rcv) as [[k x]|].
Qed.

Lemma open_add s rcv lo st p W k x : Between s rcv lo -> W = removelast rcv -> NoDup ((W ++ [(k, x)]).*1) -> ascending (W ++ [(k, x)]) ->
  length k = 32 -> (rcv = [] \/ last rcv = Some (k, x)) ->
  rs_store st = s -> rs_ver st = v -> rs_root st = root -> rs_num st = 0%N ->
  rs_frozen st = ∅ -> rs_values st = ∅ ->
  Recd (rs_partial st) ∅ (st_nodes s) (hvm (to_map W)) p ->
  match last rcv with
  | None => p = []
  | Some (k, _) => exists j r, nibs k = p ++ j :: r /\ pcnt (p ++ [j]) (hvm (to_map W)) = 0
  end ->
  exists st1, add_pair sha hv st k x = Ok st1 /\ RI lo st1 W [(k, x)].
Proof.
  intros HB EW Hd Ha Hk Hlast Es Ev Er En Ef Eval HR Hnext. pose proof HB as [_ _ Hold Hst How Hhist].
  assert (exists j r, nibs k = p ++ j :: r /\ pcnt (p ++ [j]) (hvm (to_map W)) = 0) as (j & r & Hj & H0).
  { destruct Hlast as [->|Hl].
    - cbn in Hnext, EW. subst p W. destruct (nibs_cons k Hk) as (j & r & E). exists j, r. split; [done|]. rewrite hvm_nil. apply pcnt_empty.
    - by rewrite Hl in Hnext. }
  assert (k ∉ W.*1) as Hkn.
  { rewrite fmap_app in Hd. apply NoDup_app in Hd as (_ & Hd & _). intros Hin. apply (Hd k Hin). cbn. by left. }
  set (st1 := RState (rs_store st) (rs_ver st) (rs_partial st) (rs_frozen st)
              (<[(rs_ver st, k) := Some x]> (rs_values st)) (rs_prev st) (rs_num st) (rs_root st)).
  destruct (add_one_rec sha v st1 (hvm (to_map W)) p k (hv x) j r) as (ps & fz & E & HP).
  - done.
  - done.
  - cbn. by rewrite Ef, Es.
  - done.
  - done.
  - done.
  - intros l y Hl. unfold JmtPutProof.hvm in Hl. rewrite lookup_fmap in Hl. apply fmap_Some in Hl as (z & Hl & _).
    apply to_map_elem in Hl; [|rewrite fmap_app in Hd; by apply NoDup_app in Hd as (? & _)].
    apply (ascending_split _ _ (l, z) (k, x) Ha Hl). by left.
  - unfold add_pair. fold st1. rewrite E. cbn [rbind]. eexists. split; [reflexivity|].
    assert (to_map (W ++ [(k, x)]) = <[k := x]> (to_map W)) as Etm by by rewrite to_map_snoc.
    split; cbn [with_partial rs_ver rs_root rs_num rs_prev rs_partial rs_frozen rs_store rs_values st1]; try done.
    + rewrite En. split; [done|]. intros E0. by destruct W.
    + by rewrite last_snoc.
    + rewrite last_snoc. exists p. rewrite Etm. unfold JmtPutProof.hvm. rewrite fmap_insert, Es. cbn in HP. by rewrite Es in HP.
    + by rewrite Es.
    + by rewrite Es.
    + by rewrite Es.
    + intros w k'. rewrite Ev, Eval. destruct (decide (w = v)) as [->|Hne].
      * unfold to_map. cbn. destruct (decide (k' = k)) as [->|Hne]; [by rewrite !lookup_insert|]. by rewrite !lookup_insert_ne by congruence.
      * by rewrite lookup_insert_ne by congruence.
    + rewrite Es. by rewrite EW.
Qed.

(** One session. *)
Section Source.
Context (ops : list op) (src : store) (u : N).
Hypothesis HR : reached sha hv ops src.
Hypothesis Hu : (low ops <= u < versions ops)%N.
Let m := contents_at (history ops) u.
Hypothesis Hroot : root = smt_root m.
Hypothesis Hn : no_empty m.
Context (l : list (bytes * bytes)).
Hypothesis Ha : ascending l.
Hypothesis Hiff : forall k y, (k, y) ∈ l <-> m !! k = Some y.
Definition proved_chunk (c : sent) : Prop := exists k x, last (fst c) = Some (k, x) /\ get_range_proof sha src k u = Ok (snd c).

Lemma session_ok s rcv lo cs rest rest0 : Between s rcv lo -> rcv ++ rest0 = l -> cs <> [] -> Forall proved_chunk cs ->
  (removelast rcv ++ concat (map fst cs)) ++ rest = l ->
  exists st0 st, restore_new sha s v root = Ok st0 /\ feed_all sha hv st0 cs = Some st /\
    RI lo st (removelast rcv ++ concat (map fst cs)) [].
Proof.
  intros HB Hrcv Hne Hcs El. set (W := removelast rcv) in *.
  assert (forall k' y, m !! k' = Some y -> length k' = 32) as Hm.
  { intros k y. apply contents_wf. apply (si_wf _ _ _ _ _ (reached_inv _ _ _ _ HR)). }
  destruct cs as [|[c right] cs]; [done|]. apply Forall_cons in Hcs as [(kl & xl & Hl & Hrp) Hcs]. cbn [fst snd] in Hl, Hrp.
  destruct c as [|[k x] c]; [done|]. cbn [map concat fst] in El |- *.
  assert (l = (W ++ [(k, x)]) ++ c ++ concat (map fst cs) ++ rest) as El2 by (rewrite <-El, <-!app_assoc; done).
  assert (l = (W ++ (k, x) :: c) ++ concat (map fst cs) ++ rest) as El3 by (rewrite <-El, <-!app_assoc; done).
  assert (ascending (W ++ [(k, x)])) as HaW by (rewrite El2 in Ha; by eapply ascending_app_l).
  pose proof (ascending_NoDup _ HaW) as HdW.
  assert (rcv = [] \/ last rcv = Some (k, x)) as Hlast.
  { destruct rcv as [|kx rcv0 _] using rev_ind; [by left|right]. unfold W in El2. rewrite removelast_last in El2.
    rewrite last_snoc. rewrite <-Hrcv, <-!app_assoc in El2. apply app_inv_head in El2. cbn in El2. by injection El2 as -> _. }
  destruct (open_ok s rcv lo HB W eq_refl) as (st0 & p & E0 & Es & Ev & Er & En & Ef & Eval & Ep & HRec & Hnext).
  { rewrite fmap_app in HdW. by apply NoDup_app in HdW as (? & _). }
  { by eapply ascending_app_l. }
  assert (length k = 32) as Hk32.
  { apply (Hm k x). apply Hiff. rewrite El2. apply elem_of_app. left. apply elem_of_app. right. by left. }
  destruct (open_add s rcv lo st0 p W k x HB) as (st1 & E1 & H1); [done..|].
  destruct (add_pairs_ok sha hv t v root lo Hfresh c st1 W [(k, x)] H1) as (st2 & c2 & b & E2 & Hc2 & H2 & Hb).
  { apply Forall_forall. intros [k' y] Hin. cbn. apply (Hm k' y). apply Hiff. rewrite El2. set_solver. }
  assert (c2 = c) as ->.
  { eapply increasing_det; [exact Hc2|]. apply ascending_increasing. rewrite El2, app_assoc in Ha. by eapply ascending_app_l. }
  rewrite (proj2 Hb eq_refl) in E2. change ([(k, x)] ++ c) with ((k, x) :: c) in H2.
  assert (add_pairs sha hv st0 ((k, x) :: c) = Ok (st2, true)) as E3.
  { cbn [add_pairs]. rewrite Ep.
    assert ((match (fun kx : bytes * bytes => (fst kx, hv (snd kx))) <$> last W with Some (pk, _) => key_ltb pk k | None => true end) = true) as ->.
    { destruct (last W) as [[k0 x0]|] eqn:EW; [|done]. cbn. apply key_ltb_lt. apply last_Some in EW as [W' EW].
      apply (ascending_split _ _ (k0, x0) (k, x) HaW); [rewrite EW; apply elem_of_app; right; by left|by left]. }
    rewrite E1. cbn [rbind]. done. }
  assert ((kl, xl) ∈ (k, x) :: c) as Hin by (apply last_Some in Hl as [c' ->]; apply elem_of_app; right; by left).
  assert (m !! kl = Some xl) as Hkl by (apply Hiff; rewrite El3; set_solver).
  rewrite (range_proof_ok _ _ _ _ _ _ _ HR Hu (Hm _ _ Hkl) Hkl) in Hrp. injection Hrp as <-. fold m.
  destruct (accept_complete sha hv t v root lo Hfresh st0 st2 W ((k, x) :: c) ((k, x) :: c) m kl xl E3) as (st3 & E4 & H3); [done|done| |done..| |].
  { apply last_Some in Hl as [c' ->]. by rewrite app_assoc, last_snoc. }
  { intros k' y. split.
    - intros Hin'. split; [apply Hiff; rewrite El3; set_solver|]. apply last_Some in Hl as [c' Ec]. rewrite El3 in Ha.
      apply ascending_app_l in Ha. rewrite Ec, app_assoc in Ha, Hin'. apply elem_of_app in Hin' as [Hin'|Hin'].
      + right. apply (ascending_split _ _ _ (kl, xl) Ha Hin'). by left.
      + apply elem_of_list_singleton in Hin'. injection Hin' as -> ->. by left.
    - intros [Hy Hle]. apply Hiff in Hy. rewrite El3 in Hy, Ha. apply elem_of_app in Hy as [Hy|Hy]; [done|exfalso].
      assert (bytes_lt kl k') as Hlt.
      { apply (ascending_split _ _ (kl, xl) (k', y) Ha); [apply elem_of_app; by right|done]. }
      destruct Hle as [->|Hle]; [by apply klt_irrefl in Hlt|]. by apply (klt_irrefl kl), (klt_trans _ k'). }
  destruct (feed_all_ok sha hv t v root lo Hfresh ops src u HR Hu Hroot Hn rest cs st3 (W ++ (k, x) :: c) H3) as (st4 & E5 & H4).
  { by rewrite <-El3. }
  { intros k' y. rewrite <-El3. apply Hiff. }
  { done. }
  exists st0, st4. split; [done|]. cbn [feed_all]. rewrite E4, E5. split; [done|]. by rewrite <-app_assoc in H4.
Qed.

Lemma sessions_ok rcv ss : sends l rcv ss -> forall s lo rest0, Between s rcv lo -> rcv ++ rest0 = l ->
  Forall (Forall proved_chunk) ss -> (forall k y, lo !! k = Some y -> (k, y) ∈ l) ->
  exists st lo', sessions sha hv s v root ss = Some st /\ RI lo' st l [] /\ (forall k y, lo' !! k = Some y -> (k, y) ∈ l).
Proof.
  induction 1 as [rcv cs Hne El|rcv ss _ IH|rcv cs ss rest Hne El Hss IH]; intros s lo rest0 HB Hrcv Hcs Hlo.
  - apply Forall_cons in Hcs as [Hcs _].
    destruct (session_ok s rcv lo cs [] rest0 HB Hrcv Hne Hcs) as (st0 & st & E0 & E & H); [by rewrite app_nil_r|].
    exists st, lo. cbn [sessions]. rewrite E0, E. split_and!; try done. by rewrite El in H.
  - apply Forall_cons in Hcs as [_ Hcs]. destruct (open_ok s rcv lo HB (removelast rcv) eq_refl) as (st0 & p & E0 & Es & _).
    { assert (ascending rcv) as Har by (rewrite <-Hrcv in Ha; by eapply ascending_app_l). apply ascending_NoDup.
      destruct rcv as [|kx rcv _] using rev_ind; [done|]. rewrite removelast_last. by eapply ascending_app_l. }
    { assert (ascending rcv) as Har by (rewrite <-Hrcv in Ha; by eapply ascending_app_l).
      destruct rcv as [|kx rcv _] using rev_ind; [done|]. rewrite removelast_last. by eapply ascending_app_l. }
    destruct (IH s lo rest0 HB Hrcv Hcs Hlo) as (st & lo' & E & H & Hlo'). exists st, lo'. split; [|done].
    cbn [sessions]. rewrite E0. cbn [feed_all]. destruct ss; [by inversion E|]. rewrite Es. done.
  - apply Forall_cons in Hcs as [Hc Hcs].
    destruct (session_ok s rcv lo cs rest rest0 HB Hrcv Hne Hc El) as (st0 & st & E0 & E & H).
    set (W := removelast rcv ++ concat (map fst cs)) in *.
    assert (W <> []) as HW.
    { destruct cs as [|[c r] cs]; [done|]. apply Forall_cons in Hc as [(k & x & Hk & _) _]. cbn in Hk. unfold W. cbn [map concat fst].
      destruct c; [done|]. by destruct (removelast rcv). }
    destruct (exists_last HW) as (W' & [k x] & EW).
    rewrite EW in H. apply Between_stop in H. rewrite <-EW in H.
    destruct (IH (rs_store st) (<[k := x]> lo) rest H El Hcs) as (st' & lo' & E' & H' & Hlo').
    { intros k' y [[<- <-]|[_ Hy]]%lookup_insert_Some; [|by apply Hlo]. rewrite <-El, EW. apply elem_of_app. left. apply elem_of_app. right. by left. }
    exists st', lo'. split; [|done]. cbn [sessions]. rewrite E0, E. destruct ss; [by inversion E'|]. done.
Qed.
End Source.
End Sessions.
