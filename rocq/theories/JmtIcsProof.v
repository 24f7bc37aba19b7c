(** ICS-23 proofs: the operations made from the siblings of a key, and what a
    verifier finds in them. *)
From Verif Require Import Base JmtNibModel JmtSpec JmtNibSpec JmtTraceSpec JmtNibProof JmtModel JmtHashProof JmtAbsProof
  JmtCacheProof JmtPutProof JmtReadProof JmtProofProof JmtOrderProof JmtIterModel JmtExclModel JmtRestoreCheckProof
  JmtExclSpec JmtIcsSpec JmtIcsModel.
Local Open Scope nat_scope.

Lemma bytes_ltb_lt k l : bytes_ltb k l = true <-> bytes_lt k l.
Proof.
  revert l. induction k as [|a k IH]; intros [|b l]; cbn [bytes_ltb].
  - split; [done|inversion 1].
  - split; [constructor|done].
  - split; [done|inversion 1].
  - rewrite orb_true_iff, andb_true_iff, N.ltb_lt, N.eqb_eq, IH. split.
    + intros [H|[H1%byte_N_inj H2]]; [by constructor|subst; by constructor].
    + inversion 1; subst; auto.
Qed.

(** ** Operations *)
Lemma bits_up_key kh : bits_up kh = rev (key_bits kh).
Proof.
  unfold bits_up, key_bits. induction kh as [|b kh IH]; [done|]. cbn [flat_map rev]. rewrite rev_app_distr, <-IH, flat_map_app.
  f_equal. cbn [flat_map]. rewrite app_nil_r. by destruct b.
Qed.
Lemma ics_steps_skip n bits sibs : ics_steps n bits sibs = ics_steps 0 (drop n bits) sibs.
Proof.
  revert n. induction bits as [|b bits IH]; intros [|n]; [done..|]. cbn [ics_steps drop]. apply IH.
Qed.
Lemma ics_steps_ok bits : forall sibs, length bits = length sibs -> ics_steps 0 bits sibs = Ok (zip_with ics_op bits sibs).
Proof.
  induction bits as [|b bits IH]; intros [|s sibs] H; cbn [length] in H; [done|lia..|].
  cbn [ics_steps zip_with]. rewrite IH by lia. done.
Qed.
Lemma zip_rev {A B C} (f : A -> B -> C) l : forall k, length l = length k ->
  zip_with f (rev l) (rev k) = rev (zip_with f l k).
Proof.
  induction l as [|a l IH]; intros [|b k] H; cbn [length] in H; [done|lia..|]. cbn [rev zip_with].
  rewrite zip_with_app by (rewrite !rev_length; lia). rewrite IH by lia. done.
Qed.

Section Ops.
Context (s : bytes) (Hs : length s = 32).
Notation isp := (sp_inner ics_spec).
Lemma app_len n : length (internal_domain ++ s) = n -> n = 48.
Proof. rewrite app_length, Hs. by intros <-. Qed.
Lemma from0 b : from_branch isp 0 (ics_op b s) = negb b.
Proof. destruct b; unfold from_branch; cbn [place is_order ics_spec sp_inner Nat.eqb is_child_size is_min_prefix is_max_prefix ics_op io_suffix io_prefix];
  [by rewrite app_length, Hs|by rewrite Hs]. Qed.
Lemma from1 b : from_branch isp 1 (ics_op b s) = b.
Proof. destruct b; unfold from_branch; cbn [place is_order ics_spec sp_inner Nat.eqb fmap option_fmap option_map is_child_size is_min_prefix is_max_prefix ics_op io_suffix io_prefix];
  [by rewrite app_length, Hs|by rewrite Hs]. Qed.
Lemma branch_op b : branch_of isp (ics_op b s) = Some (if b then 1 else 0).
Proof.
  unfold branch_of. change (seq 0 (length (is_order isp))) with [0; 1]. rewrite !filter_cons, filter_nil.
  rewrite !decide_bool_decide, from0, from1. by destruct b.
Qed.
Lemma left_empty_op b : left_empty isp (ics_op b s) = b && bool_decide (s = placeholder).
Proof.
  unfold left_empty. rewrite branch_op. destruct b; [|done]. change (seq 0 1) with [0]. cbn [forallb].
  cbn [place is_order ics_spec sp_inner Nat.eqb is_child_size is_empty_child ics_op io_prefix].
  rewrite app_length, Hs. change (length internal_domain + 32 - 1 * 32 + 0 * 32) with (length internal_domain).
  rewrite drop_app, take_ge by lia. rewrite andb_true_r. done.
Qed.
Lemma right_empty_op b : right_empty isp (ics_op b s) = negb b && bool_decide (s = placeholder).
Proof.
  unfold right_empty. rewrite branch_op. destruct b; [done|].
  cbn [is_order ics_spec sp_inner length Nat.sub seq forallb place Nat.eqb is_child_size is_empty_child ics_op io_suffix].
  change (0 * 32) with 0. rewrite Hs, drop_0, take_ge by lia. rewrite (andb_true_r (bool_decide _)). done.
Qed.
Lemma inner_fits_op b : inner_fits ics_spec (ics_op b s) = true.
Proof.
  destruct b; unfold inner_fits; cbn [ics_op io_hash io_prefix io_suffix sp_inner sp_leaf ics_spec ics_leaf lo_prefix is_hash is_min_prefix is_max_prefix is_order is_child_size].
  - rewrite app_length, Hs. reflexivity.
  - rewrite Hs. reflexivity.
Qed.
End Ops.
Lemma op_inj b s b' s' : length s = 32 -> length s' = 32 -> io_prefix (ics_op b s) = io_prefix (ics_op b' s') ->
  io_suffix (ics_op b s) = io_suffix (ics_op b' s') -> b = b' /\ s = s'.
Proof.
  intros H H'. destruct b, b'; cbn [ics_op io_prefix io_suffix].
  - intros E _. by apply app_inv_head in E.
  - intros _ <-. done.
  - intros _ ->. done.
  - done.
Qed.

Section Path.
Context (sha : bytes -> bytes) (Hsha : forall x, length (sha x) = 32).
Notation sm_leaf := (sm_leaf sha).
Notation sm_internal := (sm_internal sha).
Notation hashP := (hashB sm_leaf sm_internal placeholder).
Notation bpath := (bpath sha).
Notation isp := (sp_inner ics_spec).

Lemma apply_zip sibs : forall bits cur, length sibs <= length bits -> cur <> [] ->
  apply_path sha (zip_with ics_op bits sibs) cur = Some (fold_siblings sha cur sibs bits).
Proof.
  induction sibs as [|x sibs IH]; intros [|b bits] cur HL Hc; cbn [length] in HL; [done..|lia|].
  cbn [zip_with apply_path fold_siblings].
  assert (apply_inner sha (ics_op b x) cur = Some (if b then sm_internal x cur else sm_internal cur x)) as ->.
  { unfold apply_inner. destruct cur as [|c cur]; [done|]. destruct b; cbn [ics_op io_hash io_prefix io_suffix do_hash];
      unfold JmtModel.sm_internal; [by rewrite app_nil_r, <-app_assoc|done]. }
  apply IH; [lia|]. intros E. apply (f_equal length) in E. destruct b; unfold JmtModel.sm_internal in E; rewrite Hsha in E; done.
Qed.

(** ** The siblings of a search, one by one *)
Lemma bpath_sib M : forall rest B j, wfm M -> length B + length rest = 256 -> 2 <= cnt (B ++ take j rest) M ->
  exists b, rest !! j = Some b /\ snd (bpath M B rest) !! j = Some (hashP (B ++ take j rest ++ [negb b]) M).
Proof.
  induction rest as [|b rest IH]; intros B j Hw HB H2.
  - exfalso. rewrite take_nil, app_nil_r in H2. cbn in HB. pose proof (cnt_deep B M Hw ltac:(lia)). lia.
  - pose proof (cnt_mono B (B ++ take j (b :: rest)) M ltac:(by eexists)) as Hm.
    rewrite bpath_2 by lia. destruct j as [|j].
    + exists b. destruct (bpath M (B ++ [b]) rest). done.
    + cbn [take] in H2 |- *. replace (B ++ b :: take j rest) with ((B ++ [b]) ++ take j rest) in H2 by (by rewrite <-app_assoc).
      destruct (IH (B ++ [b]) j Hw) as (b' & E & E'); [rewrite app_length; cbn [length] in *; lia|done|].
      exists b'. split; [done|]. destruct (bpath M (B ++ [b]) rest) as [l sb]. cbn [snd] in *.
      etrans; [exact E'|]. rewrite <-app_assoc. done.
Qed.
Lemma bpath_end M : forall rest B, wfm M -> length B + length rest = 256 ->
  cnt (B ++ take (length (snd (bpath M B rest))) rest) M <= 1.
Proof.
  induction rest as [|b rest IH]; intros B Hw HB.
  - rewrite take_nil, app_nil_r. cbn in HB. apply cnt_deep; [done|lia].
  - destruct (decide (cnt B M <= 1)) as [H|H].
    { pose proof (cnt_mono B (B ++ take (length (snd (bpath M B (b :: rest)))) (b :: rest)) M ltac:(by eexists)). lia. }
    rewrite bpath_2 by lia. specialize (IH (B ++ [b]) Hw).
    destruct (bpath M (B ++ [b]) rest) as [l sb]. cbn [snd length take] in *.
    rewrite <-app_assoc in IH. apply IH. rewrite app_length. cbn [length] in *. lia.
Qed.
(** The operations from the root. *)
Definition tops (M : pairs) (k : bytes) : list inner_op := zip_with ics_op (key_bits k) (snd (bpath M [] (key_bits k))).
Definition sib_op (M : pairs) (k : bytes) (j : nat) (b : bool) : inner_op :=
  ics_op b (hashP (take j (key_bits k) ++ [negb b]) M).
Lemma tops_length M k : length (tops M k) = length (snd (bpath M [] (key_bits k))).
Proof. unfold tops. rewrite zip_with_length. pose proof (bpath_len sha M [] (key_bits k)). lia. Qed.
Lemma tops_lt M k j : wfm M -> length k = 32 -> j < length (tops M k) <-> 2 <= cnt (take j (key_bits k)) M.
Proof.
  intros Hw Hk. rewrite tops_length. split; intros H.
  - clear Hsha. assert (forall rest B, j < length (snd (bpath M B rest)) -> 2 <= cnt (B ++ take j rest) M) as HH.
    { clear H. revert j. induction j as [|j IH]; intros rest B H.
      - rewrite take_0, app_nil_r. destruct (decide (2 <= cnt B M)) as [|Hn]; [done|exfalso].
        destruct (decide (cnt B M = 0)) as [E|E]; [rewrite (bpath_0 sha _ _ _ E) in H; cbn in H; lia|].
        destruct (cnt_1 B M ltac:(lia)) as (k0 & x0 & E'). rewrite (bpath_1 sha _ _ _ _ _ E') in H. cbn in H. lia.
      - destruct (decide (cnt B M = 0)) as [E|E]; [rewrite (bpath_0 sha _ _ _ E) in H; cbn in H; lia|].
        destruct (decide (cnt B M = 1)) as [E1|E1].
        { destruct (cnt_1 B M ltac:(lia)) as (k0 & x0 & E'). rewrite (bpath_1 sha _ _ _ _ _ E') in H. cbn in H. lia. }
        destruct rest as [|b rest].
        { pose proof (bpath_len sha M B []). cbn [length] in *. lia. }
        rewrite bpath_2 in H by lia. cbn [take]. specialize (IH rest (B ++ [b])). rewrite <-app_assoc in IH. apply IH.
        destruct (bpath M (B ++ [b]) rest). cbn [snd length] in *. lia. }
    by apply (HH (key_bits k) []).
  - destruct (bpath_sib M (key_bits k) [] j Hw) as (b & _ & E); [rewrite key_bits_length; cbn; lia|done|].
    by apply lookup_lt_Some in E.
Qed.
Lemma tops_lookup M k j o : wfm M -> length k = 32 ->
  tops M k !! j = Some o <-> 2 <= cnt (take j (key_bits k)) M /\ exists b, key_bits k !! j = Some b /\ o = sib_op M k j b.
Proof.
  intros Hw Hk. assert (2 <= cnt (take j (key_bits k)) M -> exists b, key_bits k !! j = Some b /\ tops M k !! j = Some (sib_op M k j b)) as HH.
  { intros H. destruct (bpath_sib M (key_bits k) [] j Hw) as (b & Eb & E); [rewrite key_bits_length; cbn; lia|done|].
    exists b. split; [done|]. unfold tops. rewrite lookup_zip_with, Eb. cbn [mbind option_bind]. rewrite E. done. }
  split.
  - intros E. assert (2 <= cnt (take j (key_bits k)) M) as H by (apply tops_lt; [done..|by eapply lookup_lt_Some]).
    split; [done|]. destruct (HH H) as (b & Eb & E'). exists b. split; [done|]. congruence.
  - intros [H (b & Eb & ->)]. destruct (HH H) as (b' & Eb' & E'). congruence.
Qed.
Lemma sib_length M B : wfm M -> length (hashP B M) = 32.
Proof. intros Hw. by apply hashP_length. Qed.

(** ** The path as a verifier sees it *)
Lemma tops_fits M k : wfm M -> length k = 32 -> Forall (fun o => inner_fits ics_spec o = true) (tops M k).
Proof.
  intros Hw Hk. apply Forall_lookup. intros j o (H & b & Eb & ->)%tops_lookup; [|done..].
  apply inner_fits_op, sib_length, Hw.
Qed.
(** No key of [M] other than [k] has the prefix [B]. *)
Lemma empty_side M B : (forall l x, M !! l = Some x -> ~ B `prefix_of` key_bits l) -> hashP B M = placeholder.
Proof.
  intros H. rewrite hashB_empty; [done|]. destruct (decide (cnt B M = 0)) as [|Hn]; [done|exfalso].
  destruct (cnt_pos_inv B M ltac:(lia)) as (l & x & E & Hp). by eapply H.
Qed.
Lemma side_lt M k j l x : wfm M -> length k = 32 -> M !! l = Some x -> key_bits k !! j = Some true ->
  take j (key_bits k) ++ [negb true] `prefix_of` key_bits l -> bytes_lt l k.
Proof. intros Hw Hk Hl Hj Hp. eapply bits_lt_conv; [by eapply Hw|done|exact Hp|done]. Qed.
Lemma side_gt M k j l x : wfm M -> length k = 32 -> M !! l = Some x -> key_bits k !! j = Some false ->
  take j (key_bits k) ++ [negb false] `prefix_of` key_bits l -> bytes_lt k l.
Proof.
  intros Hw Hk Hl Hj [z Hz]. cbn [negb] in Hz. pose proof (lookup_lt_Some _ _ _ Hj) as Hlt.
  assert (take j (key_bits l) = take j (key_bits k)) as Et.
  { rewrite Hz, <-app_assoc, take_app_le, take_take, Nat.min_id by (rewrite take_length; lia). done. }
  apply (bits_lt_conv k l j); [done|by eapply Hw| |].
  - rewrite Et. exists (drop (S j) (key_bits k)). rewrite <-app_assoc. symmetry. by apply take_drop_middle.
  - rewrite Hz, <-app_assoc. rewrite lookup_app_r; rewrite take_length; [|lia].
    replace (j - j `min` length (key_bits k)) with 0 by lia. done.
Qed.
(** The siblings between bit [i] and the leaf: right of [k] there is nothing
    but keys that part from [k] above bit [i]. *)
Lemma tops_right M k i : wfm M -> length k = 32 ->
  (forall l x, M !! l = Some x -> take i (key_bits k) `prefix_of` key_bits l -> ~ bytes_lt k l) ->
  right_most isp (drop i (tops M k)) = true.
Proof.
  intros Hw Hk H. apply forallb_forall. intros o [j Hj]%elem_of_list_In%elem_of_list_lookup.
  rewrite lookup_drop in Hj. apply tops_lookup in Hj as (H2 & b & Eb & ->); [|done..].
  change (length (is_order isp) - 1) with 1. unfold sib_op.
  rewrite from1, right_empty_op by (by apply sib_length). destruct b; [done|]. cbn [orb negb andb].
  apply bool_decide_eq_true. apply empty_side. intros l x Hl Hp. eapply (H l x Hl).
  - etrans; [|exact Hp]. apply prefix_app_r. eexists. symmetry. apply take_take_drop.
  - by eapply (side_gt M k (i + j)).
Qed.
Lemma tops_left M k i : wfm M -> length k = 32 ->
  (forall l x, M !! l = Some x -> take i (key_bits k) `prefix_of` key_bits l -> ~ bytes_lt l k) ->
  left_most isp (drop i (tops M k)) = true.
Proof.
  intros Hw Hk H. apply forallb_forall. intros o [j Hj]%elem_of_list_In%elem_of_list_lookup.
  rewrite lookup_drop in Hj. apply tops_lookup in Hj as (H2 & b & Eb & ->); [|done..]. unfold sib_op.
  rewrite from0, left_empty_op by (by apply sib_length). destruct b; [|done]. cbn [orb negb andb].
  apply bool_decide_eq_true. apply empty_side. intros l x Hl Hp. eapply (H l x Hl).
  - etrans; [|exact Hp]. apply prefix_app_r. eexists. symmetry. apply take_take_drop.
  - by eapply (side_lt M k (i + j)).
Qed.
Lemma neighbours_app c : forall l r, neighbours isp (c ++ l) (c ++ r) = neighbours isp l r.
Proof. induction c as [|a c IH]; intros l r; [done|]. cbn [app neighbours]. rewrite !bool_decide_true by done. apply IH. Qed.
Lemma tops_neighbours M l r x y : wfm M -> M !! l = Some x -> M !! r = Some y -> bytes_lt l r ->
  (forall j z, M !! j = Some z -> bytes_lt l j -> bytes_lt j r -> False) ->
  neighbours isp (tops M l) (tops M r) = true.
Proof.
  intros Hw Hl Hr Hlt Hno. assert (length l = 32) as Ll by by eapply Hw. assert (length r = 32) as Lr by by eapply Hw.
  destruct (bits_lt l r Ll Lr Hlt) as (i & Hi & [z Hz] & Hri). rewrite <-app_assoc in Hz.
  assert (length (take i (key_bits r)) = i) as Lt by (rewrite take_length, key_bits_length; lia).
  assert (take i (key_bits l) = take i (key_bits r)) as Et.
  { rewrite Hz at 1. rewrite take_app_le, take_take, Nat.min_id by lia. done. }
  assert (key_bits l !! i = Some false) as Hli.
  { rewrite Hz, lookup_app_r, Lt, Nat.sub_diag by lia. done. }
  assert (2 <= cnt (take i (key_bits r)) M) as H2.
  { apply (cnt_ge2 _ _ l r x y); [|done|done| |].
    - intros ->. by apply klt_irrefl in Hlt.
    - rewrite <-Et. eexists. symmetry. apply take_drop.
    - eexists. symmetry. apply take_drop. }
  assert (tops M l !! i = Some (sib_op M l i false)) as El by (apply tops_lookup; [done..|]; rewrite Et; eauto).
  assert (tops M r !! i = Some (sib_op M r i true)) as Er by (apply tops_lookup; [done..|]; eauto).
  assert (take i (tops M l) = take i (tops M r)) as Ec.
  { assert (forall j, j < i -> take j (key_bits l) = take j (key_bits r)) as Ej.
    { intros j Hj. apply (f_equal (take j)) in Et. by rewrite !take_take, Nat.min_l in Et by lia. }
    assert (forall j b, j < i -> key_bits l !! j = Some b <-> key_bits r !! j = Some b) as Eb.
    { intros j b Hj. rewrite <-(lookup_take (key_bits l) i), <-(lookup_take (key_bits r) i), Et by done. done. }
    assert (forall j o, j < i -> tops M l !! j = Some o <-> tops M r !! j = Some o) as Eo.
    { intros j o Hj. rewrite !tops_lookup by done. rewrite (Ej j Hj). unfold sib_op. rewrite (Ej j Hj).
      split; intros (A & b & B & C); (split; [done|]); exists b; (split; [|done]); by apply (Eb j b Hj). }
    apply list_eq. intros j. destruct (decide (j < i)) as [Hj|Hj]; [|rewrite !lookup_take_ge by lia; done].
    rewrite !lookup_take by done. apply option_eq. intros o. by apply Eo. }
  rewrite <-(take_drop_middle (tops M l) i _ El), <-(take_drop_middle (tops M r) i _ Er), Ec, neighbours_app.
  cbn [neighbours]. unfold sib_op at 1 2 3 4. cbn [negb].
  rewrite bool_decide_false.
  2: { cbn [ics_op io_prefix]. intros E. apply (f_equal length) in E. rewrite app_length, sib_length in E by done. discriminate E. }
  cbn [andb]. unfold sib_op. rewrite !branch_op by (by apply sib_length).
  rewrite tops_right, tops_left; [done|done|done| |done|done|].
  - intros j w Hj Hp Hlt'. destruct (klt_total l j) as [H|[<-|H]]; [by eapply Hno| |].
    + destruct Hp as [w' Hw']. rewrite Hw' in Hli. rewrite lookup_app_l, lookup_take in Hli;
        [congruence|lia|rewrite take_length, key_bits_length; lia].
    + assert (bytes_lt l j) as Hc; [|by eapply klt_irrefl, klt_trans].
      eapply (side_gt M l i j w Hw Ll Hj Hli). cbn [negb]. rewrite Et.
      rewrite (take_S_r _ _ _ Hri) in Hp. exact Hp.
  - intros j w Hj Hp Hlt'. destruct (klt_total j r) as [H|[->|H]]; [by eapply Hno| |].
    + destruct Hp as [w' Hw']. rewrite Hw' in Hri. rewrite lookup_app_l, lookup_take in Hri;
        [congruence|lia|rewrite take_length, key_bits_length; lia].
    + assert (bytes_lt j r) as Hc; [|by eapply klt_irrefl, klt_trans].
      eapply (side_lt M r i j w Hw Lr Hj Hri). cbn [negb].
      rewrite (take_S_r _ _ _ Hli), Et in Hp. exact Hp.
Qed.

(** ** The proof made for a present key *)
Lemma ics_steps_made (hv : bytes -> bytes) m kh : length kh = 32 ->
  ics_steps (256 - length (p_siblings (made_proof sha hv kh m))) (bits_up kh) (p_siblings (made_proof sha hv kh m)) =
  Ok (rev (tops (hvm hv m) kh)).
Proof.
  intros Hk. rewrite ics_steps_skip, bits_up_key. pose proof (made_proof_len sha hv m kh Hk) as HL.
  unfold made_proof, proof_of, tops in *. pose proof (bpath_len sha (hvm hv m) [] (key_bits kh)) as HL'.
  destruct (bpath (hvm hv m) [] (key_bits kh)) as [lf sb]. cbn [p_siblings snd] in *. rewrite rev_length in *.
  rewrite key_bits_length in HL'. rewrite (drop_rev_take _ _ 256) by (rewrite ?key_bits_length; lia).
  rewrite ics_steps_ok by (rewrite !rev_length, take_length, key_bits_length; lia).
  rewrite zip_rev by (rewrite take_length, key_bits_length; lia). f_equal. f_equal.
  clear. revert sb. generalize (key_bits kh). induction l as [|b l IH]; intros [|s sb]; [done..|]. cbn [length firstn take zip_with]. by rewrite IH.
Qed.
End Path.
