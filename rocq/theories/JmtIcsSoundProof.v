(** ICS-23 proofs: without hash collisions, what a verifier accepts is what
    the tree would have made. *)
From Verif Require Import Base JmtNibModel JmtSpec JmtNibSpec JmtTraceSpec JmtNibProof JmtModel JmtHashProof JmtAbsProof
  JmtCacheProof JmtPutProof JmtReadProof JmtProofProof JmtOrderProof JmtIterModel JmtExclModel JmtRestoreCheckProof
  JmtExclSpec JmtIcsSpec JmtIcsModel JmtIcsProof.
Local Open Scope nat_scope.

Section Sound.
Context (sha : bytes -> bytes) (Hsha : forall x, length (sha x) = 32).
Notation sm_leaf := (sm_leaf sha).
Notation sm_internal := (sm_internal sha).
Notation hashP := (hashB sm_leaf sm_internal placeholder).
Notation bpath := (bpath sha).
Notation isp := (sp_inner ics_spec).
Notation inputs B M := (smt_inputs sha (256 - length B) (length B) (map_to_list (subm B M))).

Lemma apply_path_app a b h :
  apply_path sha (a ++ b) h = match apply_path sha a h with Some h' => apply_path sha b h' | None => None end.
Proof.
  revert h. induction a as [|o a IH]; intros h; [done|]. cbn [app apply_path]. destruct (apply_inner sha o h); [apply IH|done].
Qed.
Lemma path_inputs_app a b h h' : apply_path sha a h = Some h' ->
  path_inputs sha (a ++ b) h = path_inputs sha a h ++ path_inputs sha b h'.
Proof.
  revert h. induction a as [|o a IH]; intros h E; [by injection E as <-|]. cbn [app apply_path path_inputs] in *.
  unfold apply_inner in E. destruct h as [|c h]; [done|]. cbn [app]. f_equal. by apply IH.
Qed.
Lemma apply_path_len path h h' : Forall (fun o => inner_fits ics_spec o = true) path ->
  apply_path sha path h = Some h' -> length h = 32 -> length h' = 32.
Proof.
  intros Hf. revert h. induction Hf as [|o path Ho Hf IH]; intros h E Hh; [by injection E as <-|].
  cbn [apply_path] in E. unfold apply_inner in E. destruct h as [|c h]; [done|].
  eapply IH; [exact E|]. unfold inner_fits in Ho. repeat apply andb_prop in Ho as [Ho ?].
  apply bool_decide_eq_true in Ho. rewrite Ho. apply Hsha.
Qed.
Lemma starts_app (pre x y : bytes) : length pre <= length x -> take (length pre) (x ++ y) = pre -> starts_with pre x = true.
Proof. intros H E. unfold starts_with. rewrite take_app_le in E by done. by apply bool_decide_eq_true. Qed.
(** An operation that fits and yields an internal node is one of the tree's. *)
Lemma fits_op o h l r : inner_fits ics_spec o = true -> length h = 32 -> length l = 32 -> length r = 32 ->
  io_prefix o ++ h ++ io_suffix o = spec_node_input l r ->
  exists b, o = ics_op b (if b then l else r) /\ h = (if b then r else l).
Proof.
  intros Ho Lh Ll Lr E. unfold inner_fits in Ho. cbn [ics_spec sp_inner is_hash is_min_prefix is_max_prefix is_order is_child_size] in Ho.
  repeat apply andb_prop in Ho as [Ho ?]. apply bool_decide_eq_true in Ho. destruct o as [oh pre suf].
  cbn [io_hash io_prefix io_suffix] in *. subst oh.
  assert (length pre + 32 + length suf = 80) as HL.
  { apply (f_equal length) in E. rewrite !app_length in E. cbn in E. rewrite !app_length in E. lia. }
  assert (length pre <= 48) as H48 by (by apply Nat.leb_le).
  assert (16 <= length pre) as H16 by (by apply Nat.leb_le).
  assert (length suf mod 32 = 0) as Hm by (by apply Nat.eqb_eq).
  assert (length suf = 0 \/ length suf = 32) as [Hs|Hs].
  { apply Nat.mod_divide in Hm as [c Hc]; [|done]. destruct c as [|[|c]]; lia. }
  - exists true. destruct suf; [|done]. rewrite app_nil_r in E. unfold spec_node_input in E. rewrite app_assoc in E.
    apply app_inj_2 in E as [E1 E2]; [|by rewrite Lh]. split; [|done]. cbn [ics_op]. f_equal. exact E1.
  - exists false. unfold spec_node_input in E. apply app_inj_1 in E as [E1 E2].
    + apply app_inj_1 in E2 as [E2 E3]; [|by rewrite Lh]. subst. done.
    + cbn [length]. lia.
Qed.
Lemma fits_no_leaf o h k x : inner_fits ics_spec o = true -> io_prefix o ++ h ++ io_suffix o <> spec_leaf_input k x.
Proof.
  intros Ho E. unfold inner_fits in Ho. cbn [ics_spec sp_inner sp_leaf ics_leaf lo_prefix is_min_prefix is_max_prefix is_order is_child_size] in Ho.
  repeat apply andb_prop in Ho as [Ho ?].
  assert (starts_with leaf_domain (io_prefix o) = true) as Hl.
  { apply (starts_app _ _ (h ++ io_suffix o)).
    - assert (16 <= length (io_prefix o)) by (by apply Nat.leb_le). cbn [leaf_domain length]. lia.
    - rewrite E. unfold spec_leaf_input. apply take_app. }
  rewrite Hl in *. done.
Qed.

Lemma path_sound M e kh vh ops : wfm M -> (forall k x, M !! k = Some x -> length x = 32) -> length kh = 32 -> length vh = 32 ->
  Forall (fun o => inner_fits ics_spec o = true) ops -> let L := leaf_domain ++ e ++ kh ++ vh in
  forall B, good_hash sha (L :: path_inputs sha (rev ops) (sha L) ++ inputs B M) ->
  apply_path sha (rev ops) (sha L) = Some (hashP B M) ->
  e = [] /\ M !! kh = Some vh /\ B `prefix_of` key_bits kh /\
  ops = zip_with ics_op (drop (length B) (key_bits kh)) (snd (bpath M B (drop (length B) (key_bits kh)))).
Proof.
  intros Hw Hx Lk Lv Hf L. induction Hf as [|o ops Ho Hf IH]; intros B Hg E.
  - cbn [rev apply_path path_inputs app] in *. injection E as E. destruct Hg as (_ & Hinj & Hph). rewrite Forall_forall in Hph.
    destruct (decide (cnt B M = 0)) as [H0|H0].
    { exfalso. rewrite hashB_empty in E by done. apply (Hph L); [left|]. exact E. }
    destruct (decide (cnt B M = 1)) as [H1|H1].
    { destruct (cnt_1 _ _ H1) as (k & x & Es). rewrite (hashB_single _ _ _ _ _ _ _ Es), sm_leaf_input in E.
      rewrite (inputs_single _ _ _ _ _ Es) in Hinj. apply Hinj in E; [|left|right; left].
      assert (subm B M !! k = Some x) as Hk by (by rewrite Es, lookup_singleton). apply subm_Some in Hk as [Hk Hp].
      pose proof (Hw k x Hk) as Lk'. pose proof (Hx k x Hk) as Lx'.
      unfold L, spec_leaf_input in E. apply app_inv_head in E.
      assert (e = []) as ->. { apply (f_equal length) in E. rewrite !app_length in E. destruct e; [done|cbn in E; lia]. }
      cbn [app] in E. apply app_inj_1 in E as [-> ->]; [|lia]. split; [done|]. split; [done|]. split; [done|].
      rewrite (bpath_1 sha _ _ _ _ _ Es). by destruct (drop _ _). }
    exfalso. rewrite hashB_split, sm_internal_input in E by (done || lia).
    apply Hinj in E; [discriminate E|left|]. right. rewrite (inputs_split sha sha B M) by (done || lia). left.
  - cbn [rev] in *. rewrite apply_path_app in E. destruct (apply_path sha (rev ops) (sha L)) as [h|] eqn:Eh; [|done].
    assert (length h = 32) as Lh.
    { eapply apply_path_len; [|exact Eh|apply Hsha]. apply Forall_rev. exact Hf. }
    rewrite (path_inputs_app _ _ _ _ Eh) in Hg. cbn [apply_path path_inputs] in E, Hg. unfold apply_inner in E.
    destruct h as [|c h0] eqn:Eh0; [done|]. rewrite <-Eh0 in *. clear Eh0 c h0.
    assert (io_hash o = Sha256Op) as Eo.
    { unfold inner_fits in Ho. repeat apply andb_prop in Ho as [Ho ?]. by apply bool_decide_eq_true in Ho. }
    rewrite Eo in E. cbn [do_hash] in E. injection E as E. set (inp := io_prefix o ++ h ++ io_suffix o) in *.
    assert (inp ∈ L :: (path_inputs sha (rev ops) (sha L) ++ [inp]) ++ inputs B M) as Hin by set_solver.
    destruct Hg as (_ & Hinj & Hph). rewrite Forall_forall in Hph.
    destruct (decide (cnt B M = 0)) as [H0|H0].
    { exfalso. rewrite hashB_empty in E by done. by apply (Hph inp). }
    destruct (decide (cnt B M = 1)) as [H1|H1].
    { exfalso. destruct (cnt_1 _ _ H1) as (k & x & Es). rewrite (hashB_single _ _ _ _ _ _ _ Es), sm_leaf_input in E.
      apply Hinj in E; [|done|rewrite (inputs_single _ _ _ _ _ Es); set_solver]. by apply fits_no_leaf in E. }
    rewrite hashB_split, sm_internal_input in E by (done || lia).
    apply Hinj in E; [|done|rewrite (inputs_split sha sha B M) by (done || lia); set_solver].
    apply fits_op in E as (b & -> & Eb); [|done|done|by apply hashP_length..].
    assert (h = hashP (B ++ [b]) M) as Eh' by (by destruct b).
    destruct (IH (B ++ [b])) as (Ee & A & Hp & Eops); [|by rewrite Eh'|].
    { split; [done|]. assert (forall y, y ∈ L :: path_inputs sha (rev ops) (sha L) ++ inputs (B ++ [b]) M ->
        y ∈ L :: (path_inputs sha (rev ops) (sha L) ++ [inp]) ++ inputs B M) as Hsub.
      { intros y. rewrite !elem_of_cons, !elem_of_app. rewrite (inputs_split sha sha B M) by (done || lia).
        rewrite !elem_of_cons, !elem_of_app. destruct b; tauto. }
      split; [intros y z Hy Hz; apply Hinj; by apply Hsub|]. apply Forall_forall. intros y Hy. by apply Hph, Hsub. }
    split; [done|]. split; [done|]. split; [etrans; [|exact Hp]; by eexists|].
    destruct Hp as [rest Hrest]. rewrite Hrest in Eops |- *. rewrite drop_app in Eops.
    rewrite <-app_assoc, drop_app. cbn [app]. rewrite bpath_2 by lia.
    destruct (bpath M (B ++ [b]) rest) as [lf sb]. cbn [snd zip_with] in *. f_equal; [|exact Eops]. by destruct b.
Qed.

(** ** What the absence of siblings says *)
Section Gaps.
Context (M : pairs) (Hw : wfm M) (Hph : forall B, hashP B M = placeholder -> cnt B M = 0).
Lemma right_gap k x i : M !! k = Some x -> right_most isp (drop i (tops sha M k)) = true ->
  forall l y, M !! l = Some y -> take i (key_bits k) `prefix_of` key_bits l -> ~ bytes_lt k l.
Proof.
  intros Hk HR l y Hl [z Hz] Hlt. assert (length k = 32) as Lk by (by eapply Hw). assert (length l = 32) as Ll by (by eapply Hw).
  destruct (bits_lt k l Lk Ll Hlt) as (j & Hj & [w Hwz] & Hb). rewrite <-app_assoc in Hwz.
  assert (length (take j (key_bits l)) = j) as Lt by (rewrite take_length, key_bits_length; lia).
  assert (key_bits k !! j = Some false) as Hkj by (rewrite Hwz, lookup_app_r, Lt, Nat.sub_diag by lia; done).
  assert (take j (key_bits k) = take j (key_bits l)) as Et.
  { rewrite Hwz at 1. rewrite take_app_le, take_take, Nat.min_id by lia. done. }
  assert (i <= j) as Hij.
  { destruct (decide (i <= j)) as [|Hn]; [done|exfalso]. rewrite Hz, lookup_app_l, lookup_take in Hb;
      [congruence|lia|rewrite take_length, key_bits_length; lia]. }
  assert (tops sha M k !! j = Some (sib_op sha M k j false)) as Eo.
  { apply tops_lookup; [done..|]. split; [|eauto]. apply (cnt_ge2 _ _ k l x y).
    - intros ->. congruence.
    - done.
    - done.
    - eexists. symmetry. apply take_drop.
    - rewrite Et. eexists. symmetry. apply take_drop. }
  unfold right_most in HR. rewrite forallb_forall in HR. specialize (HR (sib_op sha M k j false)).
  assert (In (sib_op sha M k j false) (drop i (tops sha M k))) as Hin.
  { apply elem_of_list_In, elem_of_list_lookup. exists (j - i). rewrite lookup_drop. by replace (i + (j - i)) with j by lia. }
  specialize (HR Hin). change (length (is_order isp) - 1) with 1 in HR. unfold sib_op in HR.
  rewrite from1, right_empty_op in HR by (by apply sib_length). cbn [orb negb andb] in HR.
  apply bool_decide_eq_true, Hph in HR.
  pose proof (cnt_pos (take j (key_bits k) ++ [true]) M l y Hl) as Hc. rewrite HR in Hc. apply (Nat.lt_irrefl 0), Hc.
  rewrite Et, <-(take_S_r _ _ _ Hb). eexists. symmetry. apply take_drop.
Qed.
Lemma left_gap k x i : M !! k = Some x -> left_most isp (drop i (tops sha M k)) = true ->
  forall l y, M !! l = Some y -> take i (key_bits k) `prefix_of` key_bits l -> ~ bytes_lt l k.
Proof.
  intros Hk HR l y Hl [z Hz] Hlt. assert (length k = 32) as Lk by (by eapply Hw). assert (length l = 32) as Ll by (by eapply Hw).
  destruct (bits_lt l k Ll Lk Hlt) as (j & Hj & [w Hwz] & Hb). rewrite <-app_assoc in Hwz.
  assert (length (take j (key_bits k)) = j) as Lt by (rewrite take_length, key_bits_length; lia).
  assert (key_bits l !! j = Some false) as Hkj by (rewrite Hwz, lookup_app_r, Lt, Nat.sub_diag by lia; done).
  assert (take j (key_bits l) = take j (key_bits k)) as Et.
  { rewrite Hwz at 1. rewrite take_app_le, take_take, Nat.min_id by lia. done. }
  assert (i <= j) as Hij.
  { destruct (decide (i <= j)) as [|Hn]; [done|exfalso]. rewrite Hz, lookup_app_l, lookup_take in Hkj;
      [congruence|lia|rewrite take_length, key_bits_length; lia]. }
  assert (tops sha M k !! j = Some (sib_op sha M k j true)) as Eo.
  { apply tops_lookup; [done..|]. split; [|eauto]. apply (cnt_ge2 _ _ k l x y).
    - intros ->. congruence.
    - done.
    - done.
    - eexists. symmetry. apply take_drop.
    - rewrite <-Et. eexists. symmetry. apply take_drop. }
  unfold left_most in HR. rewrite forallb_forall in HR. specialize (HR (sib_op sha M k j true)).
  assert (In (sib_op sha M k j true) (drop i (tops sha M k))) as Hin.
  { apply elem_of_list_In, elem_of_list_lookup. exists (j - i). rewrite lookup_drop. by replace (i + (j - i)) with j by lia. }
  specialize (HR Hin). unfold sib_op in HR.
  rewrite from0, left_empty_op in HR by (by apply sib_length). cbn [orb negb andb] in HR.
  apply bool_decide_eq_true, Hph in HR.
  pose proof (cnt_pos (take j (key_bits k) ++ [false]) M l y Hl) as Hc. rewrite HR in Hc. apply (Nat.lt_irrefl 0), Hc.
  rewrite <-Et, <-(take_S_r _ _ _ Hkj). eexists. symmetry. apply take_drop.
Qed.
Lemma neighbours_inv a b : neighbours isp a b = true -> exists i x y, 
  (forall j o, j < i -> a !! j = Some o -> exists o', b !! j = Some o' /\ io_prefix o = io_prefix o' /\ io_suffix o = io_suffix o') /\
  a !! i = Some x /\ b !! i = Some y /\
  (exists m n, branch_of isp x = Some m /\ branch_of isp y = Some n /\ S m = n) /\
  right_most isp (drop (S i) a) = true /\ left_most isp (drop (S i) b) = true.
Proof.
  revert b. induction a as [|x a IH]; intros [|y b] H; [done..|]. cbn [neighbours] in H.
  destruct (bool_decide (io_prefix x = io_prefix y) && bool_decide (io_suffix x = io_suffix y)) eqn:E.
  - apply andb_prop in E as [E1%bool_decide_eq_true E2%bool_decide_eq_true].
    destruct (IH b H) as (i & x' & y' & A & B & C & D & F & G). exists (S i), x', y'. split; [|done].
    intros [|j] o Hj Ho; [injection Ho as <-; by exists y|]. apply (A j o); [lia|done].
  - exists 0, x, y. split; [lia|]. split; [done|]. split; [done|].
    destruct (branch_of isp x) as [m|], (branch_of isp y) as [n|]; try done.
    apply andb_prop in H as [H G]. apply andb_prop in H as [H F]. apply Nat.eqb_eq in H. rewrite !skipn_cons, !drop_0. eauto 10.
Qed.
Lemma between_gap l r x y : M !! l = Some x -> M !! r = Some y -> neighbours isp (tops sha M l) (tops sha M r) = true ->
  forall k z, M !! k = Some z -> bytes_lt l k -> bytes_lt k r -> False.
Proof.
  intros Hl Hr Hn k z Hk Hlk Hkr. assert (length l = 32) as Ll by (by eapply Hw). assert (length r = 32) as Lr by (by eapply Hw).
  assert (length k = 32) as Lk by (by eapply Hw).
  apply neighbours_inv in Hn as (i & ox & oy & Hc & Hx & Hy & (m & n & Em & En & Emn) & HR & HL).
  apply tops_lookup in Hx as (H2 & bl & Hbl & ->); [|done..]. apply tops_lookup in Hy as (_ & br & Hbr & ->); [|done..].
  unfold sib_op in Em, En. rewrite branch_op in Em, En by (by apply sib_length). injection Em as <-. injection En as <-.
  destruct bl; [destruct br; discriminate Emn|]. destruct br; [clear Emn|discriminate Emn].
  pose proof (lookup_lt_Some _ _ _ Hbl) as Hi. rewrite key_bits_length in Hi.
  assert (forall j, j < i -> key_bits l !! j = key_bits r !! j) as Hbits.
  { intros j Hj. assert (2 <= cnt (take j (key_bits l)) M) as H2j.
    { pose proof (cnt_mono (take j (key_bits l)) (take i (key_bits l)) M) as Hm.
      assert (take j (key_bits l) `prefix_of` take i (key_bits l)) as Hp.
      { exists (take (i - j) (drop j (key_bits l))). rewrite take_take_drop. f_equal. lia. }
      specialize (Hm Hp). lia. }
    destruct (lookup_lt_is_Some_2 (key_bits l) j) as [b Hb]; [rewrite key_bits_length; lia|].
    assert (tops sha M l !! j = Some (sib_op sha M l j b)) as Ej by (apply tops_lookup; eauto).
    destruct (Hc j _ Hj Ej) as (o' & Eo' & E1 & E2). apply tops_lookup in Eo' as (_ & b' & Hb' & ->); [|done..].
    unfold sib_op in E1, E2. apply op_inj in E2 as [-> _]; [|by apply sib_length..|done]. congruence. }
  assert (take i (key_bits l) = take i (key_bits r)) as Et.
  { apply list_eq. intros j. destruct (decide (j < i)) as [Hj|Hj]; [|rewrite !lookup_take_ge by lia; done].
    rewrite !lookup_take by done. by apply Hbits. }
  destruct (bits_lt l k Ll Lk Hlk) as (a & Ha & [w Hwz] & Hb). rewrite <-app_assoc in Hwz.
  assert (length (take a (key_bits k)) = a) as Lt by (rewrite take_length, key_bits_length; lia).
  assert (key_bits l !! a = Some false) as Hla by (rewrite Hwz, lookup_app_r, Lt, Nat.sub_diag by lia; done).
  assert (take a (key_bits l) = take a (key_bits k)) as Eta.
  { rewrite Hwz at 1. rewrite take_app_le, take_take, Nat.min_id by lia. done. }
  destruct (Nat.lt_trichotomy a i) as [Hai|[->|Hai]].
  - apply (klt_irrefl k), (klt_trans _ r); [done|]. apply (bits_lt_conv r k a); [done..| |done].
    rewrite <-Eta. assert (take a (key_bits l) = take a (key_bits r)) as ->.
    { apply (f_equal (take a)) in Et. by rewrite !take_take, Nat.min_l in Et by lia. }
    rewrite Hbits in Hla by done. rewrite <-(take_S_r _ _ _ Hla). eexists. symmetry. apply take_drop.
  - apply (left_gap r y (S i) Hr HL k z Hk); [|done]. rewrite (take_S_r _ _ _ Hbr), <-Et, Eta, <-(take_S_r _ _ _ Hb).
    eexists. symmetry. apply take_drop.
  - apply (right_gap l x (S i) Hl HR k z Hk); [|done].
    assert (take (S i) (key_bits l) = take (S i) (key_bits k)) as ->.
    { apply (f_equal (take (S i))) in Eta. by rewrite !take_take, Nat.min_l in Eta by lia. }
    eexists. symmetry. apply take_drop.
Qed.
End Gaps.
End Sound.
