(** Reading: [get_with_proof] follows the binary tree, and what the siblings
    it collects recombine to. *)
From Verif Require Import Base JmtNibModel JmtSpec JmtNibProof JmtModel JmtHashProof JmtAbsProof
  JmtCacheProof JmtPutProof.
Local Open Scope nat_scope.

Section Read.
Context (sha : bytes -> bytes).
Notation sm_leaf := (sm_leaf sha).
Notation sm_internal := (sm_internal sha).
Notation hashP := (hashB sm_leaf sm_internal placeholder).
Notation phash p M := (hashP (path_bits p) M).
Notation node_of := (node_of sha).
Notation children_of := (children_of sha).
Notation child_of := (child_of sha).
Notation walk := (walk sha).

(** Search for a key in the binary tree: the leaf met, the siblings passed. *)
Fixpoint bpath (M : pairs) (B rest : list bool) : option (bytes * bytes) * list bytes :=
  match map_to_list (subm B M), rest with
  | [], _ => (None, [])
  | [kv], _ => (Some kv, [])
  | _, [] => (None, [])
  | _, b :: rest' =>
      let '(l, s) := bpath M (B ++ [b]) rest' in (l, hashP (B ++ [negb b]) M :: s)
  end.
Lemma bpath_0 M B rest : cnt B M = 0 -> bpath M B rest = (None, []).
Proof. intros H. apply cnt_0 in H. destruct rest; cbn [bpath]; by rewrite H, map_to_list_empty. Qed.
Lemma bpath_1 M B rest k x : subm B M = {[k := x]} -> bpath M B rest = (Some (k, x), []).
Proof. intros H. destruct rest; cbn [bpath]; by rewrite H, map_to_list_singleton. Qed.
Lemma bpath_2 M B b rest : 2 <= cnt B M ->
  bpath M B (b :: rest) = let '(l, s) := bpath M (B ++ [b]) rest in (l, hashP (B ++ [negb b]) M :: s).
Proof.
  intros H. cbn [bpath]. change (2 <= length (map_to_list (subm B M))) in H.
  destruct (map_to_list _) as [|? [|]]; cbn [length] in H; [lia..|done].
Qed.

Lemma walk_bpath M ver p h q bits rest : wfm M -> length p < 64 ->
  length q + h = 4 -> length bits = h -> 0 < h -> 2 <= cnt (path_bits p ++ q) M ->
  bpath M (path_bits p ++ q) (bits ++ rest) =
  let '(o, s) := walk h (children_of M ver p) q bits in
  match o with
  | None => (None, s)
  | Some (i, c) => let '(l, s2) := bpath M (path_bits (p ++ [i])) rest in (l, s ++ s2)
  end.
Proof.
  intros Hw Hp. revert q bits. induction h as [|h IH]; intros q bits Hq Hb Hh Hc; [lia|].
  destruct bits as [|b bits]; [done|]. cbn [length] in Hb. cbn [app JmtHashProof.walk].
  rewrite bpath_2 by done. rewrite mspec_hash by (try done; rewrite app_length; cbn [length]; lia).
  rewrite <-!app_assoc.
  assert (length (q ++ [b]) <= 4) as Hl by (rewrite app_length; cbn [length]; lia).
  destruct (kids (children_of M ver p) (q ++ [b])) as [|[i c] l] eqn:K.
  { apply kids_nil in K; [|done..]. by rewrite bpath_0. }
  rewrite <-K. destruct (single_leaf (kids (children_of M ver p) (q ++ [b]))) eqn:Hs.
  - rewrite orb_true_r. apply kids_single in Hs; [|done..].
    destruct (cnt_1 _ _ Hs) as (k & x & E). rewrite (bpath_1 _ _ _ _ _ E).
    assert (subm (path_bits (p ++ [i])) M = {[k := x]}) as E2.
    { destruct l as [|d l]; [|apply kids_many in K; [lia|done..]].
      rewrite <-E. symmetry. by apply (kids_one sha M ver p (q ++ [b]) i c). }
    by rewrite (bpath_1 _ _ _ _ _ E2).
  - rewrite orb_false_r. assert (2 <= cnt (path_bits p ++ q ++ [b]) M) as Hc'.
    { assert (cnt (path_bits p ++ q ++ [b]) M <> 0) as H0.
      { intros H. apply (kids_nil sha M ver) in H; [congruence|done..]. }
      assert (cnt (path_bits p ++ q ++ [b]) M <> 1); [|lia].
      intros H1. apply (kids_single sha M ver) in H1; [congruence|done..]. }
    destruct (Nat.eqb_spec h 0) as [->|Hh0].
    + destruct bits; [|done]. cbn [app].
      assert ((i, c) ∈ kids (children_of M ver p) (q ++ [b])) as Hin by (rewrite K; left).
      apply kids_of_elem in Hin as (_ & _ & Hi). apply kids_prefix_eq in Hi; [|rewrite app_length; cbn [length]; lia].
      rewrite snoc_bits, <-Hi. by destruct (bpath M _ rest).
    + rewrite (IH (q ++ [b]) bits); [|rewrite app_length; cbn [length]; lia|lia|lia|done].
      destruct (walk h (children_of M ver p) (q ++ [b]) bits) as [[[j d]|] s]; [|done].
      by destruct (bpath M (path_bits (p ++ [j])) rest).
Qed.

(** The child found by a walk exists. *)
Lemma walk_elem h cs q bits i c s : walk h cs q bits = (Some (i, c), s) -> exists q', (i, c) ∈ kids cs q'.
Proof.
  revert q bits s. induction h as [|h IH]; intros q bits s; [done|].
  destruct bits as [|b bits]; [done|]. cbn [JmtHashProof.walk].
  destruct (kids cs (q ++ [b])) as [|ic l] eqn:K; [done|].
  destruct ((h =? 0) || _).
  - intros [= -> _]. exists (q ++ [b]). rewrite K. left.
  - destruct (walk h cs (q ++ [b]) bits) as [o s'] eqn:E. intros [= -> _]. by eapply IH.
Qed.
(** A child with several leaves is only reached along the key itself. *)
Lemma walk_nib M ver p h q bits i c s : wfm M -> length p < 64 -> length q + h = 4 -> length bits = h ->
  walk h (children_of M ver p) q bits = (Some (i, c), s) -> 2 <= pcnt (p ++ [i]) M -> q ++ bits = nib_bits i.
Proof.
  intros Hw Hp. revert q bits s. induction h as [|h IH]; intros q bits s Hq Hb; [done|].
  destruct bits as [|b bits]; [done|]. cbn [length] in Hb. cbn [JmtHashProof.walk].
  assert (length (q ++ [b]) <= 4) as Hl by (rewrite app_length; cbn [length]; lia).
  destruct (kids (children_of M ver p) (q ++ [b])) as [|ic l] eqn:K; [done|].
  assert (ic ∈ kids (children_of M ver p) (q ++ [b])) as Hin by (rewrite K; left).
  rewrite <-K. destruct (Nat.eqb_spec h 0) as [->|Hh0]; cbn [orb].
  - intros Heq _. apply (f_equal fst) in Heq. cbn [fst] in Heq. injection Heq as ->. destruct bits; [|done]. apply kids_of_elem in Hin as (_ & _ & Hi).
    apply kids_prefix_eq in Hi; [done|]. rewrite app_length; cbn [length]; lia.
  - destruct (single_leaf _) eqn:Hs.
    + intros Heq H2. apply (f_equal fst) in Heq. cbn [fst] in Heq. injection Heq as ->. apply kids_single in Hs; [|done..]. apply kids_of_elem in Hin as (_ & _ & Hi).
      exfalso. pose proof (cnt_mono (path_bits p ++ q ++ [b]) (path_bits (p ++ [i])) M) as Hm.
      rewrite snoc_bits in Hm, H2. specialize (Hm (prefix_app _ _ _ Hi)). lia.
    + destruct (walk h (children_of M ver p) (q ++ [b]) bits) as [o s'] eqn:E. intros Heq H2. apply (f_equal fst) in Heq. cbn [fst] in Heq. subst o.
      specialize (IH (q ++ [b]) bits s'). rewrite <-app_assoc in IH. apply IH; [|lia|done|done].
      rewrite app_length; cbn [length]; lia.
Qed.

Definition found_value (s : store) (u : N) (k : bytes) (l : option (bytes * bytes)) : res jerr (option bytes) :=
  match l with
  | Some (k0, _) => if decide (k0 = k) then rbind (st_get_value s u k0) (fun x => Ok (Some x)) else Ok None
  | None => Ok None
  end.

Lemma gwp_ok s u M ver k : Holds sha (st_nodes s) u M ver -> length k = 32 ->
  forall rest p nk d0 sibs,
  st_nodes s !! nk = Some (node_of M ver p) ->
  snd nk = p ->
  (p = [] \/ live [] M p) ->
  (2 <= pcnt p M -> p ++ rest = nibs k) ->
  (pcnt p M = 0 -> d0 = true /\ sibs = []) ->
  gwp sha s u k rest nk d0 sibs =
  let '(l, sb) := bpath M (path_bits p) (path_bits rest) in
  rbind (found_value s u k l) (fun x => Ok (x, Proof l (rev (sibs ++ sb)))).
Proof.
  intros HH Hk. pose proof (h_wf _ _ _ _ _ HH) as Hw.
  assert (forall rest p nk d0 sibs, st_nodes s !! nk = Some (node_of M ver p) -> snd nk = p ->
    pcnt p M <= 1 -> (pcnt p M = 0 -> d0 = true /\ sibs = []) ->
    gwp sha s u k rest nk d0 sibs =
    let '(l, sb) := bpath M (path_bits p) (path_bits rest) in
    rbind (found_value s u k l) (fun x => Ok (x, Proof l (rev (sibs ++ sb))))) as Hsmall.
  { intros rest p nk d0 sibs Hnk _ Hc Hd. destruct (decide (pcnt p M = 0)) as [H0|H0].
    - rewrite (bpath_0 _ _ _ H0). destruct (Hd H0) as [-> ->]. rewrite (node_of_null sha _ _ _ H0) in Hnk.
      destruct rest; cbn [gwp]; rewrite Hnk; reflexivity.
    - destruct (cnt_1 (path_bits p) M) as (k0 & x0 & E); [lia|].
      rewrite (bpath_1 _ _ _ _ _ E). rewrite (node_of_leaf sha _ _ _ _ _ E) in Hnk.
      rewrite app_nil_r. destruct rest; cbn [gwp]; rewrite Hnk; unfold found_value; reflexivity. }
  induction rest as [|i rest IH]; intros p nk d0 sibs Hnk Hsnd Hlive Hpath Hd.
  - destruct (decide (2 <= pcnt p M)) as [H2|H2]; [|apply Hsmall; [done..|lia|done]].
    exfalso. pose proof (pcnt_short M p Hw H2) as Hs. specialize (Hpath H2). rewrite app_nil_r in Hpath.
    pose proof (nibs_length k) as L. rewrite <-Hpath, Hk in L. lia.
  - destruct (decide (2 <= pcnt p M)) as [H2|H2]; [|apply Hsmall; [done..|lia|done]].
    pose proof (pcnt_short M p Hw H2) as Hs. specialize (Hpath H2).
    cbn [gwp]. rewrite Hnk, (node_of_internal sha _ _ _ H2). rewrite get_with_ok. cbn [in_children].
    rewrite path_bits_cons.
    pose proof (walk_bpath M ver p 4 [] (nib_bits i) (path_bits rest) Hw Hs eq_refl (nib_bits_length i)) as Hwk.
    rewrite app_nil_r in Hwk. rewrite Hwk by (lia || done).
    destruct (walk 4 (children_of M ver p) [] (nib_bits i)) as [[[j c]|] sb] eqn:Ew; cbn [rbind walk_key].
    2: { reflexivity. }
    destruct (walk_elem _ _ _ _ _ _ _ Ew) as [q' Hin]. apply kids_of_elem in Hin as (Hn0 & Ec & _).
    assert (live [] M (p ++ [j])) as Hlj.
    { split_and!; [apply prefix_nil|lia|]. right. by rewrite removelast_last. }
    rewrite (IH (p ++ [j]) (child_key nk (c_ver c) j) false (sibs ++ sb)).
    + destruct (bpath M (path_bits (p ++ [j])) (path_bits rest)) as [l s2]. by rewrite app_assoc.
    + subst c. cbn [JmtAbsProof.child_of c_ver]. unfold child_key. rewrite Hsnd.
      apply (h_live _ _ _ _ _ HH); [by destruct p|done].
    + unfold child_key. cbn [snd]. by rewrite Hsnd.
    + by right.
    + intros H2j. apply (walk_nib M ver p 4 [] (nib_bits i) j c sb Hw Hs eq_refl (nib_bits_length i) Ew) in H2j.
      cbn [app] in H2j. apply nib_bits_inj in H2j. subst j. by rewrite <-app_assoc.
    + done.
Qed.

(** ** Recombining *)
Fixpoint fold_top (cur : bytes) (sibs : list bytes) (bits : list bool) : bytes :=
  match sibs, bits with
  | s :: sibs', b :: bits' =>
      if b : bool then sm_internal s (fold_top cur sibs' bits') else sm_internal (fold_top cur sibs' bits') s
  | _, _ => cur
  end.
Lemma fold_siblings_app cur a b c d : length a = length c ->
  fold_siblings sha cur (a ++ b) (c ++ d) = fold_siblings sha (fold_siblings sha cur a c) b d.
Proof.
  revert cur c. induction a as [|x a IH]; intros cur [|y c] H; try done. cbn. apply IH. by injection H.
Qed.
Lemma fold_siblings_top cur sibs bits : length sibs <= length bits ->
  fold_siblings sha cur (rev sibs) (rev (take (length sibs) bits)) = fold_top cur sibs bits.
Proof.
  revert bits. induction sibs as [|s sibs IH]; intros bits H; [done|].
  destruct bits as [|b bits]; cbn [length] in H; [lia|]. cbn [length take rev fold_top].
  rewrite fold_siblings_app by (rewrite !rev_length, take_length; lia).
  rewrite IH by lia. cbn. by destruct b.
Qed.
Lemma drop_rev_take {A} (l : list A) n N : length l = N -> n <= N -> drop (N - n) (rev l) = rev (take n l).
Proof. intros <- H. rewrite skipn_rev. do 2 f_equal. lia. Qed.

Definition leaf_hash_of (l : option (bytes * bytes)) : bytes :=
  match l with Some (k, vh) => sm_leaf k vh | None => placeholder end.

Lemma bpath_len M B rest : length (snd (bpath M B rest)) <= length rest.
Proof.
  revert B. induction rest as [|b rest IH]; intros B.
  - cbn [bpath]. by destruct (map_to_list _) as [|? [|]].
  - cbn [bpath]. destruct (map_to_list _) as [|? [|]]; cbn; try lia. specialize (IH (B ++ [b])).
    destruct (bpath M (B ++ [b]) rest) as [lf sb]. cbn [fst snd length] in *. lia.
Qed.
Lemma bpath_fold M B rest : wfm M -> length B + length rest = 256 ->
  fold_top (leaf_hash_of (fst (bpath M B rest))) (snd (bpath M B rest)) rest = hashP B M.
Proof.
  intros Hw. revert B. induction rest as [|b rest IH]; intros B HB.
  - destruct (decide (cnt B M = 0)) as [H0|H0].
    { rewrite (bpath_0 _ _ _ H0), hashB_empty by done. reflexivity. }
    destruct (decide (cnt B M = 1)) as [H1|H1].
    { destruct (cnt_1 _ _ H1) as (k & x & E). rewrite (bpath_1 _ _ _ _ _ E), (hashB_single _ _ _ _ _ _ _ E). reflexivity. }
    exfalso. cbn in HB. pose proof (cnt_deep B M Hw ltac:(lia)). lia.
  - destruct (decide (cnt B M = 0)) as [H0|H0].
    { rewrite (bpath_0 _ _ _ H0), hashB_empty by done. reflexivity. }
    destruct (decide (cnt B M = 1)) as [H1|H1].
    { destruct (cnt_1 _ _ H1) as (k & x & E). rewrite (bpath_1 _ _ _ _ _ E), (hashB_single _ _ _ _ _ _ _ E). reflexivity. }
    rewrite bpath_2 by lia. specialize (IH (B ++ [b])). rewrite app_length in IH. cbn [length] in IH, HB.
    destruct (bpath M (B ++ [b]) rest) as [l s]. cbn [fst snd fold_top] in *.
    rewrite IH by lia. rewrite (hashB_split _ _ _ B) by (done || lia). by destruct b.
Qed.
(** What the search says about the key and about the leaf met. *)
Lemma bpath_spec M B rest k : wfm M -> length B + length rest = 256 -> key_bits k = B ++ rest ->
  match fst (bpath M B rest) with
  | None => M !! k = None
  | Some (k0, x0) =>
      M !! k0 = Some x0 /\ B ++ take (length (snd (bpath M B rest))) rest `prefix_of` key_bits k0 /\
      (k0 = k \/ M !! k = None)
  end.
Proof.
  intros Hw. revert B. induction rest as [|b rest IH]; intros B HB Hk.
  all: destruct (decide (cnt B M = 0)) as [H0|H0].
  1,3: (rewrite (bpath_0 _ _ _ H0); cbn [fst];
        destruct (M !! k) as [x|] eqn:E; [|done];
        pose proof (cnt_pos B M k x E ltac:(rewrite Hk; by eexists)); lia).
  all: destruct (decide (cnt B M = 1)) as [H1|H1].
  1,3: (destruct (cnt_1 _ _ H1) as (k0 & x0 & E); rewrite (bpath_1 _ _ _ _ _ E); cbn [fst snd length take];
        rewrite app_nil_r;
        assert (subm B M !! k0 = Some x0) as Hs by (by rewrite E, lookup_singleton);
        apply subm_Some in Hs as [Hs1 Hs2]; split_and!; [done..|];
        destruct (decide (k0 = k)) as [|Hne]; [by left|right];
        destruct (M !! k) as [x|] eqn:Ek; [|done]; exfalso;
        assert (subm B M !! k = Some x) as Hsk by (apply subm_Some; split; [done|rewrite Hk; by eexists]);
        rewrite E, lookup_singleton_ne in Hsk; done).
  - exfalso. cbn in HB. pose proof (cnt_deep B M Hw ltac:(lia)). lia.
  - rewrite bpath_2 by lia. specialize (IH (B ++ [b])). rewrite app_length in IH. cbn [length] in IH, HB.
    rewrite <-app_assoc in IH. specialize (IH ltac:(lia) Hk).
    destruct (bpath M (B ++ [b]) rest) as [[[k0 x0]|] s]; cbn [fst snd] in *; [|done].
    destruct IH as (A & C & D). split_and!; [done| |done]. cbn [length take]. by rewrite <-app_assoc in C.
Qed.
End Read.
