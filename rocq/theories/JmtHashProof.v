(** Internal nodes: bitmaps, [merkle_hash] and the child searches as a walk
    over bit prefixes. *)
From Verif Require Import Base JmtNibModel JmtSpec JmtNibProof JmtModel.
Local Open Scope nat_scope.

Section Hash.
Context (sha : bytes -> bytes).
Notation merkle_hash := (merkle_hash sha).
Notation sm_internal := (sm_internal sha).

(** The children below a bit prefix, in order. *)
Definition kids (cs : children) (q : list bool) : list (nib * child) :=
  filter (fun ic : nib * child => q `prefix_of` nib_bits (fst ic)) (children_sorted cs).

(** First nibble below a bit prefix. *)
Definition padq (q : list bool) : nib :=
  Nib (default false (q !! 0)) (default false (q !! 1))
      (default false (q !! 2)) (default false (q !! 3)).
Definition startq (q : list bool) : N := nib_val (padq q).
Definition maskq (h : nat) (q : list bool) : N :=
  N.land (N.shiftl (N.shiftl 1 (2 ^ N.of_nat h) - 1) (startq q)) 65535.

Lemma elem_children_sorted cs i c : (i, c) ∈ children_sorted cs <-> cs !! i = Some c.
Proof.
  unfold children_sorted. rewrite elem_of_list_omap. split.
  - intros (j & _ & H). destruct (cs !! j) eqn:E; simplify_eq. done.
  - intros H. exists i. split; [apply all_nibs_in|]. by rewrite H.
Qed.
Lemma elem_kids cs q i c : (i, c) ∈ kids cs q <-> cs !! i = Some c /\ q `prefix_of` nib_bits i.
Proof. unfold kids. rewrite elem_of_list_filter, elem_children_sorted. cbn. tauto. Qed.

(** Case analysis on a bit prefix of a given length. *)
Ltac bits_cases q Hl :=
  repeat (let b := fresh "b" in destruct q as [|b q]; cbn [length plus] in Hl; try lia);
  repeat match goal with b : bool |- _ => destruct b end.

Lemma range_ok h q bm : length q + h = 4 ->
  range_bitmaps (startq q) h bm = Ok (N.land (fst bm) (maskq h q), N.land (snd bm) (maskq h q)).
Proof.
  intros Hl. unfold range_bitmaps. fold (maskq h q).
  assert ((startq q <? 16)%N && (startq q mod 2 ^ N.of_nat h =? 0)%N && (2 ^ N.of_nat h <=? 16)%N
          && (startq q + 2 ^ N.of_nat h <=? 16)%N = true) as ->; [|done].
  do 5 (destruct h as [|h]; [bits_cases q Hl; vm_compute; reflexivity|]). lia.
Qed.
Lemma maskq_bit h q i : length q + h = 4 ->
  N.testbit (maskq h q) (nib_val i) = bool_decide (q `prefix_of` nib_bits i).
Proof.
  intros Hl. destruct i as [a b c d].
  do 5 (destruct h as [|h]; [bits_cases q Hl; vm_compute; reflexivity|]). lia.
Qed.
Lemma maskq_nest h q b : length q + S h = 4 ->
  N.land (maskq (S h) q) (maskq h (q ++ [b])) = maskq h (q ++ [b]).
Proof.
  intros Hl. 
  do 4 (destruct h as [|h]; [bits_cases q Hl; vm_compute; reflexivity|]). lia.
Qed.
Lemma startq_left q : length q < 4 -> startq (q ++ [false]) = startq q.
Proof. intros Hl. bits_cases q Hl; vm_compute; reflexivity. Qed.
Lemma startq_right h q : length q + S h = 4 ->
  startq (q ++ [true]) = (startq q + 2 ^ N.of_nat h)%N.
Proof.
  intros Hl. 
  do 4 (destruct h as [|h]; [bits_cases q Hl; vm_compute; reflexivity|]). lia.
Qed.
Lemma u16_list : [0;1;2;3;4;5;6;7;8;9;10;11;12;13;14;15]%N = map nib_val all_nibs.
Proof. reflexivity. Qed.


Definition bm_step (el : N * N) (ic : nib * child) : N * N :=
  let bit := N.shiftl 1 (nib_val (fst ic)) in
  (N.lor (fst el) bit, if child_is_leaf (snd ic) then N.lor (snd el) bit else snd el).

Lemma one_bit j i : N.testbit (N.shiftl 1 (nib_val j)) (nib_val i) = bool_decide (j = i).
Proof. destruct j as [[] [] [] []], i as [[] [] [] []]; vm_compute; reflexivity. Qed.
Lemma fold_exist l el i :
  N.testbit (fst (fold_left bm_step l el)) (nib_val i) =
  N.testbit (fst el) (nib_val i) || bool_decide (i ∈ map fst l).
Proof.
  revert el. induction l as [|[j c] l IH]; intros el; cbn [fold_left map].
  - rewrite (bool_decide_false (i ∈ [])); [by rewrite orb_false_r|by intros ?%elem_of_nil].
  - rewrite IH. unfold bm_step at 1. cbn [fst]. rewrite N.lor_spec, one_bit, <-orb_assoc.
    f_equal. destruct (decide (j = i)) as [->|Hne].
    + rewrite (bool_decide_true (i = i)) by done.
      rewrite (bool_decide_true (i ∈ fst (i, c) :: map fst l)) by (apply elem_of_cons; by left). by rewrite orb_true_l.
    + rewrite (bool_decide_false (j = i)) by done. cbn [orb]. apply bool_decide_ext.
      rewrite elem_of_cons. naive_solver.
Qed.
Lemma fold_leafbits l el i :
  N.testbit (snd (fold_left bm_step l el)) (nib_val i) =
  N.testbit (snd el) (nib_val i) ||
  existsb (fun ic : nib * child => bool_decide (fst ic = i) && child_is_leaf (snd ic)) l.
Proof.
  revert el. induction l as [|[j c] l IH]; intros el; cbn [fold_left existsb].
  - by rewrite orb_false_r.
  - rewrite IH. unfold bm_step at 1. cbn [fst snd]. destruct (child_is_leaf c).
    + rewrite N.lor_spec, one_bit, andb_true_r. by rewrite orb_assoc.
    + by rewrite andb_false_r.
Qed.
Lemma fold_subset l el :
  N.lor (fst el) (snd el) = fst el ->
  N.lor (fst (fold_left bm_step l el)) (snd (fold_left bm_step l el)) = fst (fold_left bm_step l el).
Proof.
  revert el. induction l as [|[j c] l IH]; intros el H; cbn [fold_left]; [done|].
  apply IH. unfold bm_step. cbn [fst snd]. destruct (child_is_leaf c).
  - rewrite (N.lor_comm (snd el)), N.lor_assoc, <-(N.lor_assoc (fst el)), N.lor_diag.
    rewrite <-N.lor_assoc, (N.lor_comm _ (snd el)), N.lor_assoc. by rewrite H.
  - rewrite <-N.lor_assoc, (N.lor_comm _ (snd el)), N.lor_assoc. by rewrite H.
Qed.

Definition ebits (cs : children) : N := fst (fold_left bm_step (children_sorted cs) (0%N, 0%N)).
Definition lbits (cs : children) : N := snd (fold_left bm_step (children_sorted cs) (0%N, 0%N)).

Lemma gen_bitmaps_ok cs : gen_bitmaps cs = Ok (ebits cs, lbits cs).
Proof.
  unfold gen_bitmaps. 
  assert (forall l el, fold_left (fun '(e, l) '(i, c) =>
     (N.lor e (N.shiftl 1 (nib_val i)),
      if child_is_leaf c then N.lor l (N.shiftl 1 (nib_val i)) else l)) l el
     = fold_left bm_step l el) as E.
  { induction l as [|[i c] l IH]; intros [e l0]; cbn [fold_left]; [done|]. rewrite IH. done. }
  cbn zeta. rewrite E.
  pose proof (fold_subset (children_sorted cs) (0%N, 0%N) eq_refl) as Hs.
  rewrite Hs, N.eqb_refl. unfold ebits, lbits. by destruct (fold_left _ _ _).
Qed.
Lemma ebits_bit cs i : N.testbit (ebits cs) (nib_val i) = bool_decide (is_Some (cs !! i)).
Proof.
  unfold ebits. rewrite fold_exist. cbn [fst]. rewrite N.bits_0. cbn [orb].
  apply bool_decide_ext. rewrite elem_of_list_fmap. split.
  - intros ([j c] & -> & H). apply elem_children_sorted in H. cbn. eauto.
  - intros [c H]. exists (i, c). split; [done|]. by apply elem_children_sorted.
Qed.
Lemma lbits_bit cs i :
  N.testbit (lbits cs) (nib_val i) =
  match cs !! i with Some c => child_is_leaf c | None => false end.
Proof.
  unfold lbits. rewrite fold_leafbits. cbn [snd]. rewrite N.bits_0. cbn [orb].
  destruct (existsb _ _) eqn:E.
  - apply existsb_exists in E as ([j c] & Hin & H). apply elem_of_list_In, elem_children_sorted in Hin.
    apply andb_true_iff in H as [H1 H2]. apply bool_decide_eq_true in H1. cbn in *. subst j.
    by rewrite Hin.
  - destruct (cs !! i) as [c|] eqn:Hc; [|done]. destruct (child_is_leaf c) eqn:Hl; [|done].
    assert (existsb (fun ic : nib * child => bool_decide (fst ic = i) && child_is_leaf (snd ic))
              (children_sorted cs) = true) as E2; [|congruence].
    apply existsb_exists. exists (i, c). split; [by apply elem_of_list_In, elem_children_sorted|].
    cbn. by rewrite bool_decide_true, Hl.
Qed.

(** ** A masked bitmap lists the children below the prefix *)
Lemma kids_fst cs q :
  map fst (kids cs q) =
  filter (fun i => q `prefix_of` nib_bits i /\ is_Some (cs !! i)) all_nibs.
Proof.
  unfold kids, children_sorted. induction all_nibs as [|i l IH]; [done|].
  cbn [omap list_omap]. destruct (cs !! i) as [c|] eqn:Hc.
  - rewrite !filter_cons. cbn [fst]. destruct (decide (q `prefix_of` nib_bits i)) as [Hp|Hp].
    + rewrite decide_True by eauto. cbn [map fst]. by rewrite IH.
    + rewrite decide_False by naive_solver. by rewrite IH.
  - rewrite filter_cons, decide_False; [done|]. rewrite Hc. intros [_ [? ?]]; done.
Qed.
Lemma u16_bits_kids h q cs : length q + h = 4 ->
  u16_bits (N.land (ebits cs) (maskq h q)) = map nib_val (map fst (kids cs q)).
Proof.
  intros Hl. unfold u16_bits. rewrite u16_list, kids_fst.
  induction all_nibs as [|i l IH]; [done|]. cbn [map]. rewrite !filter_cons.
  assert (N.testbit (N.land (ebits cs) (maskq h q)) (nib_val i) = true <->
          q `prefix_of` nib_bits i /\ is_Some (cs !! i)) as E.
  { rewrite N.land_spec, ebits_bit, (maskq_bit h) by done.
    rewrite andb_true_iff, !bool_decide_eq_true. tauto. }
  destruct (decide (q `prefix_of` nib_bits i /\ is_Some (cs !! i))) as [Hy|Hn].
  - rewrite decide_True by tauto. cbn [map]. by rewrite IH.
  - rewrite decide_False by tauto. done.
Qed.
Lemma land_mask_0 h q x : length q + h = 4 ->
  (N.land x (maskq h q) = 0)%N <-> forall i, q `prefix_of` nib_bits i -> N.testbit x (nib_val i) = false.
Proof.
  intros Hl. split.
  - intros H i Hp. apply (f_equal (fun y => N.testbit y (nib_val i))) in H.
    rewrite N.land_spec, (maskq_bit h), N.bits_0, bool_decide_true in H by done.
    by rewrite andb_true_r in H.
  - intros H. apply N.bits_inj_0. intros n. rewrite N.land_spec.
    destruct (decide (n < 16)%N) as [Hn|Hn].
    + destruct (nib_of_lt n Hn) as (i & _ & <-). rewrite (maskq_bit h) by done.
      case_bool_decide as Hp; [|by rewrite andb_false_r]. by rewrite H.
    + unfold maskq. rewrite N.land_spec.
      replace (N.testbit 65535 n) with false; [by rewrite !andb_false_r|].
      change 65535%N with (N.ones 16). symmetry. apply N.ones_spec_high. lia.
Qed.
Lemma ebits_mask_0 h q cs : length q + h = 4 ->
  (N.land (ebits cs) (maskq h q) =? 0)%N = bool_decide (kids cs q = []).
Proof.
  intros Hl. destruct (N.eqb_spec (N.land (ebits cs) (maskq h q)) 0) as [E|E]; symmetry.
  - apply bool_decide_eq_true. destruct (kids cs q) as [|[i c] l] eqn:K; [done|].
    assert ((i, c) ∈ kids cs q) as Hin by (rewrite K; left).
    apply elem_kids in Hin as [Hc Hp]. rewrite (land_mask_0 h) in E by done.
    specialize (E i Hp). rewrite ebits_bit, bool_decide_true in E; [done|eauto].
  - apply bool_decide_eq_false. intros K. apply E. apply land_mask_0; [done|].
    intros i Hp. rewrite ebits_bit. apply bool_decide_eq_false. intros [c Hc].
    assert ((i, c) ∈ kids cs q) as Hin by by apply elem_kids. rewrite K in Hin.
    by apply elem_of_nil in Hin.
Qed.
Lemma lbits_mask_0 h q cs : length q + h = 4 ->
  (N.land (lbits cs) (maskq h q) =? 0)%N =
  negb (existsb (fun ic => child_is_leaf (snd ic)) (kids cs q)).
Proof.
  intros Hl. destruct (N.eqb_spec (N.land (lbits cs) (maskq h q)) 0) as [E|E]; symmetry.
  - apply negb_true_iff. rewrite (land_mask_0 h) in E by done.
    destruct (existsb _ _) eqn:X; [|done]. apply existsb_exists in X as ([i c] & Hin & Hlf).
    apply elem_of_list_In, elem_kids in Hin as [Hc Hp]. specialize (E i Hp).
    rewrite lbits_bit, Hc in E. cbn in Hlf. congruence.
  - apply negb_false_iff. destruct (existsb _ _) eqn:X; [done|].
    destruct E. apply land_mask_0; [done|]. intros i Hp. rewrite lbits_bit.
    destruct (cs !! i) as [c|] eqn:Hc; [|done]. destruct (child_is_leaf c) eqn:Hlf; [|done].
    assert (existsb (fun ic : nib * child => child_is_leaf (snd ic)) (kids cs q) = true); [|congruence].
    apply existsb_exists. exists (i, c). split; [|done]. apply elem_of_list_In, elem_kids. done.
Qed.
Lemma only_child_ok h q cs i c l : length q + h = 4 -> kids cs q = (i, c) :: l ->
  only_child cs (N.land (ebits cs) (maskq h q)) = Ok (i, c).
Proof.
  intros Hl K. unfold only_child, trailing_zeros. rewrite (u16_bits_kids h) by done.
  rewrite K. cbn [map head default fst]. change (id (nib_val i)) with (nib_val i). rewrite nib_of_val.
  assert ((i, c) ∈ kids cs q) as Hin by (rewrite K; left). apply elem_kids in Hin as [-> _]. done.
Qed.
Lemma children_sorted_NoDup cs : NoDup (map fst (children_sorted cs)).
Proof.
  assert (map fst (children_sorted cs) = map fst (kids cs [])) as ->.
  { unfold kids. f_equal. induction (children_sorted cs) as [|a l IH]; [done|].
    rewrite filter_cons, decide_True by apply prefix_nil. by f_equal. }
  rewrite kids_fst. apply NoDup_filter, all_nibs_NoDup.
Qed.
Lemma kids_full q cs : length q = 4 -> length (kids cs q) <= 1.
Proof.
  intros Hl. destruct (kids cs q) as [|[i c] [|[j d] l]] eqn:K; [cbn; lia..|exfalso].
  assert (NoDup (map fst (kids cs q))) as Hnd.
  { rewrite kids_fst. apply NoDup_filter, all_nibs_NoDup. }
  assert ((i, c) ∈ kids cs q) as Hi by (rewrite K; left).
  assert ((j, d) ∈ kids cs q) as Hj by (rewrite K; right; left).
  apply elem_kids in Hi as [_ Hi]. apply elem_kids in Hj as [_ Hj].
  rewrite K in Hnd. cbn in Hnd. apply NoDup_cons in Hnd as [Hnd _]. apply Hnd.
  assert (i = j) as ->; [|left]. apply nib_bits_inj.
  destruct Hi as [l1 Hi], Hj as [l2 Hj].
  assert (l1 = []) as ->.
  { apply (f_equal length) in Hi. rewrite app_length, nib_bits_length in Hi. destruct l1; cbn in Hi; [done|lia]. }
  assert (l2 = []) as ->.
  { apply (f_equal length) in Hj. rewrite app_length, nib_bits_length in Hj. destruct l2; cbn in Hj; [done|lia]. }
  congruence.
Qed.

(** ** The binary hash below a prefix *)
Definition single_leaf (l : list (nib * child)) : bool :=
  match l with [(_, c)] => child_is_leaf c | _ => false end.
Fixpoint mspec (h : nat) (cs : children) (q : list bool) : bytes :=
  match kids cs q with
  | [] => placeholder
  | (_, c) :: _ =>
      match h with
      | O => c_hash c
      | S h' =>
          if single_leaf (kids cs q) then c_hash c
          else sm_internal (mspec h' cs (q ++ [false])) (mspec h' cs (q ++ [true]))
      end
  end.

Lemma leaf_test h q cs : length q + h = 4 -> kids cs q <> [] ->
  (count_ones (N.land (ebits cs) (maskq h q)) =? 1)
    && negb (N.land (lbits cs) (maskq h q) =? 0)%N = single_leaf (kids cs q).
Proof.
  intros Hl Hne. unfold count_ones. rewrite (u16_bits_kids h), !map_length, (lbits_mask_0 h), negb_involutive by done.
  destruct (kids cs q) as [|[i c] [|[j d] l]]; [done| |]; cbn.
  - by rewrite orb_false_r.
  - done.
Qed.
Lemma merkle_hash_ok cs h q bm : length q + h = 4 ->
  N.land (fst bm) (maskq h q) = N.land (ebits cs) (maskq h q) ->
  N.land (snd bm) (maskq h q) = N.land (lbits cs) (maskq h q) ->
  merkle_hash cs h (startq q) bm = Ok (mspec h cs q).
Proof.
  revert q bm. induction h as [|h IH]; intros q bm Hl He Hf; cbn [JmtModel.merkle_hash mspec].
  - rewrite range_ok by done. cbn [rbind fst snd]. rewrite He, (ebits_mask_0 0) by done.
    destruct (kids cs q) as [|[i c] l] eqn:K; [by rewrite bool_decide_true|].
    rewrite bool_decide_false by done. erewrite (only_child_ok 0) by done. done.
  - rewrite range_ok by done. cbn [rbind fst snd]. rewrite He, Hf, (ebits_mask_0 (S h)) by done.
    destruct (kids cs q) as [|[i c] l] eqn:K; [by rewrite bool_decide_true|].
    rewrite bool_decide_false by done. rewrite leaf_test; [|done|by rewrite K]. rewrite K.
    destruct (single_leaf _) eqn:Hs.
    + erewrite (only_child_ok (S h)) by done. done.
    + rewrite <-startq_left by (lia). rewrite IH; cycle 1.
      { rewrite app_length; cbn [length]; lia. }
      { cbn [fst]. by rewrite <-N.land_assoc, maskq_nest. }
      { cbn [snd]. by rewrite <-N.land_assoc, maskq_nest. }
      cbn [rbind]. rewrite startq_left by lia. rewrite <-(startq_right h) by done. rewrite IH; cycle 1.
      { rewrite app_length; cbn [length]; lia. }
      { cbn [fst]. by rewrite <-N.land_assoc, maskq_nest. }
      { cbn [snd]. by rewrite <-N.land_assoc, maskq_nest. }
      done.
Qed.
Lemma inode_hash_ok n : inode_hash sha n = Ok (mspec 4 (in_children n) []).
Proof.
  unfold inode_hash. rewrite gen_bitmaps_ok. cbn [rbind].
  change 0%N with (startq []). by apply merkle_hash_ok.
Qed.

(** ** Walking down to a child *)
Lemma child_half_ok n h : h < 4 -> child_half_start n h = startq (take (4 - h) (nib_bits n)).
Proof.
  intros Hh. do 4 (destruct h as [|h]; [destruct n as [[] [] [] []]; vm_compute; reflexivity|]). lia.
Qed.
Definition flip_last (q : list bool) : list bool :=
  match unsnoc q with Some (q', b) => q' ++ [negb b] | None => [] end.
Lemma sibling_half_ok n h : h < 4 -> sibling_half_start n h = startq (flip_last (take (4 - h) (nib_bits n))).
Proof.
  intros Hh. do 4 (destruct h as [|h]; [destruct n as [[] [] [] []]; vm_compute; reflexivity|]). lia.
Qed.

(** What a search for nibble [bits] below prefix [q] gives: the child met and
    the sibling hashes passed, top-down. *)
Fixpoint walk (h : nat) (cs : children) (q bits : list bool) : option (nib * child) * list bytes :=
  match h, bits with
  | S h', b :: bits' =>
      let s := mspec h' cs (q ++ [negb b]) in
      match kids cs (q ++ [b]) with
      | [] => (None, [s])
      | ic :: _ =>
          if (h' =? 0) || single_leaf (kids cs (q ++ [b])) then (Some ic, [s])
          else let '(r, sibs) := walk h' cs (q ++ [b]) bits' in (r, s :: sibs)
      end
  | _, _ => (None, [])
  end.
Definition walk_key (nk : nkey) (o : option (nib * child)) : option nkey :=
  match o with Some (i, c) => Some (child_key nk (c_ver c) i) | None => None end.

Lemma take_S_bits n h b bits :
  h < 4 -> drop (4 - S h) (nib_bits n) = b :: bits ->
  take (4 - h) (nib_bits n) = take (4 - S h) (nib_bits n) ++ [b].
Proof.
  intros Hh Hd. replace (4 - h) with (S (4 - S h)) by lia.
  apply take_S_r. rewrite <-(Nat.add_0_r (4 - S h)), <-lookup_drop, Hd. done.
Qed.
Lemma child_with_ok cs nk n h sibs :
  0 < h <= 4 ->
  child_with sha cs (ebits cs, lbits cs) nk n h sibs =
  let '(o, more) := walk h cs (take (4 - h) (nib_bits n)) (drop (4 - h) (nib_bits n)) in
  Ok (walk_key nk o, sibs ++ more).
Proof.
  revert sibs. induction h as [|h IH]; intros sibs [Hh1 Hh2]; [lia|]. cbn [child_with walk].
  destruct (drop (4 - S h) (nib_bits n)) as [|b bits] eqn:Hd.
  { apply (f_equal length) in Hd. rewrite drop_length, nib_bits_length in Hd. cbn in Hd. lia. }
  set (q := take (4 - S h) (nib_bits n)).
  assert (Hq : take (4 - h) (nib_bits n) = q ++ [b]) by (apply (take_S_bits n h b bits); [lia|done]).
  assert (Hql : length q = 3 - h).
  { unfold q. rewrite take_length, nib_bits_length. lia. }
  rewrite sibling_half_ok, Hq by lia. unfold flip_last. rewrite unsnoc_snoc.
  rewrite merkle_hash_ok; [|rewrite app_length; cbn [length]; lia|done|done]. cbn [rbind].
  rewrite child_half_ok, Hq by lia. rewrite range_ok by (rewrite app_length; cbn [length]; lia).
  cbn [rbind fst snd]. rewrite ebits_mask_0 by (rewrite app_length; cbn [length]; lia).
  destruct (kids cs (q ++ [b])) as [|[i c] l] eqn:K; [by rewrite bool_decide_true|].
  rewrite bool_decide_false by done.
  rewrite leaf_test; [|rewrite app_length; cbn [length]; lia|by rewrite K].
  rewrite K. destruct ((h =? 0) || single_leaf ((i, c) :: l)) eqn:E.
  - erewrite only_child_ok; [|rewrite app_length; cbn [length]; lia|done]. done.
  - assert (0 < h) by (destruct h; [done|lia]). rewrite IH by lia. rewrite Hq.
    assert (drop (4 - h) (nib_bits n) = bits) as ->.
    { replace (4 - h) with (4 - S h + 1) by lia. rewrite <-drop_drop, Hd. done. }
    destruct (walk h cs (q ++ [b]) bits) as [o more]. by rewrite <-app_assoc.
Qed.
Lemma child_without_ok cs nk n h :
  0 < h <= 4 ->
  child_without cs (ebits cs, lbits cs) nk n h =
  Ok (walk_key nk (fst (walk h cs (take (4 - h) (nib_bits n)) (drop (4 - h) (nib_bits n))))).
Proof.
  induction h as [|h IH]; intros [Hh1 Hh2]; [lia|]. cbn [child_without walk].
  destruct (drop (4 - S h) (nib_bits n)) as [|b bits] eqn:Hd.
  { apply (f_equal length) in Hd. rewrite drop_length, nib_bits_length in Hd. cbn in Hd. lia. }
  set (q := take (4 - S h) (nib_bits n)).
  assert (Hq : take (4 - h) (nib_bits n) = q ++ [b]) by (apply (take_S_bits n h b bits); [lia|done]).
  assert (Hql : length q = 3 - h).
  { unfold q. rewrite take_length, nib_bits_length. lia. }
  rewrite child_half_ok, Hq by lia. rewrite range_ok by (rewrite app_length; cbn [length]; lia).
  cbn [rbind fst snd]. rewrite ebits_mask_0 by (rewrite app_length; cbn [length]; lia).
  destruct (kids cs (q ++ [b])) as [|[i c] l] eqn:K; [by rewrite bool_decide_true|].
  rewrite bool_decide_false by done.
  rewrite leaf_test; [|rewrite app_length; cbn [length]; lia|by rewrite K].
  rewrite K. destruct ((h =? 0) || single_leaf ((i, c) :: l)) eqn:E.
  - erewrite only_child_ok; [|rewrite app_length; cbn [length]; lia|done]. done.
  - assert (0 < h) by (destruct h; [done|lia]). rewrite IH by lia. rewrite Hq.
    assert (drop (4 - h) (nib_bits n) = bits) as ->.
    { replace (4 - h) with (4 - S h + 1) by lia. rewrite <-drop_drop, Hd. done. }
    by destruct (walk h cs (q ++ [b]) bits) as [o more].
Qed.
Lemma get_with_ok n nk i :
  get_child_with_siblings sha n nk i =
  let '(o, more) := walk 4 (in_children n) [] (nib_bits i) in Ok (walk_key nk o, more).
Proof.
  unfold get_child_with_siblings. rewrite gen_bitmaps_ok. cbn [rbind].
  rewrite child_with_ok by lia. cbn [take drop Nat.sub]. by destruct (walk _ _ _ _).
Qed.
Lemma get_without_ok n nk i :
  get_child_without_siblings n nk i =
  Ok (walk_key nk (fst (walk 4 (in_children n) [] (nib_bits i)))).
Proof.
  unfold get_child_without_siblings. rewrite gen_bitmaps_ok. cbn [rbind].
  rewrite child_without_ok by lia. done.
Qed.
End Hash.
