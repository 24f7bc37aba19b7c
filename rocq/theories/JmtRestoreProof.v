(** Restoring a tree: what the partial nodes and the frozen nodes are. *)
From Verif Require Import Base JmtNibModel JmtSpec JmtNibSpec JmtNibProof JmtNibMoreProof JmtModel JmtHashProof JmtAbsProof
  JmtCacheProof JmtOrderProof JmtIterModel JmtIterProof JmtRestoreModel.
Local Open Scope nat_scope.

Notation pcnt p M := (cnt (path_bits p) M).

(** ** Paths *)
Lemma prefix_app_cases {A} (x y z : list A) : x `prefix_of` z -> y `prefix_of` z -> x `prefix_of` y \/ y `prefix_of` x.
Proof. apply prefix_weak_total. Qed.
Lemma prefix_len_eq {A} (x y : list A) : x `prefix_of` y -> length y <= length x -> x = y.
Proof.
  intros [z ->] H. rewrite app_length in H. destruct z; [by rewrite app_nil_r|cbn in H; lia].
Qed.
Lemma prefix_snoc_or {A} (x p : list A) j : x `prefix_of` p ++ [j] -> x `prefix_of` p \/ x = p ++ [j].
Proof.
  intros H. destruct (prefix_weak_total x p (p ++ [j])) as [?|[z ->]]; [done|by eexists|by left|].
  apply prefix_app_inv in H. destruct z as [|c z]; [left; by rewrite app_nil_r|right].
  pose proof H as H'. apply prefix_cons_inv_1 in H' as ->. apply prefix_cons_inv_2, prefix_nil_inv in H as ->. done.
Qed.
Lemma prefix_split {A} (x : list A) a y : x ++ [a] `prefix_of` y -> exists r', y = x ++ a :: r'.
Proof. intros [r' ->]. exists r'. by rewrite <-app_assoc. Qed.
Lemma prefix_take_eq {A} (x l : list A) : x `prefix_of` l -> x = take (length x) l.
Proof. intros [r ->]. by rewrite take_app. Qed.
Lemma diverge {A} `{EqDecision A} (x y : list A) : length x = length y -> x <> y ->
  exists q a b r s, x = q ++ a :: r /\ y = q ++ b :: s /\ a <> b.
Proof.
  revert y. induction x as [|a x IH]; intros [|b y] Hl Hne; cbn in Hl; try lia; [done|].
  destruct (decide (a = b)) as [->|Hab].
  - destruct (IH y) as (q & c & d & r & s & -> & -> & Hcd); [lia|congruence|].
    by exists (b :: q), c, d, r, s.
  - by exists [], a, b, x, y.
Qed.
Lemma diverge_prefix {A} (q p : list A) a b r s : a <> b ->
  p `prefix_of` q ++ a :: r -> p `prefix_of` q ++ b :: s -> p `prefix_of` q.
Proof.
  intros Hab H1 H2. destruct (prefix_weak_total p q (q ++ a :: r)) as [?|[z ->]]; [done|by eexists|done|].
  apply prefix_app_inv in H1. apply prefix_app_inv in H2. destruct z as [|c z]; [by rewrite app_nil_r|].
  apply prefix_cons_inv_1 in H1. apply prefix_cons_inv_1 in H2. congruence.
Qed.
Lemma nibs_diverge k l : length k = 32 -> length l = 32 -> bytes_lt k l ->
  exists q a b r s, nibs k = q ++ a :: r /\ nibs l = q ++ b :: s /\ (nib_val a < nib_val b)%N.
Proof.
  intros Hk Hl Hlt. destruct (diverge (nibs k) (nibs l)) as (q & a & b & r & s & E1 & E2 & Hne).
  { by rewrite !nibs_length, Hk, Hl. }
  { intros E%nibs_inj. subst. by eapply klt_irrefl. }
  exists q, a, b, r, s. split_and!; [done..|].
  destruct (N.lt_trichotomy (nib_val a) (nib_val b)) as [H|[H|H]]; [done|by apply nib_val_inj in H|].
  exfalso. eapply klt_asym; [exact Hlt|]. by eapply nib_klt.
Qed.
Lemma common_nibbles k l q a b r s : length k = 32 -> length l = 32 ->
  nibs k = q ++ a :: r -> nibs l = q ++ b :: s -> a <> b -> common_prefix_nibbles_len k l = length q.
Proof.
  intros Hk Hl E1 E2 Hne. unfold common_prefix_nibbles_len, common_prefix_bits_len.
  rewrite !iter_bits_key, !key_bits_nibs, E1, E2, !path_bits_app, !path_bits_cons by done.
  set (X := path_bits q ++ nib_bits a ++ path_bits r). set (Y := path_bits q ++ nib_bits b ++ path_bits s).
  pose proof (path_bits_length q) as Lq. pose proof (nib_bits_length a) as La. pose proof (nib_bits_length b) as Lb.
  assert (4 * length q <= common_count X Y) as H1.
  { apply common_count_ge; unfold X, Y; rewrite <-Lq; [rewrite app_length; lia|by rewrite !take_app]. }
  assert (~ 4 * length q + 4 <= common_count X Y) as H2.
  { intros Hge. pose proof (common_count_prefix X Y) as Hp. apply (f_equal (take (4 * length q + 4))) in Hp.
    rewrite !take_take, Nat.min_l in Hp by done. unfold X, Y in Hp. rewrite <-Lq, !app_assoc, !take_app_alt in Hp by (rewrite app_length; lia). apply app_inv_head, nib_bits_inj in Hp. done. }
  pose proof (Nat.div_mod (common_count X Y) 4 ltac:(lia)) as Hd.
  pose proof (Nat.mod_upper_bound (common_count X Y) 4 ltac:(lia)) as Hm. lia.
Qed.

(** ** The rightmost child *)
Lemma rightmost_is cs j c : cs !! j = Some c -> (forall i, (nib_val j < nib_val i)%N -> cs !! i = None) ->
  rightmost_child cs = Some j.
Proof.
  intros Hj Hr. unfold rightmost_child. rewrite (nibs_split j), filter_app, filter_cons_True by (by rewrite Hj).
  rewrite (filter_none _ (nibs_after j)); [by rewrite last_snoc|].
  intros i Hi%elem_after. rewrite (Hr i Hi). by intros [? ?].
Qed.

Section Restore.
Context (sha : bytes -> bytes) (v : N).
Notation sm_leaf := (sm_leaf sha).
Notation sm_internal := (sm_internal sha).
Notation hashP := (hashB sm_leaf sm_internal placeholder).
Notation phash p M := (hashP (path_bits p) M).
Notation node_of M q := (node_of sha M (fun _ => v) q).
Notation children_of M q := (children_of sha M (fun _ => v) q).
Implicit Types (M : pairs) (p q : path).

(** ** What is known about a complete child *)
Definition finfo M p : option cinfo :=
  match map_to_list (subm (path_bits p) M) with
  | [] => None
  | [(k, x)] => Some (CLeaf k x)
  | _ => Some (CInternal (Some (phash p M)) (Some (N.of_nat (pcnt p M))))
  end.
Lemma finfo_0 M p : pcnt p M = 0 -> finfo M p = None.
Proof. intros H%cnt_0. unfold finfo. by rewrite H, map_to_list_empty. Qed.
Lemma finfo_1 M p k x : subm (path_bits p) M = {[k := x]} -> finfo M p = Some (CLeaf k x).
Proof. intros H. unfold finfo. by rewrite H, map_to_list_singleton. Qed.
Lemma finfo_2 M p : 2 <= pcnt p M -> finfo M p = Some (CInternal (Some (phash p M)) (Some (N.of_nat (pcnt p M)))).
Proof.
  intros H. unfold finfo. change (2 <= length (map_to_list (subm (path_bits p) M))) in H.
  destruct (map_to_list _) as [|[] [|]]; cbn in H; [lia..|done].
Qed.
Lemma finfo_ext M M' p : subm (path_bits p) M = subm (path_bits p) M' -> finfo M p = finfo M' p.
Proof. intros E. unfold finfo, cnt. rewrite E. by rewrite (hashB_ext _ _ _ _ _ _ E). Qed.
Lemma finfo_None M p : finfo M p = None -> pcnt p M = 0.
Proof.
  intros H. destruct (decide (pcnt p M = 0)) as [|H0]; [done|].
  destruct (decide (pcnt p M = 1)) as [H1|H1].
  - apply cnt_1 in H1 as (k & x & E). by rewrite (finfo_1 _ _ _ _ E) in H.
  - rewrite finfo_2 in H by lia. done.
Qed.
Lemma finfo_child M p : match finfo M p with
  | None => pcnt p M = 0
  | Some c => pcnt p M <> 0 /\ into_child sha v c = Ok (child_of sha M (fun _ => v) p)
  end.
Proof.
  destruct (decide (pcnt p M = 0)) as [H0|H0]; [by rewrite finfo_0|].
  destruct (decide (pcnt p M = 1)) as [H1|H1].
  - pose proof H1 as H1'. apply cnt_1 in H1' as (k & x & E). rewrite (finfo_1 _ _ _ _ E). split; [done|]. cbn [into_child].
    unfold child_of. rewrite decide_True by done. by rewrite (hashB_single _ _ _ _ _ _ _ E).
  - rewrite finfo_2 by lia. split; [done|]. cbn [into_child]. unfold child_of. by rewrite decide_False.
Qed.

Definition complete M p (cs : gmap nib cinfo) : Prop := forall i, cs !! i = finfo M (p ++ [i]).

Lemma into_children_ok M p cs : complete M p cs -> into_children sha v cs all_nibs = Ok (children_of M p).
Proof.
  intros Hc.
  assert (forall l, exists m, into_children sha v cs l = Ok m /\
    forall i, m !! i = if decide (i ∈ l) then children_of M p !! i else None) as H.
  { intros l. induction l as [|i l (m & Em & Hm)].
    - exists ∅. split; [done|]. intros i. rewrite lookup_empty. by case_decide as H; [apply elem_of_nil in H|].
    - cbn [into_children]. rewrite (Hc i). pose proof (finfo_child M (p ++ [i])) as Hf.
      destruct (finfo M (p ++ [i])) as [c|].
      + destruct Hf as [Hn Hi]. rewrite Hi. cbn [rbind]. rewrite Em. cbn [rbind]. eexists. split; [done|].
        intros j. destruct (decide (j = i)) as [->|Hj].
        * rewrite lookup_insert, decide_True by left. by rewrite children_of_lookup, decide_False.
        * rewrite lookup_insert_ne, Hm by done. case_decide as H1; case_decide as H2; try done; exfalso; set_solver.
      + exists m. split; [done|]. intros j. rewrite Hm. destruct (decide (j = i)) as [->|Hj].
        * rewrite children_of_lookup, (decide_True _ _ Hf). by repeat case_decide.
        * case_decide as H1; case_decide as H2; try done; exfalso; set_solver. }
  destruct (H all_nibs) as (m & -> & Hm). f_equal. apply map_eq. intros i. rewrite Hm.
  by rewrite decide_True by apply all_nibs_in.
Qed.
Lemma into_internal_ok M p cs : wfm M -> 2 <= pcnt p M -> complete M p cs ->
  into_internal sha v (PInfo (v, p) cs) = Ok (INode (children_of M p) (Some (N.of_nat (pcnt p M)))).
Proof.
  intros Hw H2 Hc. unfold into_internal. cbn [pi_children]. rewrite (into_children_ok M p) by done. cbn [rbind].
  by apply inode_new_of.
Qed.
Lemma inode_hash_of M p : wfm M -> 2 <= pcnt p M ->
  inode_hash sha (INode (children_of M p) (Some (N.of_nat (pcnt p M)))) = Ok (phash p M).
Proof.
  intros Hw H2. rewrite inode_hash_ok. cbn [in_children].
  rewrite mspec_hash; [by rewrite app_nil_r|done|by apply (pcnt_short M)|done].
Qed.

(** ** The partial nodes above a path *)
Inductive Up M : list pinfo -> path -> Prop :=
| Up_nil : Up M [] []
| Up_cons ps p j cs : Up M ps p -> (forall i, i <> j -> cs !! i = finfo M (p ++ [i])) ->
    cs !! j = Some (CInternal None None) -> Up M (PInfo (v, p) cs :: ps) (p ++ [j]).
Lemma Up_length M ps p : Up M ps p -> length ps = length p.
Proof. induction 1; cbn [length]; [done|]. rewrite app_length; cbn [length]; lia. Qed.
Lemma Up_inv M ps p j : Up M ps (p ++ [j]) -> exists cs ps', ps = PInfo (v, p) cs :: ps' /\ Up M ps' p /\
  (forall i, i <> j -> cs !! i = finfo M (p ++ [i])) /\ cs !! j = Some (CInternal None None).
Proof.
  intros H. inversion H as [E|ps' p' j' cs H1 H2 H3 E1 E2].
  - by destruct p.
  - apply app_inj_tail in E2 as [-> ->]. by eauto 10.
Qed.
Lemma Up_ext M M' ps p : (forall q i, q ++ [i] `prefix_of` p -> forall j, j <> i -> finfo M (q ++ [j]) = finfo M' (q ++ [j])) ->
  Up M ps p -> Up M' ps p.
Proof.
  intros He H. induction H as [|ps p j cs H IH H1 H2]; [constructor|]. constructor; [|intros i Hi|done].
  - apply IH. intros q i Hq. apply He. etrans; [done|]. by eexists.
  - rewrite H1 by done. by apply (He p j).
Qed.
(** The partial node at a depth. *)
Lemma Up_at M ps p top n q j : Up M ps p -> q ++ [j] `prefix_of` p -> n = length q ->
  exists cs, partial_at (top :: ps) n = Some (PInfo (v, q) cs) /\
  (forall i, i <> j -> cs !! i = finfo M (q ++ [i])) /\ cs !! j = Some (CInternal None None).
Proof.
  intros HU Hq ->. revert top q j Hq. induction HU as [|ps p j' cs HU IH H1 H2]; intros top q j Hq.
  - exfalso. apply prefix_nil_inv in Hq. by destruct q.
  - pose proof (Up_length _ _ _ HU) as HL. unfold partial_at in *.
    pose proof (prefix_length _ _ Hq) as Hlen. rewrite !app_length in Hlen. cbn [length] in Hlen. cbn [length].
    destruct (Nat.ltb_spec (length q) (S (S (length ps)))) as [_|]; [|lia].
    destruct (decide (length q = length p)) as [E|E].
    + assert (q ++ [j] = p ++ [j']) as Eq.
      { apply prefix_len_eq; [done|]. rewrite !app_length. cbn [length]. lia. }
      apply app_inj_tail in Eq as [-> ->]. exists cs. split_and!; [|done..].
      replace (S (S (length ps)) - 1 - length p) with 1 by lia. done.
    + assert (q ++ [j] `prefix_of` p) as Hqp.
      { apply prefix_snoc_or in Hq as [?|Hq]; [done|]. apply (f_equal length) in Hq.
        rewrite !app_length in Hq. cbn [length] in Hq. lia. }
      destruct (IH (PInfo (v, p) cs) q j Hqp) as (cs' & Hat & Hc). cbn [length] in Hat.
      destruct (Nat.ltb_spec (length q) (S (length ps))) as [_|]; [|lia].
      exists cs'. split; [|done].
      replace (S (S (length ps)) - 1 - length q) with (S (S (length ps) - 1 - length q)) by lia. exact Hat.
Qed.
Lemma top_at ps top n : n = length ps -> partial_at (top :: ps) n = Some top.
Proof.
  intros ->. unfold partial_at. cbn [length]. destruct (Nat.ltb_spec (length ps) (S (length ps))); [|lia].
  by replace (S (length ps) - 1 - length ps) with 0 by lia.
Qed.

(** No pair above the greatest key. *)
Definition greatest M (k : bytes) : Prop := forall l x, M !! l = Some x -> ~ bytes_lt k l.
Lemma right_empty M k p i j : wfm M -> greatest M k -> p ++ [j] `prefix_of` nibs k -> (nib_val j < nib_val i)%N ->
  pcnt (p ++ [i]) M = 0.
Proof.
  intros Hw Hg Hj Hij. destruct (decide (pcnt (p ++ [i]) M = 0)) as [|Hn]; [done|exfalso].
  destruct (cnt_pos_inv (path_bits (p ++ [i])) M) as (l & x & Hl & Hp); [lia|].
  rewrite key_bits_nibs, path_bits_prefix in Hp. apply (Hg l x Hl). by eapply prefix_klt.
Qed.

(** ** Freezing *)
Lemma freeze_internal_ok M k : wfm M -> greatest M k ->
  forall ps p cs fz keep, Up M ps p -> complete M p cs -> p `prefix_of` nibs k -> keep <= S (length p) ->
  (keep <= length p -> 2 <= pcnt p M) ->
  exists res fz', freeze_internal sha v keep (PInfo (v, p) cs) ps fz = Ok (res, fz') /\
    (keep = 0 -> res = []) /\
    (0 < keep -> exists ps' cs', res = PInfo (v, take (keep - 1) p) cs' :: ps' /\ Up M ps' (take (keep - 1) p) /\
       complete M (take (keep - 1) p) cs') /\
    (forall nk, fz' !! nk = if decide (fst nk = v /\ snd nk `prefix_of` p /\ keep <= length (snd nk))
                            then Some (node_of M (snd nk)) else fz !! nk).
Proof.
  intros Hw Hg ps. induction ps as [|par ps IH]; intros p cs fz keep HU Hc Hp Hk H2.
  - pose proof (Up_length _ _ _ HU) as HL. cbn [length] in HL. destruct p; [|done]. cbn [length] in Hk.
    cbn [freeze_internal length]. destruct (Nat.leb_spec 1 keep) as [H1|H1].
    + do 2 eexists. split; [done|]. split_and!; [lia|intros _|].
      * exists [], cs. by rewrite take_nil.
      * intros nk. rewrite decide_False; [done|]. intros (_ & Hn & Hl). apply prefix_length in Hn. cbn in Hn. lia.
    + assert (keep = 0) as -> by lia. rewrite (into_internal_ok M) by (done || apply H2; lia). cbn [rbind].
      rewrite inode_hash_of by (done || apply H2; lia). cbn [rbind pi_key]. do 2 eexists. split; [done|].
      split_and!; [done|lia|]. intros [w q]. cbn [fst snd]. case_decide as H.
      * destruct H as (-> & Hq & _). apply prefix_nil_inv in Hq as ->. rewrite lookup_insert.
        rewrite node_of_internal by (apply H2; lia). done.
      * rewrite lookup_insert_ne; [done|]. intros [= <- <-]. apply H. done.
  - pose proof (Up_length _ _ _ HU) as HL. cbn [length] in HL. cbn [freeze_internal length]. rewrite HL.
    destruct (Nat.leb_spec (S (length p)) keep) as [H1|H1].
    + assert (keep = S (length p)) as -> by lia. do 2 eexists. split; [done|]. split_and!; [lia|intros _|].
      * exists (par :: ps), cs. cbn [Nat.sub]. rewrite Nat.sub_0_r, take_ge by lia. done.
      * intros nk. rewrite decide_False; [done|]. intros (_ & Hn & Hl). apply prefix_length in Hn. lia.
    + specialize (H2 ltac:(lia)). rewrite (into_internal_ok M) by done. cbn [rbind].
      rewrite inode_hash_of by done. cbn [rbind pi_key].
      destruct (decide (p = [])) as [->|Hne]; [done|].
      destruct (@exists_last _ p Hne) as (p0 & j & ->).
      apply Up_inv in HU as (cs0 & ps0 & [= -> ->] & HU & Ho & Hh). cbn [pi_children].
      rewrite (rightmost_is cs0 j _ Hh); cycle 1.
      { intros i Hi. rewrite Ho by (intros ->; lia). apply finfo_0. by eapply right_empty. }
      rewrite Hh. cbn [set_child pi_key pi_children in_count]. unfold set_child. cbn [pi_key pi_children].
      rewrite app_length in *. cbn [length] in *.
      destruct (IH p0 (<[j:=CInternal (Some (phash (p0 ++ [j]) M)) (Some (N.of_nat (pcnt (p0 ++ [j]) M)))]> cs0)
        (<[(v, p0 ++ [j]):=NInternal (INode (children_of M (p0 ++ [j])) (Some (N.of_nat (pcnt (p0 ++ [j]) M))))]> fz)
        keep) as (res & fz' & -> & R0 & R1 & R2).
      { done. }
      { intros i. destruct (decide (i = j)) as [->|Hij].
        - rewrite lookup_insert. symmetry. by apply finfo_2.
        - rewrite lookup_insert_ne by done. by apply Ho. }
      { etrans; [|exact Hp]. by eexists. }
      { lia. }
      { intros _. etrans; [exact H2|]. apply pcnt_mono. by eexists. }
      do 2 eexists. split; [done|]. split_and!; [done|..].
      * intros Hk0. rewrite take_app_le by lia. by apply R1.
      * intros [w q]. rewrite R2. cbn [fst snd]. case_decide as D1; case_decide as D2; try done.
        -- exfalso. apply D2. destruct D1 as (-> & Hq & Hl). split_and!; [done| |done]. etrans; [done|]. by eexists.
        -- destruct D2 as (-> & Hq & Hl). assert (q = p0 ++ [j]) as ->.
           { apply prefix_snoc_or in Hq as [Hq|]; [|done]. exfalso. by apply D1. }
           rewrite lookup_insert, node_of_internal by done. done.
        -- rewrite lookup_insert_ne; [done|]. intros [= <- <-]. apply D2. split_and!; [done..|].
           rewrite app_length. cbn [length]. lia.
Qed.
End Restore.
