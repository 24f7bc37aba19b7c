(** Lemmas for the exclusion proofs. *)
From Verif Require Import Base JmtNibModel JmtSpec JmtNibSpec JmtNibProof JmtModel JmtIterModel JmtExclModel
  JmtHashProof JmtAbsProof JmtCacheProof JmtPutProof JmtReadProof JmtOrderProof JmtIterProof.
Local Open Scope nat_scope.

(** ** Both directions at once *)
Definition ndir (e : extreme) (i j : nib) : Prop :=
  match e with ExRight => nib_val i < nib_val j | ExLeft => nib_val j < nib_val i end%N.
Definition kdir (e : extreme) (k l : bytes) : Prop :=
  match e with ExRight => bytes_lt k l | ExLeft => bytes_lt l k end.
Global Instance ndir_dec e i j : Decision (ndir e i j).
Proof. destruct e; cbn; apply _. Defined.

Lemma ndir_total i j : i = j \/ ndir ExLeft i j \/ ndir ExRight i j.
Proof.
  cbn. destruct (N.lt_trichotomy (nib_val i) (nib_val j)) as [H|[H|H]]; [tauto| |tauto].
  left. by apply nib_val_inj.
Qed.
Lemma kdir_irrefl e k : ~ kdir e k k.
Proof. destruct e; apply klt_irrefl. Qed.
Lemma kdir_trans e a b c : kdir e a b -> kdir e b c -> kdir e a c.
Proof. destruct e; cbn; intros H1 H2; [by apply (klt_trans c b a)|by apply (klt_trans a b c)]. Qed.
Lemma kdir_asym e a b : kdir e a b -> ~ kdir e b a.
Proof. destruct e; cbn; apply klt_asym. Qed.
Lemma prefix_kdir e p i j k l : p ++ [i] `prefix_of` nibs k -> p ++ [j] `prefix_of` nibs l ->
  ndir e i j -> kdir e k l.
Proof. destruct e; cbn; intros Hk Hl H; eapply prefix_klt; eauto. Qed.

Lemma max_nib_spec l : match max_nib l with
  | None => l = []
  | Some j => j ∈ l /\ forall n, n ∈ l -> (nib_val n <= nib_val j)%N
  end.
Proof.
  unfold max_nib.
  assert (forall acc, match fold_left (fun acc j => match acc with
      | Some a => if (nib_val a <=? nib_val j)%N then Some j else Some a
      | None => Some j end) l acc with
    | None => acc = None /\ l = []
    | Some j => (acc = Some j \/ j ∈ l) /\ (forall a, acc = Some a -> nib_val a <= nib_val j)%N /\
                forall n, n ∈ l -> (nib_val n <= nib_val j)%N
    end) as H.
  { induction l as [|x l IH]; intros acc; cbn [fold_left].
    - destruct acc as [a|]; [|done]. split; [by left|]. split; [by intros ? [= ->]|]. by intros ? ?%elem_of_nil.
    - specialize (IH (match acc with Some a => if (nib_val a <=? nib_val x)%N then Some x else Some a | None => Some x end)).
      destruct (fold_left _ l _) as [j|].
      + destruct IH as (H1 & H2 & H3). destruct acc as [a|].
        * destruct (N.leb_spec (nib_val a) (nib_val x)) as [Hx|Hx].
          -- specialize (H2 x eq_refl). split; [right; destruct H1 as [[= ->]|?]; by constructor|].
             split; [intros ? [= <-]; lia|]. intros n [->|Hn]%elem_of_cons; [done|by apply H3].
          -- specialize (H2 a eq_refl). split; [destruct H1 as [[= ->]|?]; [by left|right; by constructor]|].
             split; [intros ? [= <-]; lia|]. intros n [->|Hn]%elem_of_cons; [lia|by apply H3].
        * specialize (H2 x eq_refl). split; [right; destruct H1 as [[= ->]|?]; by constructor|].
          split; [done|]. intros n [->|Hn]%elem_of_cons; [done|by apply H3].
      + destruct IH as [H1 _]. destruct acc as [a|]; [|done]. by destruct (nib_val a <=? nib_val x)%N. }
  specialize (H None). destruct (fold_left _ l None) as [j|]; [|tauto].
  destruct H as ([?|?] & _ & ?); done.
Qed.
Lemma min_nib_spec l : match min_nib l with
  | None => l = []
  | Some j => j ∈ l /\ forall n, n ∈ l -> (nib_val j <= nib_val n)%N
  end.
Proof.
  unfold min_nib.
  assert (forall acc, match fold_left (fun acc j => match acc with
      | Some a => if (nib_val j <? nib_val a)%N then Some j else Some a
      | None => Some j end) l acc with
    | None => acc = None /\ l = []
    | Some j => (acc = Some j \/ j ∈ l) /\ (forall a, acc = Some a -> nib_val j <= nib_val a)%N /\
                forall n, n ∈ l -> (nib_val j <= nib_val n)%N
    end) as H.
  { induction l as [|x l IH]; intros acc; cbn [fold_left].
    - destruct acc as [a|]; [|done]. split; [by left|]. split; [by intros ? [= ->]|]. by intros ? ?%elem_of_nil.
    - specialize (IH (match acc with Some a => if (nib_val x <? nib_val a)%N then Some x else Some a | None => Some x end)).
      destruct (fold_left _ l _) as [j|].
      + destruct IH as (H1 & H2 & H3). destruct acc as [a|].
        * destruct (N.ltb_spec (nib_val x) (nib_val a)) as [Hx|Hx].
          -- specialize (H2 x eq_refl). split; [right; destruct H1 as [[= ->]|?]; by constructor|].
             split; [intros ? [= <-]; lia|]. intros n [->|Hn]%elem_of_cons; [done|by apply H3].
          -- specialize (H2 a eq_refl). split; [destruct H1 as [[= ->]|?]; [by left|right; by constructor]|].
             split; [intros ? [= <-]; lia|]. intros n [->|Hn]%elem_of_cons; [lia|by apply H3].
        * specialize (H2 x eq_refl). split; [right; destruct H1 as [[= ->]|?]; by constructor|].
          split; [done|]. intros n [->|Hn]%elem_of_cons; [done|by apply H3].
      + destruct IH as [H1 _]. destruct acc as [a|]; [|done]. by destruct (nib_val x <? nib_val a)%N. }
  specialize (H None). destruct (fold_left _ l None) as [j|]; [|tauto].
  destruct H as ([?|?] & _ & ?); done.
Qed.

Lemma neighbor_spec n i e : match neighbor_nibble n i e with
  | None => forall j, ndir e i j -> in_children n !! j = None
  | Some j => ndir e i j /\ is_Some (in_children n !! j) /\
      forall x, ndir e i x -> is_Some (in_children n !! x) -> x = j \/ ndir e j x
  end.
Proof.
  assert (forall j, j ∈ child_nibs n <-> is_Some (in_children n !! j)) as Hc.
  { intros j. unfold child_nibs. rewrite elem_of_list_fmap. split.
    - intros ([j' c] & -> & H). apply elem_children_sorted in H. eauto.
    - intros [c H]. exists (j, c). split; [done|]. by apply elem_children_sorted. }
  destruct e; cbn [neighbor_nibble ndir].
  - pose proof (max_nib_spec (filter (fun j => (nib_val j < nib_val i)%N) (child_nibs n))) as H.
    destruct (max_nib _) as [j|].
    + destruct H as [Hj Hm]. apply elem_of_list_filter in Hj as [Hj Hin]. split_and!; [done|by apply Hc|].
      intros x Hx Hin'. specialize (Hm x). rewrite elem_of_list_filter in Hm.
      specialize (Hm (conj Hx (proj2 (Hc x) Hin'))).
      destruct (decide (x = j)) as [|Hne]; [by left|right].
      assert (nib_val x <> nib_val j) by (intros ?; apply Hne; by apply nib_val_inj). lia.
    + intros j Hj. destruct (in_children n !! j) as [c|] eqn:E; [exfalso|done].
      assert (j ∈ filter (fun j => (nib_val j < nib_val i)%N) (child_nibs n)) as Hin.
      { apply elem_of_list_filter. split; [done|]. apply Hc. eauto. }
      rewrite H in Hin. by apply elem_of_nil in Hin.
  - pose proof (min_nib_spec (filter (fun j => (nib_val i < nib_val j)%N) (child_nibs n))) as H.
    destruct (min_nib _) as [j|].
    + destruct H as [Hj Hm]. apply elem_of_list_filter in Hj as [Hj Hin]. split_and!; [done|by apply Hc|].
      intros x Hx Hin'. specialize (Hm x). rewrite elem_of_list_filter in Hm.
      specialize (Hm (conj Hx (proj2 (Hc x) Hin'))).
      destruct (decide (x = j)) as [|Hne]; [by left|right].
      assert (nib_val x <> nib_val j) by (intros ?; apply Hne; by apply nib_val_inj). lia.
    + intros j Hj. destruct (in_children n !! j) as [c|] eqn:E; [exfalso|done].
      assert (j ∈ filter (fun j => (nib_val i < nib_val j)%N) (child_nibs n)) as Hin.
      { apply elem_of_list_filter. split; [done|]. apply Hc. eauto. }
      rewrite H in Hin. by apply elem_of_nil in Hin.
Qed.
Lemma min_or_max_spec n e : match min_or_max n (opposite e) with
  | None => forall j, in_children n !! j = None
  | Some j => is_Some (in_children n !! j) /\
      forall x, is_Some (in_children n !! x) -> x = j \/ ndir e j x
  end.
Proof.
  assert (forall j, j ∈ child_nibs n <-> is_Some (in_children n !! j)) as Hc.
  { intros j. unfold child_nibs. rewrite elem_of_list_fmap. split.
    - intros ([j' c] & -> & H). apply elem_children_sorted in H. eauto.
    - intros [c H]. exists (j, c). split; [done|]. by apply elem_children_sorted. }
  assert (child_nibs n = [] -> forall j, in_children n !! j = None) as Hnil.
  { intros E j. destruct (in_children n !! j) as [c|] eqn:Ej; [|done].
    assert (j ∈ child_nibs n) as Hin by (apply Hc; eauto). rewrite E in Hin. by apply elem_of_nil in Hin. }
  destruct e; cbn [opposite min_or_max ndir].
  - pose proof (max_nib_spec (child_nibs n)) as H. destruct (max_nib _) as [j|]; [|by apply Hnil].
    destruct H as [Hj Hm]. split; [by apply Hc|]. intros x Hx. apply Hc, Hm in Hx.
    destruct (decide (x = j)) as [|Hne]; [by left|right].
    assert (nib_val x <> nib_val j) by (intros ?; apply Hne; by apply nib_val_inj). lia.
  - pose proof (min_nib_spec (child_nibs n)) as H. destruct (min_nib _) as [j|]; [|by apply Hnil].
    destruct H as [Hj Hm]. split; [by apply Hc|]. intros x Hx. apply Hc, Hm in Hx.
    destruct (decide (x = j)) as [|Hne]; [by left|right].
    assert (nib_val x <> nib_val j) by (intros ?; apply Hne; by apply nib_val_inj). lia.
Qed.

(** A range of nibbles with a common bit prefix has no holes. *)
Lemma nib_interval e q i j n : q `prefix_of` nib_bits i -> q `prefix_of` nib_bits j ->
  ndir e i n -> ndir e n j -> q `prefix_of` nib_bits n.
Proof.
  assert (forallb (fun l => forallb (fun i => forallb (fun j => forallb (fun n =>
     implb (bool_decide (take l (nib_bits i) = take l (nib_bits j)) && (nib_val i <? nib_val n)%N && (nib_val n <? nib_val j)%N)
       (bool_decide (take l (nib_bits n) = take l (nib_bits i)))) all_nibs) all_nibs) all_nibs) [0;1;2;3;4] = true) as HB
    by (vm_compute; reflexivity).
  assert (forall q i j n, q `prefix_of` nib_bits i -> q `prefix_of` nib_bits j ->
    (nib_val i < nib_val n)%N -> (nib_val n < nib_val j)%N -> q `prefix_of` nib_bits n) as H.
  { clear -HB. intros q i j n [r Hi] [r' Hj] H1 H2.
    assert (length q <= 4) as Hq by (rewrite <-(nib_bits_length i), Hi, app_length; lia).
    assert (take (length q) (nib_bits i) = q) as Ti by (rewrite Hi; apply take_app).
    assert (take (length q) (nib_bits j) = q) as Tj by (rewrite Hj; apply take_app).
    rewrite forallb_forall in HB. specialize (HB (length q)). rewrite <-elem_of_list_In in HB.
    assert (length q ∈ [0;1;2;3;4]) as Hin.
    { destruct (length q) as [|[|[|[|[|?]]]]]; [..|lia]; set_solver. }
    specialize (HB Hin).
    rewrite forallb_forall in HB. specialize (HB i (proj1 (elem_of_list_In _ _) (all_nibs_in i))).
    rewrite forallb_forall in HB. specialize (HB j (proj1 (elem_of_list_In _ _) (all_nibs_in j))).
    rewrite forallb_forall in HB. specialize (HB n (proj1 (elem_of_list_In _ _) (all_nibs_in n))).
    cbn beta in HB. rewrite Ti, Tj in HB. rewrite (bool_decide_true (q = q)) in HB by done.
    apply N.ltb_lt in H1, H2. rewrite H1, H2 in HB. cbn [andb implb] in HB. apply bool_decide_eq_true in HB.
    exists (drop (length q) (nib_bits n)). rewrite <-HB at 1. by rewrite take_drop. }
  destruct e; cbn; intros Hi Hj H1 H2; [by apply (H q j i n)|by apply (H q i j n)].
Qed.

Section Excl.
Context (sha : bytes -> bytes) (s : store) (u : N) (M : pairs) (ver : path -> N).
Context (HH : Holds sha (st_nodes s) u M ver).
Notation node_of := (node_of sha).
Notation children_of := (children_of sha).
Notation inode_of := (inode_of sha M ver).
Let Hw : wfm M := h_wf _ _ _ _ _ HH.

(** [j] leaves path [w] on side [e]. *)
Definition side (e : extreme) (w : path) (j : bytes) : Prop :=
  exists p i i', p ++ [i] `prefix_of` w /\ p ++ [i'] `prefix_of` nibs j /\ ndir e i i'.
Lemma side_mono e w w' j : w `prefix_of` w' -> side e w j -> side e w' j.
Proof. intros Hp (p & i & i' & H1 & H2 & H3). exists p, i, i'. split_and!; [by etrans|done|done]. Qed.
Lemma side_kdir e w k j : w `prefix_of` nibs k -> side e w j -> kdir e k j.
Proof. intros Hk (p & i & i' & Hp & Hp' & Hd). eapply prefix_kdir; [|exact Hp'|exact Hd]. by etrans. Qed.
Lemma side_total w j x : M !! j = Some x -> length w <= 64 ->
  w `prefix_of` nibs j \/ side ExLeft w j \/ side ExRight w j.
Proof.
  intros Hj. induction w as [|i w IH] using rev_ind; intros Hl; [left; apply prefix_nil|].
  rewrite app_length in Hl. cbn [length] in Hl.
  destruct IH as [Hp|[Hs|Hs]]; [lia| |right; left; by eapply side_mono; [apply prefix_snoc_self|]
    |right; right; by eapply side_mono; [apply prefix_snoc_self|]].
  destruct (key_under M Hw w j x Hj Hp ltac:(lia)) as [i' Hi'].
  destruct (ndir_total i i') as [->|[H|H]]; [by left|right; left|right; right]; exists w, i, i'; done.
Qed.
Lemma side_under e w j k : w `prefix_of` nibs j -> w `prefix_of` nibs k -> ~ side e w j.
Proof.
  intros Hj _ (p & i & i' & H1 & H2 & H3). assert (i = i') as ->.
  { eapply snoc_prefix_inj; [|exact H2]. by etrans. }
  destruct e; cbn in H3; lia.
Qed.

(** ** Going up *)
Fixpoint par_rev (rp : path) : list inode :=
  match rp with [] => [] | _ :: rp' => inode_of (rev rp') :: par_rev rp' end.
Definition par (p : path) : list inode := par_rev (rev p).
Lemma par_snoc p i : par (p ++ [i]) = inode_of p :: par p.
Proof. unfold par. rewrite rev_app_distr. cbn [rev app par_rev]. by rewrite rev_involutive. Qed.

(** All proper prefixes of a path are internal nodes. *)
Definition inner (w : path) : Prop := forall p i, p ++ [i] `prefix_of` w -> 2 <= pcnt p M.
Lemma inner_snoc w i : inner (w ++ [i]) <-> inner w /\ 2 <= pcnt w M.
Proof.
  split.
  - intros H. split; [|by apply (H w i)]. intros p j Hp. apply (H p j). etrans; [exact Hp|apply prefix_snoc_self].
  - intros [H1 H2] p j Hp. destruct (decide (p = w)) as [->|Hne]; [done|]. apply (H1 p j).
    destruct Hp as [r Hr]. destruct r as [|a r _] using rev_ind.
    + rewrite app_nil_r in Hr. apply app_inj_tail in Hr as [-> _]. done.
    + rewrite app_assoc in Hr. apply app_inj_tail in Hr as [-> _]. by exists r.
Qed.

Lemma kid_none p j : in_children (inode_of p) !! j = None <-> pcnt (p ++ [j]) M = 0.
Proof. cbn [JmtIterProof.inode_of in_children]. apply occ_none. Qed.
Lemma kid_some p j : is_Some (in_children (inode_of p) !! j) <-> pcnt (p ++ [j]) M <> 0.
Proof. cbn [JmtIterProof.inode_of in_children]. apply occ_iff. Qed.

Lemma closest_ok e w : inner w -> match closest (par w) (rev w) e with
  | Ok None => forall j, is_Some (M !! j) -> ~ side e w j
  | Ok (Some q) => q <> [] /\ live [] M q /\ (exists p i i', q = p ++ [i'] /\ p ++ [i] `prefix_of` w /\ ndir e i i') /\
      forall j, is_Some (M !! j) -> side e w j -> q `prefix_of` nibs j \/ side e q j
  | _ => False
  end.
Proof.
  induction w as [|i w IH] using rev_ind; intros Hin.
  { cbn [par rev par_rev closest]. intros j _ (p & i & i' & H & _). apply prefix_nil_inv in H. by destruct p. }
  apply inner_snoc in Hin as [Hin H2]. rewrite par_snoc, rev_app_distr. cbn [rev app closest].
  rewrite rev_involutive. pose proof (neighbor_spec (inode_of w) i e) as Hnb.
  assert (forall j, side e (w ++ [i]) j -> side e w j \/ exists i', w ++ [i'] `prefix_of` nibs j /\ ndir e i i') as Hcase.
  { intros j (p & a & b & Ha & Hb & Hd). destruct Ha as [r Hr]. destruct r as [|c r _] using rev_ind.
    - rewrite app_nil_r in Hr. apply app_inj_tail in Hr as [-> ->]. right. eauto.
    - rewrite app_assoc in Hr. apply app_inj_tail in Hr as [-> _]. left. exists p, a, b. split_and!; [by exists r|done..]. }
  destruct (neighbor_nibble (inode_of w) i e) as [j|].
  - destruct Hnb as (Hd & Hs & Hmin). apply kid_some in Hs. split_and!; [by destruct w| | |].
    + split; [apply prefix_nil|]. split; [lia|]. right. by rewrite removelast_last.
    + exists w, i, j. done.
    + intros k [x Hk] Hsd. destruct (Hcase k Hsd) as [Hsw|(i' & Hi' & Hdi)].
      * right. eapply side_mono; [apply prefix_snoc_self|done].
      * destruct (Hmin i' Hdi) as [->|Hji]; [|by left|].
        -- apply kid_some. pose proof (pcnt_key _ M k x Hk Hi'). lia.
        -- right. exists w, j, i'. done.
  - specialize (IH Hin). destruct (closest (par w) (rev w) e) as [[q|]| | |]; try done.
    + destruct IH as (A & B & (p & a & b & -> & C & D) & E). split_and!; [done|done| |].
      * exists p, a, b. split_and!; [done| |done]. etrans; [exact C|apply prefix_snoc_self].
      * intros k [x Hk] Hsd. destruct (Hcase k Hsd) as [Hsw|(i' & Hi' & Hdi)]; [apply E; [by eexists|done]|].
        exfalso. specialize (Hnb i' Hdi). apply kid_none in Hnb. pose proof (pcnt_key _ M k x Hk Hi'). lia.
    + intros k [x Hk] Hsd. destruct (Hcase k Hsd) as [Hsw|(i' & Hi' & Hdi)]; [by apply (IH k); [eexists|]|].
      specialize (Hnb i' Hdi). apply kid_none in Hnb. pose proof (pcnt_key _ M k x Hk Hi'). lia.
Qed.

(** ** Going down *)
(** What [get_child_without_siblings] finds at an internal node. *)
Lemma child_found p i : 2 <= pcnt p M -> exists q', q' `prefix_of` nib_bits i /\
  match fst (walk sha 4 (children_of M ver p) [] (nib_bits i)) with
  | None => kids (children_of M ver p) q' = []
  | Some (j, c) => c = child_of sha M ver (p ++ [j]) /\ pcnt (p ++ [j]) M <> 0 /\
      ((2 <= pcnt (p ++ [j]) M /\ j = i) \/ (pcnt (p ++ [j]) M = 1 /\ kids (children_of M ver p) q' = [(j, c)]))
  end.
Proof.
  intros H2. pose proof (pcnt_short M p Hw H2) as Hs.
  assert (forall h q bits, length q + h = 4 -> length bits = h -> 0 < h ->
    exists q', q' `prefix_of` q ++ bits /\
    match fst (walk sha h (children_of M ver p) q bits) with
    | None => kids (children_of M ver p) q' = []
    | Some (j, c) => kids (children_of M ver p) q' = [(j, c)]
    end) as H.
  { induction h as [|h IH]; intros q bits Hq Hb Hh; [lia|]. destruct bits as [|b bits]; [done|].
    cbn [length] in Hb. cbn [walk].
    destruct (kids (children_of M ver p) (q ++ [b])) as [|[j c] l] eqn:K.
    { exists (q ++ [b]). cbn [fst]. split; [|done]. exists bits. by rewrite <-app_assoc. }
    destruct (Nat.eqb_spec h 0) as [->|Hh0]; cbn [orb].
    - exists (q ++ [b]). cbn [fst]. split; [exists bits; by rewrite <-app_assoc|].
      assert (length (q ++ [b]) = 4) as Hl by (rewrite app_length; cbn [length]; lia).
      pose proof (kids_full (q ++ [b]) (children_of M ver p) Hl) as Hf. rewrite K in Hf |- *. cbn [length] in Hf.
      destruct l; [done|cbn [length] in Hf; lia].
    - destruct (single_leaf ((j, c) :: l)) eqn:Hsl.
      + exists (q ++ [b]). cbn [fst]. split; [exists bits; by rewrite <-app_assoc|]. rewrite K.
        destruct l; [done|]. cbn [single_leaf] in Hsl. done.
      + destruct (IH (q ++ [b]) bits) as (q' & Hq' & Hm); [rewrite app_length; cbn [length]; lia|lia|lia|].
        exists q'. rewrite <-app_assoc in Hq'. split; [exact Hq'|].
        by destruct (walk sha h (children_of M ver p) (q ++ [b]) bits) as [o s']. }
  destruct (H 4 [] (nib_bits i) eq_refl (nib_bits_length i) ltac:(lia)) as (q' & Hq' & Hm).
  exists q'. split; [exact Hq'|].
  destruct (walk sha 4 (children_of M ver p) [] (nib_bits i)) as [[[j c]|] sb] eqn:Ew; cbn [fst] in *; [|done].
  assert ((j, c) ∈ kids (children_of M ver p) q') as Hin by (rewrite Hm; left).
  apply kids_of_elem in Hin as (Hn0 & Ec & _). split; [done|]. split; [done|].
  destruct (decide (2 <= pcnt (p ++ [j]) M)) as [H2j|H2j]; [left|right; split; [lia|done]].
  split; [done|].
  pose proof (walk_nib sha M ver p 4 [] (nib_bits i) j c sb Hw Hs eq_refl (nib_bits_length i) Ew H2j) as E.
  cbn [app] in E. by apply nib_bits_inj in E.
Qed.
Lemma child_present p i : 2 <= pcnt p M -> pcnt (p ++ [i]) M <> 0 ->
  fst (walk sha 4 (children_of M ver p) [] (nib_bits i)) = Some (i, child_of sha M ver (p ++ [i])).
Proof.
  intros H2 H0. destruct (child_found p i H2) as (q' & Hq' & Hm).
  assert ((i, child_of sha M ver (p ++ [i])) ∈ kids (children_of M ver p) q') as Hin.
  { apply kids_of_elem. done. }
  destruct (fst (walk sha 4 (children_of M ver p) [] (nib_bits i))) as [[j c]|].
  - destruct Hm as (-> & Hn0 & [[_ ->]|[_ Hk]]); [done|]. rewrite Hk in Hin.
    apply elem_of_list_singleton in Hin. by injection Hin as -> ?.
  - rewrite Hm in Hin. by apply elem_of_nil in Hin.
Qed.

Lemma extreme_ok e f : forall q w top, st_nodes s !! (w, q) = Some (node_of M ver q) -> 0 < pcnt q M ->
  65 <= f + length q ->
  exists r, extreme_key f s u (w, q) top (opposite e) = Ok r /\ is_Some (M !! r) /\ q `prefix_of` nibs r /\
    forall j, is_Some (M !! j) -> q `prefix_of` nibs j -> j = r \/ kdir e r j.
Proof.
  induction f as [|f IH]; intros q w top Hnk H0 Hf.
  { exfalso. apply cnt_pos_inv in H0 as (k & x & Hk & Hq). rewrite key_bits_nibs in Hq.
    apply path_bits_prefix in Hq. apply prefix_length in Hq. rewrite nibs_length, (Hw _ _ Hk) in Hq. lia. }
  cbn [extreme_key]. rewrite Hnk. destruct (decide (2 <= pcnt q M)) as [H2|H2].
  - rewrite (node_int sha M ver q H2). pose proof (min_or_max_spec (inode_of q) e) as Hm.
    pose proof (first_child sha s u M ver HH q H2) as (i0 & Hi0 & _).
    destruct (min_or_max (inode_of q) (opposite e)) as [i|].
    2: { specialize (Hm i0). apply kid_none in Hm. lia. }
    destruct Hm as [Hi Hmin]. apply kid_some in Hi.
    rewrite get_without_ok with (sha := sha). cbn [rbind]. rewrite inode_kids.
    rewrite (child_present q i H2 Hi). cbn [walk_key]. unfold child_key. cbn [snd JmtAbsProof.child_of c_ver].
    assert (live [] M (q ++ [i])) as Hl.
    { split; [apply prefix_nil|]. split; [lia|]. right. by rewrite removelast_last. }
    destruct (IH (q ++ [i]) (ver (q ++ [i])) false) as (r & Er & Hr & Hp & Hall).
    { apply (h_live _ _ _ _ _ HH); [by destruct q|done]. } { lia. } { rewrite app_length. cbn [length]. lia. }
    exists r. split; [done|]. split; [done|]. split; [etrans; [apply prefix_snoc_self|exact Hp]|].
    intros j [x Hj] Hqj. destruct (key_under M Hw q j x Hj Hqj (pcnt_short M q Hw H2)) as [i' Hi'].
    destruct (Hmin i') as [->|Hd].
    + apply kid_some. pose proof (pcnt_key _ M j x Hj Hi'). lia.
    + apply Hall; [by eexists|done].
    + right. eapply prefix_kdir; [exact Hp|exact Hi'|exact Hd].
  - destruct (cnt_1 (path_bits q) M) as (k0 & x0 & E); [lia|]. rewrite (node_of_leaf sha _ _ _ _ _ E).
    assert (subm (path_bits q) M !! k0 = Some x0) as Hk0 by (rewrite E; apply lookup_singleton).
    apply psub_Some in Hk0 as [Hk0 Hp0]. exists k0. split; [done|]. split; [by eexists|]. split; [done|].
    intros j [x Hj] Hqj. left. assert (subm (path_bits q) M !! j = Some x) as Hs by (by apply psub_Some).
    rewrite E in Hs. by apply lookup_singleton_Some in Hs as [-> _].
Qed.

(** ** The neighbour on one side *)
Definition nearest (e : extreme) (k : bytes) (o : option bytes) : Prop :=
  match o with
  | None => forall j, is_Some (M !! j) -> ~ kdir e k j
  | Some r => is_Some (M !! r) /\ kdir e k r /\ forall j, is_Some (M !! j) -> kdir e k j -> j = r \/ kdir e r j
  end.
Context (Hborn : forall q nd, q <> [] -> live [] M q -> st_nodes s !! (u, q) = Some nd -> ver q = u).

Lemma search_extreme_ok e k w : length k = 32 -> w `prefix_of` nibs k -> inner w ->
  (forall j, is_Some (M !! j) -> kdir e k j -> side e w j) ->
  (exists o, search_extreme s u e w (par w) = Ok o /\ nearest e k o) \/
  (exists q r, search_extreme s u e w (par w) = Err (MissingNode (u, q)) /\ nearest e k (Some r) /\
     q <> [] /\ live [] M q /\ q `prefix_of` nibs r /\ ver q <> u).
Proof.
  intros Hk Hwk Hin Hside. pose proof (closest_ok e w Hin) as Hc. unfold search_extreme.
  destruct (closest (par w) (rev w) e) as [[q|]| | |]; try done; cbn [rbind].
  - destruct Hc as (Hq & Hl & (p & i & i' & Eq & Hp & Hd) & Hall).
    assert (forall r, is_Some (M !! r) -> q `prefix_of` nibs r ->
      (forall j, is_Some (M !! j) -> q `prefix_of` nibs j -> j = r \/ kdir e r j) -> nearest e k (Some r)) as Hnear.
    { intros r Hr Hpr Hmin. split; [done|]. split.
      - eapply prefix_kdir; [|rewrite Eq in Hpr; exact Hpr|exact Hd]. by etrans.
      - intros j Hj Hkj. destruct (Hall j Hj (Hside j Hj Hkj)) as [Hqj|Hsj]; [by apply Hmin|].
        right. by eapply side_kdir. }
    assert (0 < pcnt q M) as H0 by (by eapply live_pos).
    pose proof (h_live _ _ _ _ _ HH q Hq Hl) as Hnode.
    destruct (decide (ver q = u)) as [Hv|Hv].
    + left. rewrite Hv in Hnode.
      destruct (extreme_ok e (65 - length q) q u (length q =? 0) Hnode H0) as (r & Er & A & B & C); [lia|].
      rewrite Er. cbn [rbind]. exists (Some r). split; [done|]. by apply Hnear.
    + right. destruct (extreme_ok e (65 - length q) q (ver q) false Hnode H0) as (r & _ & A & B & C); [lia|].
      exists q, r. split; [|split_and!; [by apply Hnear..| | | |]; done].
      assert (length q < 65).
      { apply prefix_length in B. rewrite nibs_length in B. destruct A as [x A]. rewrite (Hw _ _ A) in B. lia. }
      destruct (65 - length q) as [|f] eqn:Ef; [lia|]. cbn [extreme_key].
      destruct (st_nodes s !! (u, q)) as [nd|] eqn:En; [by apply Hborn in En|].
      destruct (length q =? 0) eqn:E0; [|done]. apply Nat.eqb_eq in E0. by destruct q.
  - left. exists None. split; [done|]. intros j Hj Hkj. by apply (Hc j Hj), Hside.
Qed.

(** ** The node closest to a key *)
Lemma search_ok k : length k = 32 -> M !! k = None -> M <> ∅ ->
  exists w, w `prefix_of` nibs k /\ inner w /\
  ((search_node s u (nibs k) (u, []) [] [] = Ok (FoundInternal w (par w)) /\ pcnt w M = 0) \/
   (exists k0, search_node s u (nibs k) (u, []) [] [] = Ok (FoundLeaf k0 w (par w)) /\ is_Some (M !! k0) /\
      (forall j, is_Some (M !! j) -> w `prefix_of` nibs j -> j = k0) /\
      (forall e j, is_Some (M !! j) -> kdir e k k0 -> side e w j -> j = k0 \/ kdir e k0 j))).
Proof.
  intros Hk Hno Hne.
  assert (forall rest w nk, st_nodes s !! nk = Some (node_of M ver w) -> snd nk = w -> w ++ rest = nibs k ->
    2 <= pcnt w M -> inner w ->
    exists w', w' `prefix_of` nibs k /\ inner w' /\
    ((search_node s u rest nk w (par w) = Ok (FoundInternal w' (par w')) /\ pcnt w' M = 0) \/
     (exists k0, search_node s u rest nk w (par w) = Ok (FoundLeaf k0 w' (par w')) /\ is_Some (M !! k0) /\
      (forall j, is_Some (M !! j) -> w' `prefix_of` nibs j -> j = k0) /\
      (forall e j, is_Some (M !! j) -> kdir e k k0 -> side e w' j -> j = k0 \/ kdir e k0 j)))) as H.
  { induction rest as [|i rest IH]; intros w nk Hnk Hsnd Hpath H2 Hin.
    { exfalso. pose proof (pcnt_short M w Hw H2) as Hs. rewrite app_nil_r in Hpath.
      pose proof (nibs_length k) as L. rewrite <-Hpath, Hk in L. lia. }
    cbn [search_node]. rewrite Hnk, (node_int sha M ver w H2).
    rewrite get_without_ok with (sha := sha). cbn [rbind]. rewrite inode_kids.
    assert (w ++ [i] `prefix_of` nibs k) as Hwi by (exists rest; by rewrite <-Hpath, <-app_assoc).
    assert (inner (w ++ [i])) as Hini by (by apply inner_snoc).
    destruct (child_found w i H2) as (q' & Hq' & Hm).
    destruct (fst (walk sha 4 (children_of M ver w) [] (nib_bits i))) as [[j c]|]; cbn [walk_key].
    2: { exists (w ++ [i]). split; [done|]. split; [done|]. left. rewrite par_snoc. split; [done|].
         destruct (decide (pcnt (w ++ [i]) M = 0)) as [|Hn]; [done|exfalso].
         assert ((i, child_of sha M ver (w ++ [i])) ∈ kids (children_of M ver w) q') as Hx by (by apply kids_of_elem).
         rewrite Hm in Hx. by apply elem_of_nil in Hx. }
    destruct Hm as (-> & Hj0 & Hm). unfold child_key. rewrite Hsnd. cbn [JmtAbsProof.child_of c_ver].
    assert (st_nodes s !! (ver (w ++ [j]), w ++ [j]) = Some (node_of M ver (w ++ [j]))) as Hnj.
    { apply (h_live _ _ _ _ _ HH); [by destruct w|]. split; [apply prefix_nil|]. split; [lia|]. right.
      by rewrite removelast_last. }
    rewrite <-par_snoc with (i := i).
    destruct Hm as [[H2j ->]|[H1j Hkid]].
    - apply IH; [done|done|by rewrite <-app_assoc|done|done].
    - destruct (cnt_1 (path_bits (w ++ [j])) M) as (k0 & x0 & E); [done|].
      assert (subm (path_bits (w ++ [j])) M !! k0 = Some x0) as Hk0 by (rewrite E; apply lookup_singleton).
      apply psub_Some in Hk0 as [Hk0 Hp0].
      assert (forall l, is_Some (M !! l) -> w ++ [j] `prefix_of` nibs l -> l = k0) as Honly.
      { intros l [x Hl] Hwl. assert (subm (path_bits (w ++ [j])) M !! l = Some x) as Hs by (by apply psub_Some).
        rewrite E in Hs. by apply lookup_singleton_Some in Hs as [-> _]. }
      assert (forall n, q' `prefix_of` nib_bits n -> pcnt (w ++ [n]) M <> 0 -> n = j) as Hq1.
      { intros n Hn Hn0. assert ((n, child_of sha M ver (w ++ [n])) ∈ kids (children_of M ver w) q') as Hx by (by apply kids_of_elem).
        rewrite Hkid in Hx. apply elem_of_list_singleton in Hx. by injection Hx as -> ?. }
      assert (q' `prefix_of` nib_bits j) as Hqj.
      { assert ((j, child_of sha M ver (w ++ [j])) ∈ kids (children_of M ver w) q') as Hx by (rewrite Hkid; left).
        by apply kids_of_elem in Hx as (_ & _ & ?). }
      exists (w ++ [i]). split; [done|]. split; [done|]. right. exists k0. split_and!.
      + rewrite (node_of_leaf sha _ _ _ _ _ E) in Hnj. destruct rest; cbn [search_node]; by rewrite Hnj.
      + by eexists.
      + intros l [x Hl] Hwl. apply Honly; [by eexists|].
        assert (i = j) as ->; [|done]. apply Hq1; [done|]. pose proof (pcnt_key _ M l x Hl Hwl). lia.
      + intros e l [x Hl] Hd (p & a & b & Ha & Hb & Hab).
        destruct Ha as [r Hr]. destruct r as [|c r _] using rev_ind.
        * rewrite app_nil_r in Hr. apply app_inj_tail in Hr as [<- <-].
          (* [l] leaves at the last nibble *)
          destruct (ndir_total j b) as [->|Hjb]; [left; apply Honly; [by eexists|done]|].
          assert (pcnt (w ++ [b]) M <> 0) as Hb0 by (pose proof (pcnt_key _ M l x Hl Hb); lia).
          assert (ndir e j b \/ ndir e b j) as [Hjb'|Hjb'] by (destruct e; tauto).
          -- right. eapply prefix_kdir; [exact Hp0|exact Hb|exact Hjb'].
          -- assert (b = j) as -> by (apply Hq1; [|done]; eapply (nib_interval e q' i j b); done).
             destruct e; cbn in Hjb'; lia.
        * rewrite app_assoc in Hr. apply app_inj_tail in Hr as [-> _].
          right. eapply prefix_kdir; [|exact Hb|exact Hab]. etrans; [|exact Hp0].
          etrans; [|apply prefix_snoc_self]. by exists r. }
  destruct (decide (2 <= pcnt [] M)) as [H2|H2].
  { apply (H (nibs k) [] (u, [])); [apply (h_root _ _ _ _ _ HH)|done|done|done|].
    intros p i Hp. apply prefix_nil_inv in Hp. by destruct p. }
  pose proof (pcnt_nil_pos M Hne) as H1. destruct (cnt_1 (path_bits []) M) as (k0 & x0 & E); [lia|].
  assert (subm (path_bits []) M !! k0 = Some x0) as Hk0 by (rewrite E; apply lookup_singleton).
  apply psub_Some in Hk0 as [Hk0 Hp0].
  exists []. split; [apply prefix_nil|]. split; [intros p i Hp; apply prefix_nil_inv in Hp; by destruct p|].
  right. exists k0. split_and!.
  - pose proof (h_root _ _ _ _ _ HH) as Hr. rewrite (node_of_leaf sha _ _ _ _ _ E) in Hr.
    destruct (nibs k); cbn [search_node]; by rewrite Hr.
  - by eexists.
  - intros l [x Hl] _. assert (subm (path_bits []) M !! l = Some x) as Hs by (apply psub_Some; split; [done|apply prefix_nil]).
    rewrite E in Hs. by apply lookup_singleton_Some in Hs as [-> _].
  - intros e l _ _ (p & a & b & Ha & _). apply prefix_nil_inv in Ha. by destruct p.
Qed.

(** ** Both bounds *)
Lemma bounding_ok k : length k = 32 -> M !! k = None -> M <> ∅ ->
  (exists l r, bounding_path s k u = Ok (l, r) /\ nearest ExLeft k l /\ nearest ExRight k r) \/
  (exists e q r, bounding_path s k u = Err (MissingNode (u, q)) /\ nearest e k (Some r) /\
     q <> [] /\ live [] M q /\ q `prefix_of` nibs r /\ ver q <> u).
Proof.
  intros Hk Hno Hne. unfold bounding_path.
  destruct (search_ok k Hk Hno Hne) as (w & Hwk & Hin & Hres).
  assert (length w <= 64) as Hlw by (apply prefix_length in Hwk; rewrite nibs_length, Hk in Hwk; lia).
  assert (forall e, (forall j, is_Some (M !! j) -> kdir e k j -> ~ w `prefix_of` nibs j) ->
    forall j, is_Some (M !! j) -> kdir e k j -> side e w j) as Hside.
  { intros e Hnu j [x Hj] Hd. destruct (side_total w j x Hj Hlw) as [Hp|[Hs|Hs]].
    - exfalso. by apply (Hnu j).
    - destruct e; [done|]. apply (side_kdir _ _ k) in Hs; [|done]. cbn in Hs, Hd. by apply klt_asym in Hs.
    - destruct e; [|done]. apply (side_kdir _ _ k) in Hs; [|done]. cbn in Hs, Hd. by apply klt_asym in Hs. }
  destruct Hres as [[E H0]|(k0 & E & Hk0 & Honly & Hleaf)]; rewrite E; cbn [rbind].
  - assert (forall e j, is_Some (M !! j) -> kdir e k j -> ~ w `prefix_of` nibs j) as Hnu.
    { intros e j [x Hj] _ Hp. pose proof (pcnt_key _ M j x Hj Hp). lia. }
    destruct (search_extreme_ok ExRight k w Hk Hwk Hin (Hside _ (Hnu _))) as [(r & Er & Hr)|(q & r & Er & A)].
    2: { right. exists ExRight, q, r. rewrite Er. cbn [rbind]. split; [done|exact A]. }
    rewrite Er. cbn [rbind].
    destruct (search_extreme_ok ExLeft k w Hk Hwk Hin (Hside _ (Hnu _))) as [(l & El & Hl)|(q & l & El & A)].
    2: { right. exists ExLeft, q, l. rewrite El. cbn [rbind]. split; [done|exact A]. }
    rewrite El. cbn [rbind]. left. eauto 10.
  - (* the leaf found is the neighbour on its side *)
    assert (forall e, kdir e k k0 -> nearest e k (Some k0)) as Hn0.
    { intros e Hd. split; [done|]. split; [done|]. intros j Hj Hkj.
      destruct (decide (w `prefix_of` nibs j)) as [Hp|Hp]; [left; by apply Honly|].
      apply (Hleaf e j Hj Hd). destruct Hj as [x Hj]. destruct (side_total w j x Hj Hlw) as [?|[Hs|Hs]]; [done|..].
      - destruct e; [done|]. apply (side_kdir _ _ k) in Hs; [|done]. cbn in Hs, Hkj. by apply klt_asym in Hs.
      - destruct e; [|done]. apply (side_kdir _ _ k) in Hs; [|done]. cbn in Hs, Hkj. by apply klt_asym in Hs. }
    assert (forall e, kdir (opposite e) k k0 -> forall j, is_Some (M !! j) -> kdir e k j -> ~ w `prefix_of` nibs j) as Hnu.
    { intros e Hd j Hj Hkj Hp. rewrite (Honly j Hj Hp) in Hkj. destruct e; cbn in Hd, Hkj; by apply klt_asym in Hd. }
    destruct (key_ltb k0 k) eqn:E1; [|destruct (key_ltb k k0) eqn:E2].
    + apply key_ltb_lt in E1.
      destruct (search_extreme_ok ExRight k w Hk Hwk Hin (Hside _ (Hnu ExRight E1))) as [(r & Er & Hr)|(q & r & Er & A)].
      2: { right. exists ExRight, q, r. rewrite Er. cbn [rbind]. split; [done|exact A]. }
      rewrite Er. cbn [rbind]. left. exists (Some k0), r. split; [done|]. split; [by apply Hn0|done].
    + apply key_ltb_lt in E2.
      destruct (search_extreme_ok ExLeft k w Hk Hwk Hin (Hside _ (Hnu ExLeft E2))) as [(l & El & Hl)|(q & l & El & A)].
      2: { right. exists ExLeft, q, l. rewrite El. cbn [rbind]. split; [done|exact A]. }
      rewrite El. cbn [rbind]. left. exists l, (Some k0). split; [done|]. split; [done|by apply Hn0].
    + exfalso. destruct (klt_total k k0) as [H|[->|H]].
      * apply key_ltb_lt in H. congruence.
      * rewrite Hno in Hk0. by destruct Hk0.
      * apply key_ltb_lt in H. congruence.
Qed.
End Excl.
