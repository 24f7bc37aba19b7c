(** The trie operations on partially loaded tries agree with lookup in the
    hash-free tries they represent. *)
From Verif Require Import Base PmtNibblesModel RlpModel PmtModel PmtNibblesProof RlpProof PmtSpec
  PmtEncProof PmtLookupProof.
Open Scope res_scope.

Lemma cp_app q r : common_prefix (q ++ r) q = length q.
Proof. induction q as [|x q IH]; cbn; [by destruct r|]. by rewrite Nat.eqb_refl, IH. Qed.
Lemma cp_full p q : common_prefix p q = length q -> exists r, p = q ++ r.
Proof.
  destruct (common_prefix_spec p q) as (u & a & b & -> & -> & E & _).
  rewrite E, app_length. intros ?. destruct b; [|cbn in *; lia]. rewrite app_nil_r. eauto.
Qed.

Lemma at_app p y b : at_ (p ++ y :: b) (length p) = Ok y.
Proof.
  unfold at_. replace ((p ++ y :: b) !! length p) with (Some y); [done|].
  symmetry. by apply (list_lookup_middle p b y).
Qed.

(** Recursion bound used for a node within a path. *)
Definition rank (n : node) : nat := match n with NHash _ => 2 | NExt _ _ => 1 | _ => 0 end.

(** The smallest fuel the operations need for a key. *)
Definition enough (key : bytes) : nat := 3 * length (from_raw key true) + 10.

Definition bins (cs : list node) (v : option bytes) (x : nat) (a : hex) (val : bytes)
  : list node * option bytes :=
  if x =? 16 then (cs, Some val) else (<[x := NLeaf a val]> cs, v).

Lemma branch_insert_leaf cs v x a val : length cs = 16 -> x <= 16 ->
  branch_insert cs v x (NLeaf a val) = Ok (bins cs v x a val).
Proof.
  intros Hl Hx. unfold branch_insert, bins. destruct (Nat.eqb_spec x 16); [done|].
  rewrite Hl. destruct (Nat.ltb_spec x 16); [done|lia].
Qed.

Lemma tpath_head x a : tpath (x :: a) -> x <= 16.
Proof. intros [[-> _]|[? _]]%tpath_cons; lia. Qed.

Lemma wf_leaf' c V L k v : tpath k -> length k <= L -> v <> [] -> length v <= V -> wf c V L (NLeaf k v).
Proof.
  intros (b & Hb & ->) Hl Hv HV. rewrite app_length in Hl. cbn in Hl. constructor; auto; lia.
Qed.

Lemma wf_no_children c V L : Forall (wf c V L) no_children.
Proof. apply Forall_forall. intros x Hx. apply elem_of_replicate in Hx as [-> _]. constructor. Qed.

Lemma bins_spec c V L cs v x a val :
  length cs = 16 -> Forall (wf c V L) cs -> v <> Some [] -> vsize v <= V ->
  tpath (x :: a) -> length a <= L -> val <> [] -> length val <= V ->
  (x = 16 -> v = None) -> (x < 16 -> cs !! x = Some NEmpty) ->
  let b := bins cs v x a val in
  length b.1 = 16 /\ Forall (wf c V L) b.1 /\ b.2 <> Some [] /\ vsize b.2 <= V /\
  occupied b.1 + oval b.2 = S (occupied cs + oval v) /\
  (forall q, tpath q -> lk (NBranch b.1 b.2) q =
                        if decide (q = x :: a) then Some val else lk (NBranch cs v) q).
Proof.
  intros Hl Hcs Hv HvV Hp Ha Hval HvalV H16 Hlt. unfold bins.
  apply tpath_cons in Hp as [[-> ->]|[Hx Hpa]].
  - rewrite Nat.eqb_refl, (H16 eq_refl). cbn [fst snd]. split_and!; [done|done|congruence|done|cbn; lia|].
    intros q Hq. destruct q as [|y q]; [by apply tpath_nil in Hq|].
    apply tpath_cons in Hq as [[-> ->]|[Hy Hq]].
    + by rewrite decide_True.
    + rewrite decide_False by (intros [=]; lia).
      rewrite !lk_branch. by destruct (Nat.eqb_spec y 16); [lia|].
  - destruct (Nat.eqb_spec x 16); [lia|]. cbn [fst snd].
    split_and!; auto.
    + by rewrite insert_length.
    + apply Forall_insert; auto. by apply wf_leaf'.
    + pose proof (occ_insert cs x (NLeaf a val) NEmpty (Hlt Hx)) as Ho. cbn in Ho. lia.
    + intros q Hq. destruct q as [|y q]; [by apply tpath_nil in Hq|].
      apply tpath_cons in Hq as [[-> ->]|[Hy Hq]].
      * rewrite decide_False by (intros [=]; lia). by rewrite !lk_branch_end.
      * rewrite lk_insert_child by lia. destruct (decide (y = x)) as [->|Hyx].
        -- rewrite lk_leaf. rewrite lk_branch, (Hlt Hx).
           destruct (Nat.eqb_spec x 16); [lia|].
           cbn [lk]. repeat case_decide; congruence.
        -- repeat case_decide; congruence.
Qed.

Lemma offset_drop (path : hex) i : i <= length path -> offset path i = Ok (drop i path).
Proof. apply offset_ok. Qed.

Lemma drop_lt (path : hex) i x p : drop i path = x :: p -> i < length path /\ drop (i + 1) path = p.
Proof.
  intros E. split.
  - assert (length (drop i path) = S (length p)) by (by rewrite E). rewrite drop_length in *. lia.
  - rewrite <- drop_drop, E. reflexivity.
Qed.

Lemma drop_prefix (path : hex) i p r : i <= length path -> drop i path = p ++ r ->
  i + length p <= length path /\ drop (i + length p) path = r.
Proof.
  intros Hi E. split.
  - assert (length (drop i path) = length path - i) by (rewrite drop_length; lia).
    rewrite E, app_length in *. lia.
  - by rewrite <- drop_drop, E, drop_app.
Qed.

Lemma lk_no_children q : lk (NBranch no_children None) q = None.
Proof.
  destruct q as [|x q]; [done|]. rewrite lk_branch. destruct (Nat.eqb_spec x 16); [done|].
  destruct (no_children !! x) eqn:E; [|done].
  apply lookup_replicate in E as [-> _]. done.
Qed.

Lemma tpath_app_inv p q : tpath p -> tpath (p ++ q) -> q = [].
Proof.
  intros (a & Ha & ->) (b & Hb & E). rewrite <- app_assoc in E.
  by apply terminated_prefix_free in E as [_ ->].
Qed.

Lemma tpath_prefix_nibs p x q : tpath (p ++ x :: q) -> nibs p.
Proof.
  induction p as [|y p IH]; cbn; [constructor|].
  intros [[_ E]|[Hy H]]%tpath_cons; [by destruct p|]. constructor; auto. by apply IH.
Qed.

(** What an update of the value at [p] to [v] must do. *)
Definition updates (t t' : node) (p : hex) (v : option bytes) : Prop :=
  forall q, tpath q -> lk t' q = if decide (q = p) then v else lk t q.

Lemma updates_ext t t' p r v : nibs p ->
  updates t t' r v -> updates (NExt p t) (NExt p t') (p ++ r) v.
Proof.
  intros Hn Hu q Hq. destruct (decide (take (length p) q = p)) as [Et|Et].
  - assert (exists q', q = p ++ q') as [q' ->].
    { exists (drop (length p) q). rewrite <- Et at 1. by rewrite take_drop. }
    rewrite !lk_ext_app, Hu by (by apply tpath_app in Hq).
    destruct (decide (q' = r)) as [->|].
    + by rewrite !decide_True.
    + rewrite !decide_False; [done|by intros ?%app_inv_head|done].
  - assert (Hnq : forall q', q <> p ++ q').
    { intros q' ->. apply Et. by rewrite take_app. }
    rewrite !lk_ext_None by done. case_decide; [|done]. by destruct (Hnq r).
Qed.

Lemma updates_child ts w x c c' r v : length ts = 16 -> x < 16 -> ts !! x = Some c ->
  updates c c' r v -> updates (NBranch ts w) (NBranch (<[x := c']> ts) w) (x :: r) v.
Proof.
  intros Hl Hx Hc Hu q Hq. destruct q as [|y q]; [by apply tpath_nil in Hq|].
  apply tpath_cons in Hq as [[-> ->]|[Hy Hq]].
  - rewrite decide_False by (intros [=]; lia). by rewrite !lk_branch_end.
  - rewrite lk_insert_child by lia. rewrite lk_branch.
    destruct (Nat.eqb_spec y 16); [lia|].
    destruct (decide (y = x)) as [->|Hyx].
    + rewrite Hc, Hu by done. destruct (decide (q = r)) as [->|].
      * by rewrite !decide_True.
      * rewrite !decide_False; [done|congruence|done].
    + rewrite decide_False by congruence. done.
Qed.

Lemma ext_as_branch y b t q : y < 16 -> nibs b ->
  lk (NBranch (<[y := if length (y :: b) =? 1 then t else NExt b t]> no_children) None) q =
  lk (NExt (y :: b) t) q.
Proof.
  intros Hy Hb. destruct q as [|z q]; [done|].
  rewrite lk_branch. destruct (Nat.eqb_spec z 16) as [->|Hz].
  { rewrite lk_ext_None; [done|]. intros q' [= <- _]. lia. }
  destruct (decide (z = y)) as [->|Hzy].
  - rewrite list_lookup_insert by (cbn; lia).
    change (y :: b) with ([y] ++ b) at 2. rewrite <- lk_ext_ext.
    change (y :: q) with ([y] ++ q). rewrite lk_ext_app.
    destruct b as [|z b]; [|done]. cbn [length Nat.eqb].
    by rewrite <- (lk_ext_app [] t q).
  - rewrite list_lookup_insert_ne by done.
    rewrite lk_ext_None by (intros q' [=]; done).
    destruct (no_children !! z) eqn:E; [|done]. by apply lookup_replicate in E as [-> _].
Qed.

Section hash.
  Context (keccak : bytes -> bytes) (Hk : forall x, length (keccak x) = 32).
  Context (B : nat) (HB : (N.of_nat B < 2 ^ 60)%N).
  Context (C : bool) (d : db).
  Notation enc := (enc keccak).
  Notation collapse := (collapse keccak).
  Notation cref := (cref keccak).
  Notation repr := (repr keccak C d).
  Notation stored := (stored keccak C d).
  Notation long := (long keccak).

  (** The root may also be the hash of a short encoding. *)
  Definition rrepr (n t : node) : Prop :=
    repr n t \/ (n = NHash (keccak (enc t)) /\ known keccak C d t /\ stored t).

  Definition miss {A} (r : tres A) : Prop :=
    C = false /\ exists h tr rh k, r = Err (MissingTrieNode h tr rh k) /\ db_get d h = None.
  Lemma recover_none h : recover_from_db d h = Ok None -> db_get d h = None.
  Proof. unfold recover_from_db. destruct (db_get d h); [|done]. by destruct (decode_node _ _). Qed.
  Hint Resolve recover_none : core.

  Lemma miss_bind {A A'} (r : tres A) (f : A -> tres A') : miss r -> miss (rbind r f).
  Proof. intros [? (h & tr & rh & k & -> & ?)]. split; eauto 10. Qed.

  Lemma rrepr_hash h t : rrepr (NHash h) t -> h = keccak (enc t) /\ known keccak C d t /\ stored t.
  Proof.
    intros [H|([= ->] & ? & ?)]; [|auto].
    inversion H; subst. split_and!; auto. by eapply stored_known.
  Qed.

  Lemma repr_refl c V L t : wf c V L t -> repr t t.
  Proof.
    revert L. induction t as [|k v|p s IH|ts v IH|h] using node_ind'; intros L Hw; inversion Hw; subst;
      constructor; eauto.
    apply Forall2_same_length_lookup_2; [done|]. intros i a b Ha Hb.
    rewrite Ha in Hb. injection Hb as <-. rewrite Forall_lookup in IH, H2. eauto.
  Qed.

  Lemma rrepr_resolve n c L t : rrepr n t -> wf c B L t -> L <= B ->
    (repr n t /\ forall h, n <> NHash h) \/
    exists h, n = NHash h /\
      ((recover_from_db d h = Ok (Some (collapse t)) /\ repr (collapse t) t) \/
       (C = false /\ recover_from_db d h = Ok None)).
  Proof.
    intros Hr Hw HL. destruct n; try (left; destruct Hr as [Hr|[[=] _]]; by split).
    right. exists h. split; [done|]. apply rrepr_hash in Hr as (-> & Hkn & Hs).
    destruct (recover_known keccak Hk B HB C d c L t Hw HL Hkn) as [->|[-> ->]]; [|auto].
    left. split; [done|]. by eapply repr_collapse_wf.
  Qed.

  Lemma rank_collapse c V L t : wf c V L t -> rank (collapse t) <= 1.
  Proof. clear. inversion 1; cbn; lia. Qed.

  Lemma get_at_spec fuel rh n t path idx c L :
    rrepr n t -> wf c B L t -> L <= B -> idx <= length path -> tpath (drop idx path) ->
    3 * (length path - idx) + rank n < fuel ->
    get_at fuel d rh n path idx = Ok (lk t (drop idx path)) \/ miss (get_at fuel d rh n path idx).
  Proof.
    revert n t idx L. induction fuel as [|fuel IH]; intros n t idx L Hr Hw HL Hi Hp Hf; [lia|].
    cbn [get_at]. rewrite offset_drop by done. cbn [rbind].
    destruct (rrepr_resolve n c L t Hr Hw HL) as [[Hr' Hnh]|(h & -> & [[Hrec Hr']|[-> Hrec]])].
    - destruct Hr' as [|k v|p n t Hr'|ns ts v Hr'|t Hlong]; [..|by edestruct Hnh].
      + by left.
      + left. rewrite lk_leaf. by case_decide.
      + (* extension *)
        clear Hnh. inversion Hw; subst.
        destruct (Nat.eqb_spec (common_prefix (drop idx path) p) (length p)) as [E|E].
        * destruct (cp_full _ _ E) as [r Er]. rewrite E.
          destruct (drop_prefix _ _ _ _ Hi Er) as [Hi' Ed].
          destruct (IH n t (idx + length p) L0) as [->|Hm].
          -- by left.
          -- done.
          -- lia.
          -- done.
          -- rewrite Ed. rewrite Er in Hp. by apply tpath_app in Hp.
          -- destruct p; [done|]. cbn [length rank] in *. destruct n; cbn [rank]; lia.
          -- left. rewrite Ed, Er. by rewrite lk_ext_app.
          -- by right.
        * left. rewrite lk_ext_None; [done|]. intros r Er. apply E. rewrite Er. apply cp_app.
      + (* branch *)
        clear Hnh. inversion Hw; subst.
        destruct (drop idx path) as [|x p] eqn:Ed; [by apply tpath_nil in Hp|].
        apply drop_lt in Ed as [Hlt Ed].
        rewrite lk_branch. destruct (Nat.eqb_spec x 16) as [->|Hx]; [by left|].
        apply tpath_cons in Hp as [[-> _]|[Hx' Hp]]; [done|].
        destruct (lookup_lt_is_Some_2 ts x) as [t Ht]; [lia|].
        destruct (Forall2_lookup_r _ _ _ _ _ Hr' Ht) as (n & Hn & Hrn).
        rewrite Hn, Ht. rewrite Forall_lookup in H2.
        destruct (IH n t (idx + 1) L0) as [->|Hm]; [by left|by eauto|lia|lia|by rewrite Ed| | |].
        * cbn [rank] in Hf. destruct n; cbn [rank]; lia.
        * left. by rewrite Ed.
        * by right.
    - rewrite Hrec. cbn [rbind]. destruct (IH (collapse t) t idx L) as [->|Hm]; auto.
      + by left.
      + pose proof (rank_collapse _ _ _ _ Hw). cbn [rank] in Hf. lia.
    - rewrite Hrec. cbn [rbind]. right. unfold slice. cbn [Nat.leb andb].
      destruct (Nat.leb_spec idx (length path)); [|lia]. cbn. split; eauto 10.
  Qed.

  Lemma repr_bins ns ts v x a val :
    Forall2 repr ns ts ->
    repr (NBranch (bins ns v x a val).1 (bins ns v x a val).2)
         (NBranch (bins ts v x a val).1 (bins ts v x a val).2).
  Proof.
    intros H. unfold bins. destruct (x =? 16); cbn; constructor; auto.
    apply Forall2_insert; auto. constructor.
  Qed.

  Lemma repr_no_children : Forall2 repr no_children no_children.
  Proof. apply Forall2_replicate. constructor. Qed.

  Lemma leaf_split c L p x a y b old new :
    x <> y -> tpath (x :: a) -> tpath (y :: b) -> length a <= L -> length b <= L ->
    old <> [] -> length old <= B -> new <> [] -> length new <= B ->
    nibs p ->
    exists cs w,
      bins no_children None y b old = cs /\ bins cs.1 cs.2 x a new = w /\
      length w.1 = 16 /\ wf c B (S L) (NBranch w.1 w.2) /\
      (forall q, tpath q -> lk (NBranch w.1 w.2) q =
         if decide (q = x :: a) then Some new else if decide (q = y :: b) then Some old else None).
  Proof.
    intros Hxy Ha Hb HLa HLb Ho HoB Hn HnB Hp.
    destruct (bins_spec c B L no_children None y b old) as (H1 & H2 & H3 & H4 & H5 & H6); auto.
    { apply wf_no_children. }
    { cbn; lia. }
    { intros. by apply no_children_lookup. }
    set (cs := bins no_children None y b old) in *.
    destruct (bins_spec c B L cs.1 cs.2 x a new) as (K1 & K2 & K3 & K4 & K5 & K6); auto.
    { intros ->. unfold cs, bins. destruct (Nat.eqb_spec y 16); [congruence|done]. }
    { intros Hx. unfold cs, bins. destruct (Nat.eqb_spec y 16); cbn [fst].
      - by apply no_children_lookup.
      - rewrite list_lookup_insert_ne by done. by apply no_children_lookup. }
    exists cs, (bins cs.1 cs.2 x a new). split_and!; auto.
    - constructor; auto. intros _. cbn [oval] in *. lia.
    - intros q Hq. rewrite K6, H6 by done. case_decide; [done|]. case_decide; [done|].
      apply lk_no_children.
  Qed.

  Definition stays_branch (t : node) (p : hex) : Prop :=
    match t with NBranch _ _ => True | NExt q _ => common_prefix p q = 0 | _ => False end.

  Lemma insert_at_spec fuel rh pk n t path idx v c L :
    rrepr n t -> wf c B L t -> L <= B -> idx <= length path -> tpath (drop idx path) ->
    length (drop idx path) <= L -> v <> [] -> length v <= B ->
    3 * (length path - idx) + rank n < fuel ->
    (exists pk' n' t', insert_at fuel d rh pk n path idx v = (pk', Ok n') /\
       repr n' t' /\ wf c B L t' /\ updates t t' (drop idx path) (Some v) /\
       t' <> NEmpty /\ (stays_branch t (drop idx path) -> is_branch t')) \/
    miss (insert_at fuel d rh pk n path idx v).2.
  Proof.
    revert pk n t idx L. induction fuel as [|fuel IH];
      intros pk n t idx L Hr Hw HL Hi Hp HpL Hv HvB Hf; [lia|].
    cbn [insert_at]. rewrite offset_drop by done. cbn [ubind].
    destruct (rrepr_resolve n c L t Hr Hw HL) as [[Hr' Hnh]|(h & -> & [[Hrec Hr']|[-> Hrec]])].
    - destruct Hr' as [|k lv|p n t Hr'|ns ts w Hr'|t Hlong]; [..|by edestruct Hnh].
      + (* empty *)
        left. eexists _, _, (NLeaf (drop idx path) v). split; [reflexivity|].
        split; [constructor|]. split; [by apply wf_leaf'|].
        split; [|done]. intros q Hq. rewrite lk_leaf. cbn [lk]. repeat case_decide; congruence.
      + (* leaf *)
        left. set (part := drop idx path) in *.
        inversion Hw; subst.
        assert (Hold : tpath (b ++ [16])) by (by apply tpath_nibs).
        destruct (common_prefix_spec part (b ++ [16])) as (p & a' & b' & Ea & Eb & Em & Hne).
        destruct (Nat.eqb_spec (common_prefix part (b ++ [16])) (length (b ++ [16]))) as [E|E].
        * assert (b' = []) as ->.
          { rewrite Em in E. rewrite Eb, app_length in E. destruct b'; [done|cbn in E; lia]. }
          rewrite app_nil_r in Eb.
          assert (a' = []) as ->.
          { rewrite Ea, <- Eb in Hp. by eapply tpath_app_inv in Hp. }
          rewrite app_nil_r in Ea. rewrite Ea, Eb in *.
          eexists _, _, (NLeaf p v). split; [reflexivity|]. split; [constructor|].
          split; [by apply wf_leaf'|]. split; [|done].
          intros q Hq. rewrite !lk_leaf. repeat case_decide; congruence.
        * assert (Hb' : b' <> []).
          { intros ->. apply E. rewrite Em, Eb. by rewrite app_nil_r. }
          destruct b' as [|y b']; [done|].
          destruct a' as [|x a'].
          { exfalso. rewrite app_nil_r in Ea. rewrite Eb, <- Ea in Hold.
            apply tpath_app_inv in Hold; done. }
          rewrite Em.
          assert (Hlo : length (b ++ [16]) = length p + S (length b')).
          { rewrite Eb, app_length. done. }
          assert (Hlp : length part = length p + S (length a')).
          { rewrite Ea, app_length. done. }
          assert (Hnp : nibs p) by (rewrite Ea in Hp; by eapply tpath_prefix_nibs).
          assert (Hxa : tpath (x :: a')) by (rewrite Ea in Hp; by apply tpath_app in Hp).
          assert (Hyb : tpath (y :: b')) by (rewrite Eb in Hold; by apply tpath_app in Hold).
          destruct (leaf_split c (L - length p - 1) p x a' y b' lv v)
            as (cs & w & Ecs & Ew & Hl16 & Hwf & Hlk); auto; try (rewrite app_length in *; cbn in *; lia).
          rewrite !offset_ok by lia. cbn [rbind].
          assert (Hd1 : drop (length p + 1) (b ++ [16]) = b').
          { rewrite Eb, <- drop_drop, drop_app. done. }
          assert (Hd2 : drop (length p + 1) part = a').
          { rewrite Ea, <- drop_drop, drop_app. done. }
          rewrite Hd1, Hd2.
          assert (Hat1 : at_ (b ++ [16]) (length p) = Ok y).
          { rewrite Eb. apply at_app. }
          assert (Hat2 : at_ part (length p) = Ok x).
          { rewrite Ea. apply at_app. }
          rewrite Hat1, Hat2. cbn [rbind].
          rewrite branch_insert_leaf by (try done; by eapply tpath_head).
          rewrite Ecs. cbn [rbind]. destruct cs as [cs1 v1]. cbn [fst snd] in *.
          rewrite branch_insert_leaf; [|unfold bins in Ecs; destruct (y =? 16); injection Ecs as <- <-; [done|by rewrite insert_length]|by eapply tpath_head].
          rewrite Ew. cbn [rbind]. destruct w as [cs2 v2]. cbn [fst snd] in *.
          assert (Hup : forall t', (forall q, lk t' (p ++ q) = lk (NBranch cs2 v2) q) ->
            (forall q, (forall q', q <> p ++ q') -> lk t' q = None) ->
            updates (NLeaf (b ++ [16]) lv) t' part (Some v)).
          { intros t' H1' H2' q Hq. rewrite lk_leaf.
            destruct (decide (take (length p) q = p)) as [Et|Et].
            - assert (exists q', q = p ++ q') as [q' ->].
              { exists (drop (length p) q). rewrite <- Et at 1. by rewrite take_drop. }
              rewrite H1', Hlk by (by apply tpath_app in Hq).
              rewrite Ea, Eb.
              destruct (decide (q' = x :: a')) as [->|Nx].
              { by rewrite !decide_True. }
              rewrite (decide_False (P := q' = x :: a')) by done.
              rewrite (decide_False (P := p ++ q' = p ++ x :: a')) by (intros ?%app_inv_head; done).
              destruct (decide (q' = y :: b')) as [->|Ny].
              { by rewrite !decide_True. }
              rewrite !decide_False; [done|intros E3%app_inv_head; congruence|done].
            - assert (Hnq : forall q', q <> p ++ q').
              { intros q' ->. apply Et. by rewrite take_app. }
              rewrite H2' by done. rewrite Ea, Eb.
              repeat case_decide; try congruence; exfalso; by eapply Hnq. }
          destruct (Nat.eqb_spec (length p) 0) as [E0|E0].
          -- destruct p; [|done]. eexists _, _, (NBranch cs2 v2). split; [reflexivity|].
             split; [by eapply repr_refl|].
             split; [eapply wf_mono; [exact Hwf|cbn in *; lia]|].
             split; [|done]. apply Hup; [done|]. intros q Hq. by destruct (Hq q).
          -- rewrite slice_ok by lia. rewrite Nat.sub_0_r, drop_0. cbn [rbind].
             assert (Htp : take (length p) part = p) by (rewrite Ea; apply take_app).
             rewrite Htp.
             assert (Hwx : wf c B (length p + S (L - length p - 1)) (NExt p (NBranch cs2 v2))).
             { constructor; [by intros ->|done|done|done]. }
             eexists _, _, (NExt p (NBranch cs2 v2)). split; [reflexivity|].
             split; [by eapply repr_refl|].
             split; [eapply wf_mono; [exact Hwx|lia]|].
             split; [|done]. apply Hup; [intros; apply lk_ext_app|apply lk_ext_None].
      + (* extension *)
        clear Hnh. inversion Hw; subst.
        destruct (common_prefix_spec (drop idx path) p) as (u & a' & b' & Ea & Eb & Em & Hne).
        destruct (Nat.eqb_spec (common_prefix (drop idx path) p) 0) as [E0|E0].
        * (* no common prefix: a new branch *)
          left. rewrite Em in E0. destruct u; [|done]. cbn in Ea, Eb. subst b'.
          destruct p as [|y b]; [done|].
          destruct a' as [|x a]; [rewrite Ea in Hp; by apply tpath_nil in Hp|].
          inversion H2; subst.
          assert (Hoff : offset (y :: b) 1 = Ok b) by (rewrite offset_ok by (cbn; lia); done).
          rewrite Hoff. cbn [at_ lookup list_lookup rbind].
          set (cn := if length (y :: b) =? 1 then n else NExt b n).
          set (ct := if length (y :: b) =? 1 then t else NExt b t).
          assert (Hct : repr cn ct /\ wf c B (length b + L0) ct /\ ct <> NEmpty).
          { unfold cn, ct. destruct b as [|z b]; cbn [length Nat.eqb].
            - split_and!; auto. intros ->. done.
            - split_and!; [by constructor| |done].
              change (S (length b)) with (length (z :: b)). by constructor. }
          destruct Hct as (Hcr & Hcw & Hcne).
          unfold branch_insert at 1. destruct (Nat.eqb_spec y 16); [lia|].
          destruct (Nat.ltb_spec y (length no_children)) as [_|Hbad]; [|cbn in Hbad; lia].
          cbn [ubind fst snd].
          assert (Hidx : idx < length path).
          { apply (f_equal length) in Ea. rewrite drop_length in Ea. cbn in Ea. lia. }
          destruct fuel as [|fuel]; [cbn in Hf; lia|].
          cbn [insert_at]. rewrite offset_drop by done. cbn [ubind]. rewrite Ea in *.
          destruct (drop_lt _ _ _ _ Ea) as [_ Ed].
          assert (Hbs := bins_spec c B (length b + L0) (<[y := ct]> no_children) None x a v).
          destruct Hbs as (K1 & K2 & K3 & K4 & K5 & K6).
          { by rewrite insert_length. }
          { apply Forall_insert; [apply wf_no_children|done]. }
          { done. }
          { cbn; lia. }
          { done. }
          { cbn in HpL. lia. }
          { done. }
          { done. }
          { done. }
          { intros Hx. rewrite list_lookup_insert_ne by done. by apply no_children_lookup. }
          assert (Hocc : occupied (<[y := ct]> no_children) = 1).
          { pose proof (occ_insert no_children y ct NEmpty) as Ho.
            rewrite no_children_lookup in Ho by lia. specialize (Ho eq_refl).
            rewrite occ_no_children in Ho. cbn [is_empty_node] in Ho.
            destruct (is_empty_node ct) eqn:Ec; [|lia]. by apply empty_dec in Ec. }
          assert (Hrb : repr (NBranch (bins (<[y := cn]> no_children) None x a v).1
                                      (bins (<[y := cn]> no_children) None x a v).2)
                             (NBranch (bins (<[y := ct]> no_children) None x a v).1
                                      (bins (<[y := ct]> no_children) None x a v).2)).
          { apply repr_bins. apply Forall2_insert; [apply repr_no_children|done]. }
          assert (Hres : exists pk', (if x =? 16
              then (pk, Ok (NBranch (<[y := cn]> no_children) (Some v)))
              else match <[y := cn]> no_children !! x with
                   | Some c0 =>
                       upd! (pk, c') := insert_at fuel d rh pk c0 path (idx + 1) v in
                       (pk, Ok (NBranch (<[x := c']> (<[y := cn]> no_children)) None))
                   | None => (pk, Panic)
                   end) = (pk', Ok (NBranch (bins (<[y := cn]> no_children) None x a v).1
                                            (bins (<[y := cn]> no_children) None x a v).2))).
          { unfold bins. destruct (Nat.eqb_spec x 16) as [->|Hx]; [eauto|].
            apply tpath_cons in Hp as [[-> _]|[Hx16 Hp]]; [done|].
            rewrite list_lookup_insert_ne by done. rewrite no_children_lookup by done.
            destruct fuel as [|fuel]; [cbn in Hf; lia|].
            cbn [insert_at]. rewrite offset_drop by lia. rewrite Ed. cbn [ubind fst snd]. eauto. }
          destruct Hres as [pk' Hres].
          eexists pk', _, _. split; [exact Hres|]. split; [exact Hrb|].
          split; [|split; [|split; [done|done]]].
          -- change (length (y :: b) + L0) with (S (length b + L0)). constructor; auto.
             intros _. cbn [oval] in *. lia.
          -- intros q Hq. rewrite K6 by done. case_decide; [done|].
             unfold ct. by apply ext_as_branch.
        * destruct (Nat.eqb_spec (common_prefix (drop idx path) p) (length p)) as [E|E].
          -- (* the whole prefix matches *)
             destruct (cp_full _ _ E) as [r Er]. rewrite E.
             destruct (drop_prefix _ _ _ _ Hi Er) as [Hi' Ed].
             rewrite Er in HpL, Hp. rewrite app_length in HpL. apply tpath_app in Hp; [|done].
             destruct (IH pk n t (idx + length p) L0)
               as [(pk' & n' & t' & Hres & Hr2 & Hw2 & Hu & Hne2 & Hb2)|Hm].
             ++ by left.
             ++ done.
             ++ lia.
             ++ done.
             ++ by rewrite Ed.
             ++ rewrite Ed. lia.
             ++ done.
             ++ done.
             ++ destruct p; [done|]. cbn [length rank] in *. destruct n; cbn [rank]; lia.
             ++ left. rewrite Hres. cbn [ubind]. eexists _, _, (NExt p t').
                split; [reflexivity|]. split; [by constructor|].
                split; [constructor; auto; apply Hb2; by destruct t|].
                split; [rewrite Er; apply updates_ext; [done|by rewrite <- Ed]|].
                split; [done|]. cbn [stays_branch]. rewrite E. by destruct p.
             ++ right. destruct (insert_at fuel d rh pk n path (idx + length p) v) as [pk' r0].
                cbn [snd] in Hm. destruct Hm as [? (h & tr & rh' & k & -> & ?)]. cbn. split; eauto 10.
          -- (* part of the prefix matches *)
             rewrite Em in *.
             assert (Hb' : b' <> []).
             { intros ->. rewrite app_nil_r in Eb. subst u. done. }
             assert (Hnb : nibs u /\ nibs b').
             { subst p. by apply Forall_app in H2. }
             destruct Hnb as [Hnu Hnb].
             rewrite offset_ok by (subst p; rewrite app_length; lia).
             assert (Hdp : drop (length u) p = b') by (subst p; apply drop_app).
             rewrite Hdp. cbn [ubind].
             destruct (drop_prefix _ _ _ _ Hi Ea) as [Hi' Ed].
             assert (Hlp : length p = length u + length b') by (subst p; apply app_length).
             assert (Hwx : wf c B (length b' + L0) (NExt b' t)) by (by constructor).
             rewrite Ea in HpL, Hp. rewrite app_length in HpL. apply tpath_app in Hp; [|done].
             destruct (IH pk (NExt b' n) (NExt b' t) (idx + length u) (length b' + L0))
               as [(pk' & n' & t' & Hres & Hr2 & Hw2 & Hu & Hne2 & Hb2)|Hm].
             ++ left. by constructor.
             ++ done.
             ++ lia.
             ++ done.
             ++ by rewrite Ed.
             ++ rewrite Ed. lia.
             ++ done.
             ++ done.
             ++ cbn [rank] in *. lia.
             ++ left. rewrite Hres. cbn [ubind].
                rewrite slice_ok by lia. rewrite Nat.sub_0_r, drop_0. cbn [rbind].
                assert (Htp : take (length u) p = u) by (subst p; apply take_app).
                rewrite Htp. eexists _, _, (NExt u t').
                split; [reflexivity|]. split; [by constructor|].
                assert (Hcp : stays_branch (NExt b' t) (drop (idx + length u) path)).
                { cbn. rewrite Ed. destruct a' as [|x a'], b' as [|y b']; try done.
                  cbn. destruct (Nat.eqb_spec x y); [done|done]. }
                split; [rewrite Hlp, <- Nat.add_assoc; constructor; auto; by intros ->|].
                split; [|split; [done|cbn; rewrite Em; lia]].
                rewrite Ea, Ed in *. intros q Hq.
                rewrite (updates_ext _ _ u _ _ Hnu Hu q Hq). case_decide; [done|].
                rewrite Eb. apply lk_ext_ext.
             ++ right. destruct (insert_at fuel d rh pk (NExt b' n) path (idx + length u) v) as [pk' r0].
                cbn [snd] in Hm. destruct Hm as [? (h & tr & rh' & k & -> & ?)]. cbn. split; eauto 10.
      + (* branch *)
        clear Hnh. inversion Hw; subst.
        destruct (drop idx path) as [|x p] eqn:Ed; [by apply tpath_nil in Hp|].
        destruct (drop_lt _ _ _ _ Ed) as [Hlt Ed'].
        destruct (Nat.eqb_spec x 16) as [->|Hx].
        * left. apply tpath_cons in Hp as [[_ ->]|[? _]]; [|lia].
          eexists _, _, (NBranch ts (Some v)). split; [reflexivity|].
          split; [by constructor|]. split; [|split; [|done]].
          -- constructor; auto; [congruence|]. intros Hc. specialize (H6 Hc).
             destruct w; cbn [oval] in *; lia.
          -- intros q Hq. destruct q as [|y q]; [by apply tpath_nil in Hq|].
             apply tpath_cons in Hq as [[-> ->]|[Hy Hq]].
             ++ by rewrite decide_True, lk_branch_end.
             ++ rewrite decide_False by (intros [=]; lia). rewrite !lk_branch.
                by destruct (Nat.eqb_spec y 16); [lia|].
        * apply tpath_cons in Hp as [[-> _]|[Hx' Hp]]; [done|].
          destruct (lookup_lt_is_Some_2 ts x) as [t Ht]; [lia|].
          destruct (Forall2_lookup_r _ _ _ _ _ Hr' Ht) as (n & Hn & Hrn).
          rewrite Hn. pose proof H2 as Hall. rewrite Forall_lookup in H2.
          destruct (IH pk n t (idx + 1) L0)
            as [(pk' & n' & t' & Hres & Hr2 & Hw2 & Hu & Hne2 & Hb2)|Hm].
          -- by left.
          -- eauto.
          -- lia.
          -- lia.
          -- by rewrite Ed'.
          -- rewrite Ed'. cbn in HpL. lia.
          -- done.
          -- done.
          -- cbn [rank] in Hf. destruct n; cbn [rank]; lia.
          -- left. rewrite Hres. cbn [ubind]. eexists _, _, (NBranch (<[x := t']> ts) w).
             split; [reflexivity|]. split; [constructor; by apply Forall2_insert|].
             split; [|split; [|done]].
             ++ constructor; auto; [by rewrite insert_length|by apply Forall_insert|].
                intros Hc. specialize (H6 Hc).
                pose proof (occ_insert ts x t' t Ht) as Ho.
                destruct (is_empty_node t') eqn:Et'; [by apply empty_dec in Et'|].
                destruct (is_empty_node t); lia.
             ++ eapply updates_child; eauto. by rewrite <- Ed'.
          -- right. destruct (insert_at fuel d rh pk n path (idx + 1) v) as [pk' r0].
             cbn [snd] in Hm. destruct Hm as [? (h & tr & rh' & k & -> & ?)]. cbn. split; eauto 10.
    - rewrite Hrec. cbn [ubind]. apply IH with (t := t); auto.
      + by left.
      + pose proof (rank_collapse _ _ _ _ Hw). cbn [rank] in Hf. lia.
    - rewrite Hrec. cbn [ubind]. right. rewrite slice_ok by lia. cbn. split; eauto 10.
  Qed.
End hash.
