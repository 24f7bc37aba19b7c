(** Restoring a tree: adding a pair, and what has been written. *)
From Verif Require Import Base JmtNibModel JmtSpec JmtNibSpec JmtNibProof JmtNibMoreProof JmtModel JmtHashProof JmtAbsProof
  JmtCacheProof JmtOrderProof JmtIterModel JmtIterProof JmtRestoreModel JmtRestoreProof.
Local Open Scope nat_scope.

(** ** Counts after one more pair *)
Lemma pcnt_out M k x q : ~ q `prefix_of` nibs k -> pcnt q (<[k := x]> M) = pcnt q M.
Proof. intros H. unfold cnt. by rewrite <-(upd_out k (Some x) M q H). Qed.
Lemma subm_out M k x q : ~ q `prefix_of` nibs k -> subm (path_bits q) (<[k := x]> M) = subm (path_bits q) M.
Proof. intros H. exact (upd_out k (Some x) M q H). Qed.
Lemma psub_in M k x q : q `prefix_of` nibs k ->
  subm (path_bits q) (<[k := x]> M) = <[k := x]> (subm (path_bits q) M).
Proof.
  intros H. apply map_eq. intros l. apply option_eq. intros y. rewrite psub_Some.
  destruct (decide (l = k)) as [->|Hne].
  - rewrite !lookup_insert. tauto.
  - rewrite !lookup_insert_ne, psub_Some by done. done.
Qed.
Lemma pcnt_in M k x q : q `prefix_of` nibs k -> M !! k = None -> pcnt q (<[k := x]> M) = S (pcnt q M).
Proof.
  intros H Hk. unfold cnt. rewrite psub_in by done. apply map_size_insert_None.
  destruct (subm (path_bits q) M !! k) eqn:E; [|done]. apply psub_Some in E as [? _]. congruence.
Qed.
Lemma psub_new M k x q : q `prefix_of` nibs k -> pcnt q M = 0 -> subm (path_bits q) (<[k := x]> M) = {[k := x]}.
Proof. intros H H0%cnt_0. by rewrite psub_in, H0. Qed.
Lemma one_key M q k x l y : pcnt q M = 1 -> M !! k = Some x -> q `prefix_of` nibs k -> M !! l = Some y -> q `prefix_of` nibs l -> l = k.
Proof.
  intros H1 Hk Hqk Hl Hql. apply cnt_1 in H1 as (z & w & E).
  assert (subm (path_bits q) M !! k = Some x) as A by by apply psub_Some.
  assert (subm (path_bits q) M !! l = Some y) as B by by apply psub_Some.
  rewrite E in A, B. apply lookup_singleton_Some in A as [-> _]. apply lookup_singleton_Some in B as [-> _]. done.
Qed.
Lemma psub_one M q k x : pcnt q M = 1 -> M !! k = Some x -> q `prefix_of` nibs k -> subm (path_bits q) M = {[k := x]}.
Proof.
  intros H1 Hk Hqk. apply cnt_1 in H1 as (z & w & E).
  assert (subm (path_bits q) M !! k = Some x) as A by by apply psub_Some.
  rewrite E in A |- *. apply lookup_singleton_Some in A as [-> ->]. done.
Qed.
Lemma pcnt_none M p : pcnt p M = 0 <-> forall l y, M !! l = Some y -> ~ p `prefix_of` nibs l.
Proof.
  split.
  - intros H l y Hl Hp. pose proof (pcnt_key p M l y Hl Hp). lia.
  - intros H. destruct (decide (pcnt p M = 0)) as [|Hn]; [done|].
    destruct (cnt_pos_inv (path_bits p) M) as (l & y & Hl & Hp); [lia|].
    rewrite key_bits_nibs, path_bits_prefix in Hp. by apply (H l y Hl) in Hp.
Qed.

(** ** Paths with a node, when the nodes on a path are taken for internal ones *)
Definition rlive (p : path) (M : pairs) (q : path) : Prop :=
  q <> [] /\ 0 < pcnt q M /\ (removelast q `prefix_of` p \/ 2 <= pcnt (removelast q) M).
Global Instance rlive_dec p M q : Decision (rlive p M q).
Proof. unfold rlive. apply _. Defined.
Lemma rlive_snoc p M q i : rlive p M (q ++ [i]) <-> 0 < pcnt (q ++ [i]) M /\ (q `prefix_of` p \/ 2 <= pcnt q M).
Proof. unfold rlive. rewrite removelast_last. split; [tauto|]. intros. split; [by destruct q|done]. Qed.
Lemma rlive_inv p M q : rlive p M q -> exists q0 i, q = q0 ++ [i] /\ 0 < pcnt q M /\ (q0 `prefix_of` p \/ 2 <= pcnt q0 M).
Proof.
  intros H. pose proof H as (Hne & _). destruct (@exists_last _ q Hne) as (q0 & i & ->).
  apply rlive_snoc in H as [??]. eauto 10.
Qed.
Lemma rlive_live p M q : 2 <= pcnt [] M -> p = [] \/ 2 <= pcnt p M -> rlive p M q \/ q = [] <-> live [] M q.
Proof.
  intros H2 Hp. unfold rlive, live. split.
  - intros [(Hne & Hpos & Hr)| ->]; (split_and!; [apply prefix_nil|done || lia|]); [right|by left].
    destruct Hr as [Hr|?]; [|done]. destruct Hp as [->|Hp]; [by apply prefix_nil_inv in Hr as ->|].
    etrans; [exact Hp|]. by apply pcnt_mono.
  - intros (_ & Hpos & [->|Hr]); [by right|]. destruct (decide (q = [])); [by right|left]. tauto.
Qed.

Section Add.
Context (sha : bytes -> bytes) (v : N).
Notation sm_leaf := (sm_leaf sha).
Notation sm_internal := (sm_internal sha).
Notation hashP := (hashB sm_leaf sm_internal placeholder).
Notation phash p M := (hashP (path_bits p) M).
Notation node_of M q := (node_of sha M (fun _ => v) q).
Notation Up := (Up sha v).
Notation complete := (complete sha).
Notation finfo := (finfo sha).
Implicit Types (M : pairs) (p q : path) (S : gmap nkey node).

(** ** What has been frozen *)
Definition Frz M S p e : Prop := forall q,
  S !! (v, q) = if decide (rlive p M q /\ ~ q `prefix_of` e) then Some (node_of M q) else None.
Definition ok_frozen (fz sn : gmap nkey node) : Prop :=
  fz ##ₘ sn /\ forall nk nd, fz !! nk = Some nd -> fst nk = v.

Record Pend (ps : list pinfo) (fz sn : gmap nkey node) M (k : bytes) p : Prop := {
  pd_wf : wfm M;
  pd_key : exists vh, M !! k = Some vh;
  pd_max : greatest M k;
  pd_path : exists j r, nibs k = p ++ j :: r /\ pcnt (p ++ [j]) M = 1;
  pd_p : p = [] \/ 2 <= pcnt p M;
  pd_parts : exists cs ps', ps = PInfo (v, p) cs :: ps' /\ Up M ps' p /\ complete M p cs;
  pd_frz : Frz M (fz ∪ sn) p (nibs k);
  pd_fz : ok_frozen fz sn
}.
(** Everything frozen up to a path. *)
Record Recd (ps : list pinfo) (fz sn : gmap nkey node) M p : Prop := {
  rc_wf : wfm M;
  rc_p : p = [] \/ 0 < pcnt p M;
  rc_parts : exists cs ps', ps = PInfo (v, p) cs :: ps' /\ Up M ps' p /\ complete M p cs;
  rc_frz : Frz M (fz ∪ sn) p p;
  rc_fz : ok_frozen fz sn
}.

Lemma ok_frozen_insert fz sn q nd : ok_frozen fz sn -> (fz ∪ sn) !! (v, q) = None -> ok_frozen (<[(v, q) := nd]> fz) sn.
Proof.
  intros [H1 H2] Hn. apply lookup_union_None in Hn as [_ Hs]. split.
  - by apply map_disjoint_insert_l_2.
  - intros nk nd' Hk. destruct (decide (nk = (v, q))) as [->|Hne]; [done|]. rewrite lookup_insert_ne in Hk by done. by eapply H2.
Qed.

(** ** Freezing *)
Lemma freeze_pend st M k p keep : rs_ver st = v -> rs_num st <> 0%N ->
  Pend (rs_partial st) (rs_frozen st) (st_nodes (rs_store st)) M k p -> keep <= Datatypes.S (length p) -> (keep <= length p -> 2 <= pcnt p M) ->
  exists ps fz, freeze sha st keep = Ok (with_partial st ps fz) /\
    (0 < keep -> Recd ps fz (st_nodes (rs_store st)) M (take (keep - 1) p)) /\
    (keep = 0 -> ok_frozen fz (st_nodes (rs_store st)) /\
       forall q, (fz ∪ st_nodes (rs_store st)) !! (v, q) = if decide (live [] M q) then Some (node_of M q) else None).
Proof.
  intros Hv Hnum [Hw (vh & Hk) Hg (j & r & Hn & H1) Hp (cs & ps & Eps & HU & Hc) Hf Hfz] Hkeep H2.
  set (sn := st_nodes (rs_store st)) in *.
  assert (p `prefix_of` nibs k) as Hpk by (rewrite Hn; by eexists).
  assert (p ++ [j] `prefix_of` nibs k) as Hpjk by (rewrite Hn; exists r; by rewrite <-app_assoc).
  assert (subm (path_bits (p ++ [j])) M = {[k := vh]}) as Hs by by apply psub_one.
  unfold freeze, freeze_previous_leaf. rewrite (proj2 (N.eqb_neq _ _) Hnum), Eps, Hv. cbn [pi_children pi_key].
  assert (cs !! j = Some (CLeaf k vh)) as Hj by (rewrite (Hc j); by apply finfo_1).
  rewrite (rightmost_is cs j _ Hj); cycle 1.
  { intros i Hi. rewrite (Hc i). apply finfo_0. by eapply right_empty. }
  rewrite Hj. cbn [rbind]. unfold child_key. cbn [snd].
  assert ((rs_frozen st ∪ sn) !! (v, p ++ [j]) = None) as Hnone.
  { rewrite (Hf (p ++ [j])). rewrite decide_False; [done|]. tauto. }
  destruct (freeze_internal_ok sha v M k Hw Hg ps p cs (<[(v, p ++ [j]):=NLeaf k vh]> (rs_frozen st)) keep)
    as (res & fz & -> & R0 & R1 & R2); [done..|].
  cbn [rbind]. exists res, fz. split; [done|].
  (* the lookups *)
  assert (forall q, (fz ∪ sn) !! (v, q) =
    if decide (q `prefix_of` p /\ keep <= length q) then Some (node_of M q)
    else if decide (q = p ++ [j]) then Some (node_of M q) else (rs_frozen st ∪ sn) !! (v, q)) as HL.
  { intros q. rewrite !lookup_union, R2. cbn [fst snd]. case_decide as D1; case_decide as D2; try tauto.
    - by destruct (sn !! (v, q)).
    - case_decide as D3.
      + subst q. rewrite lookup_insert, (node_of_leaf _ _ _ _ _ _ Hs). by destruct (sn !! _).
      + by rewrite lookup_insert_ne by congruence. }
  assert (ok_frozen fz sn) as Hfz'.
  { destruct Hfz as [Hd Hv']. split.
    - apply map_disjoint_spec. intros [w q] x y Hx Hy. rewrite R2 in Hx. cbn [fst snd] in Hx. case_decide as D.
      + destruct D as (-> & Hq & Hl).
        assert ((rs_frozen st ∪ sn) !! (v, q) = None) as Hno.
        { rewrite (Hf q), decide_False; [done|]. intros [_ Hno]. apply Hno. by etrans. }
        apply lookup_union_None in Hno as [_ ?]. congruence.
      + destruct (decide ((v, p ++ [j]) = (w, q))) as [[= -> <-]|Hne].
        * apply lookup_union_None in Hnone as [_ ?]. congruence.
        * rewrite lookup_insert_ne in Hx by done. by eapply map_disjoint_spec.
    - intros [w q] nd Hx. rewrite R2 in Hx. cbn [fst snd] in *. case_decide as D; [tauto|].
      destruct (decide ((v, p ++ [j]) = (w, q))) as [[= -> <-]|Hne]; [done|].
      rewrite lookup_insert_ne in Hx by done. by apply Hv' in Hx. }
  (* live paths on the way to the key *)
  assert (forall q, rlive p M q -> q `prefix_of` nibs k -> q `prefix_of` p \/ q = p ++ [j]) as Hway.
  { intros q (q0 & i & -> & Hpos & Hq0)%rlive_inv Hq.
    destruct (prefix_app_cases (q0 ++ [i]) (p ++ [j]) (nibs k)) as [Hx|Hx]; [done|done|by apply prefix_snoc_or|].
    apply prefix_snoc_or in Hx as [Hx|Hx]; [|by right].
    exfalso. pose proof (pcnt_mono _ _ M Hx). destruct Hq0 as [Hq0|?]; [|lia].
    apply prefix_length in Hx, Hq0. rewrite app_length in Hx. cbn [length] in Hx. lia. }
  split.
  - intros Hk0. destruct (R1 Hk0) as (ps' & cs' & -> & HU' & Hc').
    assert (take (keep - 1) p `prefix_of` p) as Ht by (exists (drop (keep - 1) p); by rewrite take_drop).
    assert (forall q0, q0 `prefix_of` p -> q0 `prefix_of` take (keep - 1) p \/ 2 <= pcnt q0 M) as Hpp.
    { intros q0 Hq0. destruct (decide (keep <= length p)) as [Hl|Hl].
      - right. etrans; [exact (H2 Hl)|]. by apply pcnt_mono.
      - left. rewrite take_ge by lia. done. }
    assert (forall q, rlive (take (keep - 1) p) M q <-> rlive p M q) as Hrl.
    { intros q. destruct (decide (q = [])) as [->|Hne]; [unfold rlive; tauto|].
      destruct (@exists_last _ q Hne) as (q0 & i & ->). rewrite !rlive_snoc. split; intros [? [Hx|Hx]]; (split; [done|]).
      - left. by etrans.
      - by right.
      - by apply Hpp.
      - by right. }
    split; [done| |by eauto 10| |done].
    + right. apply (pcnt_key _ _ k vh); [done|]. by etrans.
    + intros q. rewrite HL. case_decide as D1.
      * destruct D1 as [D1 D1']. rewrite decide_True; [done|]. split.
        -- assert (q <> []) as Hq by (intros ->; cbn in D1'; lia).
           destruct (@exists_last _ q Hq) as (q0 & i & ->). apply rlive_snoc. split.
           ++ apply (pcnt_key _ _ k vh); [done|]. by etrans.
           ++ apply Hpp. etrans; [|exact D1]. by eexists.
        -- intros Hx%prefix_length. rewrite take_length in Hx. lia.
      * case_decide as D2.
        -- rewrite decide_True; [done|]. subst q. split.
           ++ apply rlive_snoc. split; [lia|by apply Hpp].
           ++ intros Hx%prefix_length. rewrite take_length, app_length in Hx. cbn [length] in Hx. lia.
        -- rewrite (Hf q). case_decide as D3; case_decide as D4; rewrite Hrl in D4; try done.
           ++ exfalso. apply D4. split; [tauto|]. intros Hx. apply (proj2 D3). by etrans; [|etrans].
           ++ exfalso. apply D3. split; [tauto|]. intros Hx. destruct (Hway q) as [Hy|Hy]; [tauto|done| |done].
              apply (proj2 D4). destruct (decide (keep <= length q)) as [|Hl]; [tauto|].
              rewrite (prefix_take_eq q p Hy). exists (drop (length q) (take (keep - 1) p)).
              replace (take (length q) p) with (take (length q) (take (keep - 1) p)); [by rewrite take_drop|].
              rewrite take_take. f_equal. lia.
  - intros ->. split; [done|]. intros q. specialize (H2 ltac:(lia)).
    assert (2 <= pcnt [] M) as Hroot by (etrans; [exact H2|apply pcnt_mono, prefix_nil]).
    rewrite HL. case_decide as D1.
    + rewrite decide_True; [done|]. apply (rlive_live p); [done..|]. destruct D1 as [D1 _].
      destruct (decide (q = [])) as [|Hq]; [by right|left].
      destruct (@exists_last _ q Hq) as (q0 & i & ->). apply rlive_snoc. split.
      * apply (pcnt_key _ _ k vh); [done|]. by etrans.
      * left. etrans; [|exact D1]. by eexists.
    + case_decide as D2.
      * rewrite decide_True; [done|]. subst q. apply (rlive_live p); [done..|]. left. apply rlive_snoc. split; [lia|by left].
      * rewrite (Hf q). case_decide as D3; case_decide as D4; try done.
        -- exfalso. apply D4. apply (rlive_live p); [done..|]. tauto.
        -- exfalso. apply (rlive_live p) in D4 as [D4| ->]; [| |done..].
           ++ apply D3. split; [done|]. intros Hx. destruct (Hway q) as [Hy|Hy]; [done..| |done]. apply D1. split; [done|lia].
           ++ apply D1. split; [apply prefix_nil|lia].
Qed.

(** ** One more leaf below a path where everything is frozen *)
Lemma add_at ps fz sn M vis x r k vh cs : Recd (PInfo (v, vis) cs :: ps) fz sn M vis ->
  nibs k = vis ++ x :: r -> pcnt (vis ++ [x]) M = 0 -> length k = 32 ->
  (forall l y, M !! l = Some y -> bytes_lt l k) ->
  Pend (set_child x (CLeaf k vh) (PInfo (v, vis) cs) :: ps) fz sn (<[k := vh]> M) k vis.
Proof.
  intros [Hw Hp (cs0 & ps0 & [= <- <-] & HU & Hc) Hf Hfz] Hn H0 Hlen Hmax.
  assert (M !! k = None) as Hk.
  { destruct (M !! k) as [y|] eqn:E; [|done]. exfalso. eapply klt_irrefl. by eapply Hmax. }
  assert (vis `prefix_of` nibs k) as Hvk by (rewrite Hn; by eexists).
  assert (vis ++ [x] `prefix_of` nibs k) as Hvxk by (rewrite Hn; exists r; by rewrite <-app_assoc).
  assert (forall q, q `prefix_of` nibs k -> 0 < pcnt q M -> q `prefix_of` vis) as Hin.
  { intros q Hq Hpos. destruct (prefix_app_cases q (vis ++ [x]) (nibs k)) as [Hx|Hx]; [done..| |].
    - apply prefix_snoc_or in Hx as [?| ->]; [done|lia].
    - pose proof (pcnt_mono _ _ M Hx). lia. }
  split.
  - intros l y. destruct (decide (l = k)) as [->|Hne]; [done|]. rewrite lookup_insert_ne by done. apply Hw.
  - exists vh. by rewrite lookup_insert.
  - intros l y. destruct (decide (l = k)) as [->|Hne]; [intros _; apply klt_irrefl|].
    rewrite lookup_insert_ne by done. intros Hl Hlt. eapply klt_asym; [exact Hlt|]. by eapply Hmax.
  - exists x, r. split; [done|]. rewrite pcnt_in, H0 by done. done.
  - destruct Hp as [->|Hp]; [by left|right]. rewrite pcnt_in by done. lia.
  - do 2 eexists. split; [reflexivity|]. split.
    + eapply Up_ext; [|exact HU]. intros q i Hq j Hj. apply finfo_ext. symmetry. apply subm_out.
      intros Hqk. apply Hj. assert (q ++ [i] `prefix_of` nibs k) as Hqi by (by etrans).
      apply prefix_split in Hqk as [z1 E1]. apply prefix_split in Hqi as [z2 E2]. rewrite E1 in E2.
      apply app_inv_head in E2. by injection E2.
    + intros i. destruct (decide (i = x)) as [->|Hne].
      * rewrite lookup_insert. symmetry. apply finfo_1. by apply psub_new.
      * rewrite lookup_insert_ne by done. cbn [pi_children]. rewrite (Hc i). apply finfo_ext. symmetry. apply subm_out.
        intros Hik. apply prefix_split in Hik as [z E]. rewrite E in Hn. apply app_inv_head in Hn. by injection Hn.
  - intros q. rewrite (Hf q).
    destruct (decide (q `prefix_of` nibs k)) as [Hqk|Hqk].
    { rewrite !decide_False; [done|tauto|]. intros [Hl Hq]. apply Hq, Hin; [done|]. by destruct Hl as (_ & ? & _). }
    assert (node_of (<[k:=vh]> M) q = node_of M q) as Hno.
    { apply node_of_ext; [by apply subm_out|done]. }
    rewrite Hno. assert (rlive vis (<[k:=vh]> M) q <-> rlive vis M q) as Hl.
    { destruct (decide (q = [])) as [->|Hne]; [by destruct Hqk; apply prefix_nil|].
      destruct (@exists_last _ q Hne) as (q0 & i & ->). rewrite !rlive_snoc, pcnt_out by done.
      destruct (decide (q0 `prefix_of` nibs k)) as [Hq0|Hq0]; [|by rewrite pcnt_out].
      rewrite pcnt_in by done. split; intros [Hpos H]; (split; [done|]).
      - left. apply Hin; [done|]. eapply Nat.lt_le_trans; [exact Hpos|]. apply pcnt_mono. by eexists.
      - destruct H; [by left|right; lia]. }
    case_decide as D1; case_decide as D2; rewrite ?Hl in D2; try done; exfalso.
    + apply D2. split; [tauto|done].
    + apply D1. split; [tauto|]. intros Hx. apply Hqk. by etrans.
  - done.
Qed.

(** ** The walk along the partial nodes *)
Lemma walk st M k vh p top ps : rs_partial st = top :: ps -> Up M ps p ->
  forall mid vis rest, vis ++ mid `prefix_of` p ->
  add_loop sha st k vh vis (mid ++ rest) = add_loop sha st k vh (vis ++ mid) rest.
Proof.
  intros Eps HU mid. induction mid as [|x mid IH]; intros vis rest Hp; [by rewrite app_nil_r|].
  cbn [app add_loop]. rewrite Eps.
  destruct (Up_at sha v M ps p top (length vis) vis x) as (cs & -> & _ & Hx); [done| |done|].
  { etrans; [|exact Hp]. exists mid. by rewrite <-app_assoc. }
  cbn [pi_children]. rewrite Hx. rewrite IH; [by rewrite <-app_assoc|]. by rewrite <-app_assoc.
Qed.

Lemma with_partial_same st : with_partial st (rs_partial st) (rs_frozen st) = st.
Proof. by destruct st. Qed.
Lemma with_with st ps fz ps' fz' : with_partial (with_partial st ps fz) ps' fz' = with_partial st ps' fz'.
Proof. done. Qed.

(** ** Adding after a recovery, or to an empty tree *)
Lemma add_one_rec st M p k vh x r : rs_ver st = v -> rs_num st = 0%N ->
  Recd (rs_partial st) (rs_frozen st) (st_nodes (rs_store st)) M p ->
  nibs k = p ++ x :: r -> pcnt (p ++ [x]) M = 0 -> length k = 32 -> (forall l y, M !! l = Some y -> bytes_lt l k) ->
  exists ps fz, add_one sha st k vh = Ok (with_partial st ps fz) /\
    Pend ps fz (st_nodes (rs_store st)) (<[k := vh]> M) k p.
Proof.
  intros Hv Hnum HR Hn H0 Hlen Hmax. pose proof HR as [_ _ (cs & ps & Eps & HU & Hc) _ _].
  pose proof (Up_length _ _ _ _ _ HU) as HL.
  unfold add_one. rewrite Hn, (walk st M k vh p _ ps Eps HU p [] (x :: r)) by done. cbn [app add_loop].
  rewrite Eps, top_at by done. cbn [pi_children]. rewrite (Hc x), finfo_0 by done.
  unfold freeze, freeze_previous_leaf. rewrite Hnum. cbn [N.eqb rbind]. rewrite Eps.
  destruct ps as [|par ps]; cbn [freeze_internal length] in HL |- *; rewrite <-HL; rewrite Nat.leb_refl; cbn [rbind with_partial rs_partial];
    rewrite top_at by done; cbn [length Nat.sub]; rewrite ?Nat.sub_diag; cbn [alter list_alter];
    do 2 eexists; (split; [reflexivity|]); rewrite Eps in HR; by eapply add_at.
Qed.

(** ** Adding to the right of the last key *)
Lemma chain_ok M : forall mid vis rest ps, Up M ps vis ->
  (forall q i, vis `prefix_of` q -> q ++ [i] `prefix_of` vis ++ mid -> forall j, j <> i -> pcnt (q ++ [j]) M = 0) ->
  exists ps', chain v vis (mid ++ rest) (length mid) ps = Ok (ps', vis ++ mid) /\ Up M ps' (vis ++ mid) /\
    length ps' = length ps + length mid.
Proof.
  induction mid as [|x mid IH]; intros vis rest ps HU Hf; cbn [chain length app].
  - exists ps. rewrite app_nil_r. split; [reflexivity|]. split; [done|lia].
  - destruct (IH (vis ++ [x]) rest (set_child x (CInternal None None) (pinfo_empty (v, vis)) :: ps)) as (ps' & -> & HU' & HL).
    + constructor; [done| |by rewrite lookup_insert]. intros i Hi. rewrite lookup_insert_ne by done.
      cbn [pinfo_empty pi_children]. rewrite lookup_empty.
      symmetry. apply finfo_0. apply (Hf vis x); [done| |done]. exists mid. by rewrite <-app_assoc.
    + intros q i Hq Hqi. apply Hf; [etrans; [|exact Hq]; by eexists|]. by rewrite <-app_assoc in Hqi.
    + exists ps'. rewrite <-app_assoc in HU' |- *. split_and!; [done..|]. cbn [length] in HL. lia.
Qed.
Lemma insert_ok st M k k' vh' p j r' : rs_ver st = v -> rs_num st <> 0%N ->
  Pend (rs_partial st) (rs_frozen st) (st_nodes (rs_store st)) M k p ->
  pcnt (p ++ [j]) M = 1 -> p ++ [j] `prefix_of` nibs k ->
  nibs k' = p ++ j :: r' -> length k' = 32 -> bytes_lt k k' ->
  exists vh ps fz q, M !! k = Some vh /\ insert_at_leaf sha st j k vh k' vh' (p ++ [j]) r' = Ok (with_partial st ps fz) /\
    Pend ps fz (st_nodes (rs_store st)) (<[k' := vh']> M) k' q.
Proof.
  intros Hv Hnum [Hw (vh & Hk) Hg _ Hp (cs & ps & Eps & HU & Hc) Hf Hfz] H1 Hpjk Hn' Hlen' Hlt.
  set (sn := st_nodes (rs_store st)) in *.
  assert (length k = 32) as Hlen by by eapply Hw.
  destruct (nibs_diverge k k') as (q & a & b & r1 & s1 & Ek & Ek' & Hab); [done..|].
  assert (a <> b) as Hne by (intros ->; lia).
  assert (p ++ [j] `prefix_of` nibs k') as Hpjk' by (rewrite Hn'; exists r'; by rewrite <-app_assoc).
  assert (p ++ [j] `prefix_of` q) as Hpq.
  { eapply (diverge_prefix q (p ++ [j]) a b r1 s1); [done|by rewrite <-Ek|by rewrite <-Ek']. }
  assert (q `prefix_of` nibs k) as Hqk by (rewrite Ek; by eexists).
  assert (q `prefix_of` nibs k') as Hqk' by (rewrite Ek'; by eexists).
  assert (q ++ [a] `prefix_of` nibs k) as Hqak by (rewrite Ek; exists r1; by rewrite <-app_assoc).
  assert (q ++ [b] `prefix_of` nibs k') as Hqbk' by (rewrite Ek'; exists s1; by rewrite <-app_assoc).
  assert (M !! k' = None) as Hk'.
  { destruct (M !! k') as [y|] eqn:E; [|done]. exfalso. by eapply Hg. }
  assert (forall l y, M !! l = Some y -> p ++ [j] `prefix_of` nibs l -> l = k) as Honly.
  { intros l y Hl Hpl. by eapply (one_key M (p ++ [j])). }
  set (M' := <[k' := vh']> M).
  destruct Hpq as [mid Eq]. rewrite <-app_assoc in Eq. cbn [app] in Eq.
  assert (r' = mid ++ b :: s1) as Er.
  { rewrite Ek', Eq, <-app_assoc in Hn'. apply app_inv_head in Hn'. by injection Hn'. }
  pose proof (Up_length _ _ _ _ _ HU) as HLp.
  exists vh. unfold insert_at_leaf. rewrite Eps. cbn [set_last rbind].
  rewrite (common_nibbles k k' q a b r1 s1) by done. rewrite Er, Hv. cbn [length].
  replace (length q - Datatypes.S (length ps)) with (length mid).
  2:{ rewrite Eq, app_length. cbn [length]. lia. }
  assert (forall q0 i i', q0 ++ [i] `prefix_of` nibs k' -> i' <> i -> ~ q0 ++ [i'] `prefix_of` nibs k') as Hoff.
  { intros q0 i i' Hx Hi Hy. apply prefix_split in Hx as [z1 E1]. apply prefix_split in Hy as [z2 E2]. rewrite E1 in E2.
    apply app_inv_head in E2. congruence. }
  assert (Up M' (set_child j (CInternal None None) (PInfo (v, p) cs) :: ps) (p ++ [j])) as HU1.
  { constructor.
    - eapply Up_ext; [|exact HU]. intros q0 i Hq0 i' Hi. apply finfo_ext. symmetry. apply subm_out.
      apply (Hoff q0 i i'); [|done]. etrans; [exact Hq0|]. etrans; [|exact Hpjk']. by eexists.
    - intros i Hi. rewrite lookup_insert_ne by done. cbn [pi_children]. rewrite (Hc i). apply finfo_ext. symmetry. apply subm_out.
      by apply (Hoff p j).
    - by rewrite lookup_insert. }
  destruct (chain_ok M' mid (p ++ [j]) (b :: s1) _ HU1) as (ps2 & -> & HU2 & HL2).
  { intros q0 i Hq0 Hqi i' Hi. rewrite <-app_assoc in Hqi. cbn [app] in Hqi. rewrite <-Eq in Hqi.
    unfold M'. rewrite pcnt_out.
    - apply pcnt_none. intros l y Hl Hpl. assert (l = k) as ->.
      { eapply Honly; [done|]. etrans; [exact Hq0|]. etrans; [|exact Hpl]. by eexists. }
      apply Hi. assert (q0 ++ [i] `prefix_of` nibs k) as Hx by by etrans.
      apply prefix_split in Hx as [z1 E1]. apply prefix_split in Hpl as [z2 E2]. rewrite E1 in E2.
      apply app_inv_head in E2. congruence.
    - apply (Hoff q0 i i'); [|done]. by etrans. }
  rewrite <-app_assoc in HU2 |- *. cbn [app] in HU2 |- *. rewrite <-Eq in HU2 |- *. cbn [rbind].
  rewrite !get_nibble_lookup, Ek, Ek', !lookup_app_r, !Nat.sub_diag by lia. cbn [lookup list_lookup].
  unfold freeze, freeze_previous_leaf. cbn [rs_num rs_partial rs_frozen rs_ver with_partial]. rewrite (proj2 (N.eqb_neq _ _) Hnum).
  cbn [set_child pi_children pinfo_empty pi_key].
  rewrite (rightmost_is (<[a:=CLeaf k vh]> ∅) a (CLeaf k vh)); cycle 1.
  { by rewrite lookup_insert. }
  { intros i Hi. rewrite lookup_insert_ne, lookup_empty; [done|]. intros ->. lia. }
  rewrite lookup_insert. cbn [rbind]. unfold child_key. cbn [snd]. rewrite Hv.
  assert (forall keep P fz0, keep = Datatypes.S (length ps2) ->
    freeze_internal sha v keep P ps2 fz0 = Ok (P :: ps2, fz0)) as Hfi.
  { intros keep P fz0 ->. destruct ps2; cbn [freeze_internal length]; by rewrite Nat.leb_refl. }
  rewrite Hfi by done. cbn [rbind]. rewrite (proj2 (N.ltb_lt _ _) Hab). cbn [rs_partial with_partial set_last rbind rs_frozen].
  do 3 eexists. split; [done|]. split; [reflexivity|].
  assert (subm (path_bits (q ++ [a])) M' = {[k := vh]}) as Hsa.
  { unfold M'. rewrite subm_out.
    - apply psub_one; [|done..]. assert (0 < pcnt (q ++ [a]) M) by by eapply pcnt_key.
      assert (pcnt (q ++ [a]) M <= pcnt (p ++ [j]) M); [|lia]. apply pcnt_mono. rewrite Eq. exists (mid ++ [a]).
      rewrite <-!app_assoc. done.
    - by apply (Hoff q b a). }
  assert (forall i, i <> a -> pcnt (q ++ [i]) M = 0) as Hqi.
  { intros i Hi. apply pcnt_none. intros l y Hl Hpl. assert (l = k) as ->.
    { eapply Honly; [done|]. etrans; [|exact Hpl]. exists (mid ++ [i]). rewrite Eq, <-!app_assoc. done. }
    apply prefix_split in Hpl as [z E]. rewrite Ek in E. apply app_inv_head in E. congruence. }
  assert ((rs_frozen st ∪ sn) !! (v, q ++ [a]) = None) as Hnone.
  { rewrite (Hf (q ++ [a])), decide_False; [done|]. tauto. }
  split.
  - intros l y. unfold M'. destruct (decide (l = k')) as [->|Hnl]; [done|]. rewrite lookup_insert_ne by done. apply Hw.
  - exists vh'. unfold M'. by rewrite lookup_insert.
  - intros l y. unfold M'. destruct (decide (l = k')) as [->|Hnl]; [intros _; apply klt_irrefl|].
    rewrite lookup_insert_ne by done. intros Hl Hlt'. apply (Hg l y Hl). by eapply klt_trans.
  - exists b, s1. split; [done|]. unfold M'. rewrite pcnt_in, Hqi by done. done.
  - right. unfold M'. rewrite pcnt_in by done. assert (0 < pcnt q M) by by eapply pcnt_key. lia.
  - do 2 eexists. split; [reflexivity|]. split; [exact HU2|]. intros i.
    destruct (decide (i = b)) as [->|Hib].
    { rewrite lookup_insert. symmetry. apply finfo_1. apply psub_new; [done|]. by apply Hqi. }
    rewrite lookup_insert_ne by done. cbn [set_child pinfo_empty pi_children]. destruct (decide (i = a)) as [->|Hia].
    { rewrite lookup_insert. symmetry. by apply finfo_1. }
    rewrite lookup_insert_ne, lookup_empty by done. symmetry. apply finfo_0. unfold M'.
    rewrite pcnt_out; [by apply Hqi|]. by apply (Hoff q b i).
  - intros q1. rewrite <-insert_union_l.
    destruct (decide (q1 = q ++ [a])) as [->|Hq1].
    { rewrite lookup_insert, decide_True; [by rewrite (node_of_leaf _ _ _ _ _ _ Hsa)|]. split.
      - apply rlive_snoc. split; [|by left]. rewrite (cnt_single _ _ _ _ Hsa). lia.
      - by apply (Hoff q b a). }
    rewrite lookup_insert_ne by congruence. rewrite (Hf q1).
    destruct (decide (q1 `prefix_of` nibs k')) as [Hqk1|Hqk1].
    { rewrite !(decide_False (P := _ /\ _)); [done|tauto|]. intros [(q0 & i & -> & Hpos & Hq0)%rlive_inv Hno]. apply Hno.
      destruct (cnt_pos_inv (path_bits (q0 ++ [i])) M) as (l & y & Hl & Hpl); [lia|].
      rewrite key_bits_nibs, path_bits_prefix in Hpl.
      destruct (prefix_app_cases (q0 ++ [i]) (p ++ [j]) (nibs k')) as [Hx|Hx]; [done..|by etrans|].
      assert (l = k) as -> by (eapply Honly; [done|by etrans]). done. }
    assert (node_of M' q1 = node_of M q1) as Hno.
    { apply node_of_ext; [by apply subm_out|done]. }
    rewrite Hno. destruct (decide (q1 = [])) as [->|Hq1n]; [by destruct Hqk1; apply prefix_nil|].
    destruct (@exists_last _ q1 Hq1n) as (q0 & i & ->).
    assert (rlive p M (q0 ++ [i]) /\ ~ q0 ++ [i] `prefix_of` nibs k <->
            rlive q M' (q0 ++ [i]) /\ ~ q0 ++ [i] `prefix_of` nibs k') as Hiff.
    { rewrite !rlive_snoc. unfold M'. rewrite (pcnt_out M k' vh' (q0 ++ [i])) by done.
      destruct (decide (0 < pcnt (q0 ++ [i]) M)) as [Hpos|]; [|tauto].
      destruct (decide (q0 `prefix_of` nibs k')) as [Hq0|Hq0].
      - destruct (decide (q0 `prefix_of` p)) as [Hx|Hx].
        + assert (q0 `prefix_of` q) by (etrans; [exact Hx|]; rewrite Eq; by eexists).
          assert (~ q0 ++ [i] `prefix_of` nibs k); [|tauto]. intros Hik. apply Hqk1. etrans; [|exact Hpjk'].
          destruct (prefix_app_cases (q0 ++ [i]) (p ++ [j]) (nibs k)) as [Hz|Hz]; [done..|].
          apply prefix_length in Hx. rewrite <-(prefix_len_eq _ _ Hz); [done|]. rewrite !app_length. cbn [length]. lia.
        + exfalso. assert (p ++ [j] `prefix_of` q0) as Hpq0.
          { destruct (prefix_app_cases (p ++ [j]) q0 (nibs k')) as [Hz|Hz]; [done..|].
            apply prefix_snoc_or in Hz as [Hz| ->]; done. }
          destruct (cnt_pos_inv (path_bits (q0 ++ [i])) M) as (l & y & Hl & Hpl); [lia|].
          rewrite key_bits_nibs, path_bits_prefix in Hpl.
          assert (l = k) as -> by (eapply Honly; [done|]; etrans; [exact Hpq0|]; etrans; [|exact Hpl]; by eexists).
          destruct (prefix_app_cases (q0 ++ [i]) q (nibs k)) as [Hz|Hz]; [done..| |].
          { apply Hqk1. by etrans. }
          apply prefix_snoc_or in Hz as [Hz| ->]; [|done].
          apply Hq1. assert (q0 = q) as ->.
          { destruct (prefix_app_cases q0 q (nibs k)) as [Hw1|Hw1]; [etrans; [|exact Hpl]; by eexists|done| |].
            - by apply prefix_len_eq; [|apply prefix_length].
            - symmetry. destruct (decide (length q0 <= length q)) as [|Hlt']; [by apply prefix_len_eq|].
              exfalso. assert (q ++ [a] `prefix_of` q0) as Ha.
              { destruct (prefix_app_cases (q ++ [a]) q0 (nibs k)) as [?|Hy]; [done|etrans; [|exact Hpl]; by eexists|done|].
                rewrite (prefix_len_eq _ _ Hy); [done|]. rewrite app_length. cbn [length]. lia. }
              apply (Hoff q b a); [done..|]. by etrans. }
          f_equal. f_equal. apply prefix_split in Hpl as [z E]. rewrite Ek in E. apply app_inv_head in E. congruence.
      - assert (~ q0 `prefix_of` p) as Hq0p by (intros Hx; apply Hq0; etrans; [exact Hx|]; etrans; [|exact Hpjk']; by eexists).
        assert (~ q0 `prefix_of` q) as Hq0q by (intros Hx; apply Hq0; by etrans).
        rewrite pcnt_out by done.
        assert (2 <= pcnt q0 M -> ~ q0 ++ [i] `prefix_of` nibs k); [|tauto].
        intros H2 Hik. assert (p ++ [j] `prefix_of` q0) as Hx.
        { destruct (prefix_app_cases q0 (p ++ [j]) (nibs k)) as [Hx|Hx]; [etrans; [|exact Hik]; by eexists|done| |done].
          destruct Hq0. by etrans. }
        pose proof (pcnt_mono _ _ M Hx). lia. }
    case_decide as D1; case_decide as D2; tauto.
  - by apply ok_frozen_insert.
Qed.

Lemma add_one_pend st M p k k' vh' : rs_ver st = v -> rs_num st <> 0%N ->
  Pend (rs_partial st) (rs_frozen st) (st_nodes (rs_store st)) M k p -> length k' = 32 -> bytes_lt k k' ->
  exists ps fz p', add_one sha st k' vh' = Ok (with_partial st ps fz) /\
    Pend ps fz (st_nodes (rs_store st)) (<[k' := vh']> M) k' p'.
Proof.
  intros Hv Hnum HP Hlen' Hlt. pose proof HP as [Hw (vh & Hk) Hg (j & r & Hn & H1) Hp (cs & ps & Eps & HU & Hc) _ _].
  assert (length k = 32) as Hlen by by eapply Hw.
  pose proof (Up_length _ _ _ _ _ HU) as HLp.
  assert (p ++ [j] `prefix_of` nibs k) as Hpjk by (rewrite Hn; exists r; by rewrite <-app_assoc).
  destruct (nibs_diverge k k') as (q & a & b & r1 & s1 & Ek & Ek' & Hab); [done..|].
  assert (q ++ [a] `prefix_of` nibs k) as Hqak by (rewrite Ek; exists r1; by rewrite <-app_assoc).
  assert (forall l y, M !! l = Some y -> bytes_lt l k') as Hmax.
  { intros l y Hl. assert (length l = 32) as Hll by by eapply Hw.
    destruct (decide (l = k)) as [->|Hne]; [done|]. eapply klt_trans; [|exact Hlt].
    destruct (klt_total l k) as [?|[?|Hx]]; [done|done|]. by apply (Hg l y) in Hx. }
  destruct (decide (p ++ [j] `prefix_of` q)) as [Hpq|Hpq].
  - destruct Hpq as [mid Eq]. rewrite Eq, <-app_assoc in Ek'. rewrite <-app_assoc in Ek'. cbn [app] in Ek'.
    destruct (insert_ok st M k k' vh' p j (mid ++ b :: s1)) as (vh0 & ps' & fz' & q' & Hk0 & Hins & HP'); [done..|].
    exists ps', fz', q'. split; [|done].
    unfold add_one. rewrite Ek', (walk st M k' vh' p _ ps Eps HU p []) by done. cbn [app add_loop].
    rewrite Eps, top_at by done. cbn [pi_children]. rewrite (Hc j), (finfo_1 _ _ _ k vh0) by by apply psub_one.
    rewrite <-Hins. cbn [length]. by rewrite HLp, Nat.sub_succ, Nat.sub_0_r, Nat.eqb_refl.
  - assert (q `prefix_of` p) as Hqp.
    { destruct (prefix_app_cases q (p ++ [j]) (nibs k)) as [Hx|Hx]; [rewrite Ek; by eexists|done| |done].
      apply prefix_snoc_or in Hx as [?| ->]; done. }
    assert (pcnt (q ++ [b]) M = 0) as H0 by by eapply right_empty.
    pose proof (prefix_length _ _ Hqp) as Hql.
    assert (exists P, partial_at (rs_partial st) (length q) = Some P /\ pi_children P !! b = None) as (P & HPa & HPb).
    { rewrite Eps. destruct (decide (q = p)) as [->|Hqne].
      - rewrite top_at by done. eexists. split; [done|]. cbn [pi_children]. rewrite (Hc b). by apply finfo_0.
      - assert (q ++ [a] `prefix_of` p) as Hqa.
        { destruct (prefix_app_cases (q ++ [a]) p (nibs k)) as [?|Hx]; [done| |done|].
          - etrans; [|exact Hpjk]. by eexists.
          - apply prefix_snoc_or in Hx as [Hx| ->]; [|done]. destruct Hqne. apply prefix_len_eq; [done|]. by apply prefix_length. }
        destruct (Up_at sha v M ps p (PInfo (v, p) cs) (length q) q a) as (cs' & -> & Hcs & _); [done..|].
        eexists. split; [done|]. cbn [pi_children]. rewrite Hcs; [by apply finfo_0|]. intros ->. lia. }
    destruct (freeze_pend st M k p (Datatypes.S (length q))) as (ps' & fz' & Hfr & HR & _); [done..|lia| |].
    { intros Hl. destruct Hp as [->|?]; [cbn [length] in Hl; lia|done]. }
    specialize (HR ltac:(lia)). rewrite Nat.sub_succ, Nat.sub_0_r, <-(prefix_take_eq q p Hqp) in HR.
    pose proof HR as [_ _ (cs' & ps2 & -> & HU' & _) _ _]. pose proof (Up_length _ _ _ _ _ HU') as HL'.
    do 3 eexists. split; [|by eapply add_at].
    unfold add_one. rewrite Ek', (walk st M k' vh' p _ ps Eps HU q []) by done. cbn [app add_loop].
    rewrite HPa, HPb, Hfr. cbn [rbind rs_partial with_partial]. rewrite top_at by done. cbn [length].
    replace (Datatypes.S (length ps2) - 1 - length q) with 0 by lia. reflexivity.
Qed.
End Add.
