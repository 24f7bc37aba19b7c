(** The properties C85-C88: the byte form of keys, nodes, proofs and batches. *)
From Coq Require Import Sorting.Sorted.
From Verif Require Import Base KeccakModel Sha256Model JmtNibModel JmtNibProof JmtNibMoreProof JmtNibRangeProof JmtSpec JmtTraceSpec JmtModel JmtHashProof
  JmtAbsProof JmtCacheProof JmtInsertProof JmtPutProof JmtHistProof JmtRunSpec JmtValueProof JmtRunProof JmtReadProof
  JmtProofProof JmtMoreProof JmtPropProof PmtExamples JmtExamples JmtNibProps JmtProps JmtChildrenModel JmtBorshModel JmtBorshSpec JmtBorshProof.
Local Open Scope N_scope.

(** * C85: what was written is read back, and nothing else is accepted. *)
Definition exact_form {A} (P : A -> Prop) (e : A -> bytes) (d : dec A) : Prop :=
  (forall x, P x -> whole d (e x) = Some x) /\
  (forall bs x, whole d bs = Some x -> P x /\ bs = e x) /\
  (forall x y r r', P x -> P y -> e x ++ r = e y ++ r' -> x = y /\ r = r').
Lemma codec_exact {A} P (e : A -> bytes) d : codec P e d -> exact_form P e d.
Proof.
  intros [H1 H2]. split_and!.
  - intros x Hx. unfold whole. rewrite <-(app_nil_r (e x)), H1 by done. done.
  - intros bs x H. unfold whole in H. destruct (d bs) as [[x' [|b r]]|] eqn:E; [|discriminate H..]. injection H as ->.
    apply H2 in E. by rewrite app_nil_r in E.
  - intros x y r r' Hx Hy E. pose proof (H1 x r Hx) as E1. rewrite E, (H1 y r' Hy) in E1. by injection E1 as -> ->.
Qed.
Theorem C85_borsh_exact :
  exact_form fits_key enc_key dec_key /\ exact_form fits_node enc_node dec_node /\
  exact_form fits_proof enc_proof dec_proof /\ exact_form fits_range enc_range dec_range /\
  exact_form fits_stale enc_stale dec_stale /\ exact_form fits_stats enc_stats dec_stats /\
  (forall b, fits_batch b -> whole dec_batch (enc_batch b) = Some b) /\
  (forall bs b, whole dec_batch bs = Some b -> fits_batch b).
Proof.
  split; [apply codec_exact, codec_key|]. split; [apply codec_exact, codec_node|]. split; [apply codec_exact, codec_proof|].
  split; [apply codec_exact, codec_range|]. split; [apply codec_exact, codec_stale|]. split; [apply codec_exact, codec_stats|]. split.
  - intros b Hb. unfold whole. rewrite <-(app_nil_r (enc_batch b)), batch_reads by done. done.
  - intros bs b H. unfold whole in H. destruct (dec_batch bs) as [[b' r]|] eqn:E; [|discriminate H].
    apply batch_accepts in E. destruct r; [|discriminate H]. by injection H as <-.
Qed.
(** A batch with a root of two children, a leaf, a value, a deletion, a stale
    root and its statistics. *)
Definition bx_h : bytes := replicate 32 x11.
Definition bx_slots : list (option child) :=
  Some (Child bx_h 3 TLeaf) :: replicate 8 None ++ Some (Child bx_h 7 (TInternal 258)) :: replicate 6 None.
Definition bx_root : bnode := BInternal (BInode (Carr bx_slots 2) (Some 259) true).
Definition bx_batch : bbatch :=
  BBatch [((7, NPath 0 []), bx_root); ((7, NPath 3 [x12; xa0]), BLeaf bx_h bx_h)]
    [((7, bx_h), Some [x61; x62]); ((7, replicate 32 x12), None)]
    [((7, (5, NPath 0 [])), tt); ((7, (5, NPath 1 [x30])), tt)] [Stats 2 1 2 0].
Lemma sorted2 {A} (lt : A -> A -> Prop) a b : lt a b -> StronglySorted lt [a; b].
Proof. intros H. constructor; [|by constructor]. constructor; constructor. Qed.
Example C85_example : fits_batch bx_batch /\ fits_node bx_root /\ fits_key (7, NPath 3 [x12; xa0]) /\ fits_stale (7, (5, NPath 1 [x30])) /\
  enc_key (7, NPath 3 [x12; xa0]) = [x07; x00; x00; x00; x00; x00; x00; x00; x03; x00; x00; x00; x00; x00; x00; x00; x02; x00; x00; x00; x12; xa0] /\
  length (enc_node bx_root) = 125%nat /\ length (enc_batch bx_batch) = 425%nat /\ whole dec_batch (enc_batch bx_batch) = Some bx_batch /\
  whole dec_batch (enc_batch bx_batch ++ [x00]) = None.
Proof.
  assert (fits_node bx_root) as Hn.
  { unfold fits_node, bx_root, fits_inode, fits_children, u64, opt. cbn [bi_children bi_count ca_slots ca_num]. split_and!; try done.
    unfold bx_slots. cbn [replicate app]. repeat (constructor; [done || (repeat split; done)|]). constructor. }
  split_and!; try done.
  unfold fits_batch, bx_batch. cbn [bb_nodes bb_values bb_stale bb_stats]. split_and!; try done.
  - apply sorted2. right. split; [done|]. left. cbn. lia.
  - constructor; [split; [done|exact Hn]|]. constructor; [repeat split; done|]. constructor.
  - apply sorted2. right. split; [done|]. left. vm_compute. reflexivity.
  - repeat (constructor; [repeat split; done|]). constructor.
  - apply sorted2. right. split; [done|]. right. split; [done|]. left. cbn. lia.
  - repeat (constructor; [repeat split; done|]). constructor.
  - repeat (constructor; [repeat split; done|]). constructor.
Qed.
Print Assumptions C85_borsh_exact.

(** * C86: the nodes of a tree can be kept in a database of bytes. *)

(** The nodes of every store reached by an execution have a byte form: hashes
    of 32 bytes and fewer than 2^64 keys are all that is needed. *)
Definition fits_abs (nk : nkey) (nd : node) : Prop :=
  u64 (fst nk) /\ (length (snd nk) <= 64)%nat /\
  match nd with
  | NNull => True
  | NLeaf k vh => hash32 k /\ hash32 vh
  | NInternal n => (forall i c, in_children n !! i = Some c -> fits_child c) /\ opt u64 (in_count n)
  end.
Theorem C86_stored_nodes_fit sha hv ops s w q nd : reached sha hv ops s ->
  (forall x, length (sha x) = 32%nat) -> (forall x, length (hv x) = 32%nat) ->
  (forall u, N.of_nat (size (contents_at (history ops) u)) < 2 ^ 64) ->
  st_nodes s !! (w, q) = Some nd -> q <> [] \/ low ops <= w -> fits_abs (w, q) nd.
Proof.
  intros HR Hsha Hhv Hsz Hn Hq. pose proof (reached_inv _ _ _ _ HR) as HS. destruct (si_hist _ _ _ _ _ HS) as [vs HI].
  set (M := cs_of hv (history ops)) in *. pose proof (si_max _ _ _ _ _ HS) as Hmax. set (n := N.of_nat (length (history ops))) in *.
  pose proof (hi_fresh _ _ _ _ _ _ _ _ HI _ _ Hn) as Hw. cbn [fst] in Hw. unfold u64_max in Hmax.
  assert (exists u, low ops <= u < n /\ nd = node_of sha (M u) (vs u) q /\ (q = [] \/ live [] (M u) q)) as (u & Hu & -> & Hl).
  { destruct (decide (q = [])) as [->|Hne].
    - destruct Hq as [Hq|Hq]; [done|]. exists w. split; [lia|]. split; [|by left].
      pose proof (h_root _ _ _ _ _ (hi_holds _ _ _ _ _ _ _ _ HI w ltac:(lia))) as E. congruence.
    - assert (exists u, low ops <= u < n /\ live_at M vs u (w, q)) as (u & Hu & (_ & Hl & Ev)).
      { destruct (hi_comp _ _ _ _ _ _ _ _ HI _ _ Hn Hne) as [[H0 H]|[t Ht]].
        - exists (n - 1). split; [|done]. pose proof (si_lo _ _ _ _ _ HS). lia.
        - pose proof (hi_lo _ _ _ _ _ _ _ _ HI _ _ Ht) as H1. pose proof (hi_rec _ _ _ _ _ _ _ _ HI _ _ Ht) as (_ & H2 & _).
          exists (t - 1). split; [lia|]. by eapply hi_was. }
      cbn [fst snd] in *. exists u. split; [done|]. split; [|by right].
      pose proof (h_live _ _ _ _ _ (hi_holds _ _ _ _ _ _ _ _ HI u Hu) q Hne Hl) as E. rewrite Ev in E. congruence. }
  pose proof (hi_holds _ _ _ _ _ _ _ _ HI u Hu) as HH. pose proof (h_wf _ _ _ _ _ HH) as Hwf.
  assert (forall p, N.of_nat (cnt (path_bits p) (M u)) < 2 ^ 64) as Hc.
  { intros p. pose proof (pcnt_mono [] p (M u) (prefix_nil _)) as H1. rewrite pcnt_nil in H1.
    assert (size (M u) = size (contents_at (history ops) u)) as H2 by (unfold M, cs_of, hvm; apply map_size_fmap).
    pose proof (Hsz u). lia. }
  unfold fits_abs. cbn [fst snd]. split; [unfold u64; lia|]. split.
  { destruct Hl as [->|(_ & Hp & [->|H2])]; [cbn; lia..|]. apply pcnt_short in H2; [|done].
    destruct q as [|j q _] using rev_ind; [cbn; lia|]. rewrite removelast_last in H2. rewrite app_length. cbn [length]. lia. }
  destruct (decide (cnt (path_bits q) (M u) = 0)%nat) as [H0|H0]; [by rewrite node_of_null|].
  destruct (decide (2 <= cnt (path_bits q) (M u))%nat) as [H2|H2].
  - rewrite node_of_internal by done. cbn [in_children in_count opt]. split; [|apply Hc]. intros i c Hi.
    rewrite children_of_lookup in Hi. destruct (decide _) as [|Hz]; [done|]. injection Hi as <-. unfold fits_child, child_of. cbn [c_hash c_ver c_type].
    split; [by apply hashP_length|]. split.
    + assert (live [] (M u) (q ++ [i])) as Hli.
      { split; [apply prefix_nil|]. split; [lia|right]. by rewrite removelast_last. }
      assert (q ++ [i] <> []) as Hne by by destruct q.
      pose proof (h_le _ _ _ _ _ HH _ Hne Hli). unfold u64. lia.
    + destruct (decide _); [done|]. apply Hc.
  - destruct (cnt_1 (path_bits q) (M u)) as (k & x & Ek); [lia|]. rewrite (node_of_leaf sha _ _ _ _ _ Ek).
    assert (M u !! k = Some x) as Hk.
    { assert (subm (path_bits q) (M u) !! k = Some x) as H by (rewrite Ek; apply lookup_singleton). by apply subm_Some in H as [? _]. }
    split; [by eapply Hwf|]. unfold M, cs_of, hvm in Hk. apply lookup_fmap_Some in Hk as (y & <- & _). apply Hhv.
Qed.
(** A byte database filled with the byte forms is read back exactly: a key not
    stored is not found, a stored one gives the node, and there is nothing else
    in it. *)
Definition key_form (nk : nkey) (b : bytes) : Prop := exists p, np_collect (snd nk) = Ok p /\ b = enc_key (fst nk, p).
Theorem C86_byte_database (m : gmap nkey node) : (forall nk nd, m !! nk = Some nd -> fits_abs nk nd) ->
  exists db : gmap bytes bytes,
    (forall nk, u64 (fst nk) -> (length (snd nk) <= 64)%nat ->
      exists kb, key_form nk kb /\
        match m !! nk with
        | None => db !! kb = None
        | Some nd => exists b bn, db !! kb = Some b /\ whole dec_node b = Some bn /\ shown nd bn
        end) /\
    (forall kb b, db !! kb = Some b -> exists nk nd, key_form nk kb /\ m !! nk = Some nd).
Proof.
  intros Hm.
  set (kp := fun nk : nkey => (fst nk, NPath (length (snd nk)) (pack (snd nk)))).
  set (kb := fun nk => enc_key (kp nk)).
  set (bn := fun nd => match nd with
    | NNull => BNull | NLeaf k vh => BLeaf k vh
    | NInternal n => BInternal (BInode (Carr (map (fun i => in_children n !! i) all_nibs) (size (in_children n))) (in_count n) true) end).
  assert (forall nk : nkey, (length (snd nk) <= 64)%nat -> np_collect (snd nk) = Ok (snd (kp nk))) as Hcol.
  { intros nk H. rewrite np_collect_ok, (proj2 (Nat.leb_le _ _) H). done. }
  assert (forall nk : nkey, u64 (fst nk) -> (length (snd nk) <= 64)%nat -> fits_key (kp nk)) as Hkp.
  { intros nk H1 H2. split; [done|]. unfold fits_path, kp, u64, short. cbn [snd np_num np_bytes]. rewrite pack_len.
    assert ((length (snd nk) + 1) / 2 < 33)%nat by (apply Nat.div_lt_upper_bound; lia). split; lia. }
  assert (forall a b : nkey, u64 (fst a) -> u64 (fst b) -> (length (snd a) <= 64)%nat -> (length (snd b) <= 64)%nat -> kb a = kb b -> a = b) as Hinj.
  { intros [v p] [v' p'] H1 H2 H3 H4 E. unfold kb in E.
    destruct (codec_exact _ _ _ codec_key) as (_ & _ & Hi). destruct (Hi (kp (v, p)) (kp (v', p')) [] []) as [E2 _]; [by apply Hkp..|by rewrite !app_nil_r|].
    injection E2 as -> El Ep. f_equal. cbn [snd] in *.
    pose proof (Hcol (v', p) H3) as C1. pose proof (Hcol (v', p') H4) as C2. unfold kp in C1, C2. cbn [fst snd] in C1, C2. rewrite El, Ep in C1.
    destruct (C45_path_is_list _ _ (built_collect _ _ C1)) as (_ & _ & E1 & _). destruct (C45_path_is_list _ _ (built_collect _ _ C2)) as (_ & _ & E3 & _).
    rewrite E1 in E3. by injection E3. }
  assert (forall nk nd, fits_abs nk nd -> fits_node (bn nd) /\ shown nd (bn nd)) as Hbn.
  { intros nk nd (_ & _ & H). destruct nd as [|k vh|n]; [done| |].
    - split; [exact H|done].
    - destruct H as [Hc Ho]. assert (size (in_children n) <= 16)%nat as Hs.
      { rewrite <-size_dom. transitivity (size (list_to_set all_nibs : gset nib)).
        - apply subseteq_size. intros i _. apply elem_of_list_to_set, all_nibs_in.
        - rewrite size_list_to_set; [done|]. apply all_nibs_NoDup. }
      split.
      + unfold bn, fits_node, fits_inode, fits_children. cbn [bi_children bi_count ca_slots ca_num].
        split; [|exact Ho]. split; [by rewrite map_length|]. split; [|unfold u64; lia]. apply Forall_forall. intros o Ho'. apply elem_of_list_fmap in Ho' as (i & -> & _).
        destruct (in_children n !! i) eqn:E; [|done]. by eapply Hc.
      + unfold bn, shown. cbn [bi_children ca_slots ca_num bi_count bi_migration]. split; [by rewrite map_length|]. split; [|done].
        intros i. change (map ?g all_nibs) with (g <$> all_nibs). by rewrite list_lookup_fmap, all_nibs_lookup. }
  assert (NoDup ((map (fun x : nkey * node => (kb (fst x), enc_node (bn (snd x)))) (map_to_list m)).*1)) as Hnd.
  { rewrite <-list_fmap_compose. apply NoDup_fmap_2_strong; [|apply NoDup_map_to_list].
    intros [a x] [b y] Ha Hb E. cbn in E. apply elem_of_map_to_list in Ha, Hb.
    destruct (Hm _ _ Ha) as (A1 & A2 & _), (Hm _ _ Hb) as (B1 & B2 & _). apply Hinj in E; [|done..]. congruence. }
  exists (list_to_map (map (fun x : nkey * node => (kb (fst x), enc_node (bn (snd x)))) (map_to_list m))). split.
  - intros nk H1 H2. exists (kb nk). split; [exists (snd (kp nk)); split; [by apply Hcol|done]|].
    destruct (m !! nk) as [nd|] eqn:E.
    + destruct (Hbn _ _ (Hm _ _ E)) as [Hf Hsh]. exists (enc_node (bn nd)), (bn nd). split_and!; [| |done].
      * apply elem_of_list_to_map; [exact Hnd|]. apply elem_of_list_fmap. exists (nk, nd). split; [done|]. by apply elem_of_map_to_list.
      * by apply (codec_exact _ _ _ codec_node).
    + apply not_elem_of_list_to_map_1. rewrite <-list_fmap_compose. intros H. apply elem_of_list_fmap in H as ([a x] & E1 & Ha). cbn in E1.
      apply elem_of_map_to_list in Ha. destruct (Hm _ _ Ha) as (A1 & A2 & _). apply Hinj in E1; [|done..]. congruence.
  - intros k b H. apply elem_of_list_to_map in H; [|exact Hnd]. apply elem_of_list_fmap in H as ([a x] & E1 & Ha). injection E1 as -> ->.
    apply elem_of_map_to_list in Ha. exists a, x. split; [|done]. destruct (Hm _ _ Ha) as (A1 & A2 & _). exists (snd (kp a)). split; [by apply Hcol|done].
Qed.
Theorem C86_shown_exact n n' b b' : shown n b -> shown n' b' -> n = n' <-> b = b'.
Proof.
  assert (forall l l' : list (option child), length l = 16%nat -> length l' = 16%nat ->
    (forall i, l !! N.to_nat (nib_val i) = l' !! N.to_nat (nib_val i)) -> l = l') as Hl.
  { intros l l' L1 L2 H. apply list_eq. intros j. destruct (decide (j < 16)%nat) as [Hj|Hj].
    - destruct (lookup_lt_is_Some_2 all_nibs j) as [i Hi]; [exact Hj|]. rewrite (all_nibs_index _ _ Hi). apply H.
    - rewrite !lookup_ge_None_2 by lia. done. }
  destruct n as [|k vh|[m c]], n' as [|k' vh'|[m' c']], b as [|[[sl num] cnt mig]|bk bv], b' as [|[[sl' num'] cnt' mig']|bk' bv']; cbn; try done.
  - intros [-> ->] [-> ->]. split; by intros [= -> ->].
  - intros (L1 & H1 & -> & -> & ->) (L2 & H2 & -> & -> & ->). split.
    + intros [= -> ->]. do 3 f_equal. apply Hl; [done..|]. intros i. by rewrite H1, H2.
    + intros [= -> _ ->]. do 2 f_equal. apply map_eq. intros i. specialize (H1 i). rewrite H2 in H1. by injection H1.
Qed.
Example C86_example : reached sha256 sha256 ex_ops ex_store /\ (forall x, length (sha256 x) = 32%nat) /\
  (forall u, N.of_nat (size (contents_at (history ex_ops) u)) < 2 ^ 64) /\ size (st_nodes ex_store) <> 0%nat.
Proof. split; [exact ex_reached|]. split; [exact sha256_length|]. split; [|vm_compute; done].
  intros u. unfold contents_at. assert (exists j, (j <= 6)%nat /\ take (S (N.to_nat u)) (history ex_ops) = take j (history ex_ops)) as (j & Hj & ->).
  { destruct (decide (S (N.to_nat u) <= 6)%nat) as [H|H]; [by exists (S (N.to_nat u))|]. exists 6%nat. split; [done|].
    assert (length (history ex_ops) <= 6)%nat by (apply Nat.leb_le; vm_compute; reflexivity). rewrite !take_ge by lia. done. }
  do 7 (destruct j as [|j]; [vm_compute; reflexivity|]). lia.
Qed.
Print Assumptions C86_stored_nodes_fit.
Print Assumptions C86_byte_database.
Print Assumptions C86_shown_exact.

(** * C87: reading checks lengths only, not the invariants of the types.
    The property would be: a key read from bytes is the key of a path (equal
    nibbles, equal keys; taking its nibbles does not panic); a node read has as
    many children as its counter says; and a batch has one byte form. *)
Theorem C87_read_keys_refuted : exists bs bs' v p p' l, whole dec_key bs = Some (v, p) /\ whole dec_key bs' = Some (v, p') /\
  np_nibbles p = Ok l /\ np_nibbles p' = Ok l /\ bs <> bs' /\ p <> p' /\ np_collect l = Ok p.
Proof.
  exists (enc_key (1, NPath 1 [x10])), (enc_key (1, NPath 1 [x12])), 1, (NPath 1 [x10]), (NPath 1 [x12]), [Nib false false false true].
  split_and!; [vm_compute; reflexivity..| | |vm_compute; reflexivity]; [|done]. vm_compute. intros [=].
Qed.
Theorem C87_read_path_panics_refuted : exists bs v p, whole dec_key bs = Some (v, p) /\ np_nibbles p = Panic.
Proof. exists (enc_key (1, NPath 3 [])), 1, (NPath 3 []). split; vm_compute; reflexivity. Qed.
Theorem C87_read_counter_refuted : exists bs n, whole dec_node bs = Some (BInternal n) /\
  ca_is_empty (bi_children n) = true /\ ca_values (bi_children n) <> [] /\ ca_inode_new (bi_children n) = Panic.
Proof.
  exists (enc_node (BInternal (BInode (Carr bx_slots 0) (Some 259) true))), (BInode (Carr bx_slots 0) (Some 259) true).
  split_and!; [vm_compute; reflexivity..|done|vm_compute; reflexivity].
Qed.
(** Entries out of order, and a key twice: the last entry wins. *)
Theorem C87_batch_forms_refuted : exists bs bs' bs'' b, bs <> bs' /\ bs <> bs'' /\ bs' <> bs'' /\
  whole dec_batch bs = Some b /\ whole dec_batch bs' = Some b /\ whole dec_batch bs'' = Some b /\ bs = enc_batch b.
Proof.
  set (e1 := ((7, bx_h), Some [x61]) : N * bytes * option bytes). set (e2 := ((7, replicate 32 x12), None) : N * bytes * option bytes).
  exists (enc_batch (BBatch [] [e1; e2] [] [])), (enc_batch (BBatch [] [e2; e1] [] [])), (enc_batch (BBatch [] [((7, bx_h), None); e2; e1] [] [])), (BBatch [] [e1; e2] [] []).
  split_and!; [vm_compute; intros [=]..|vm_compute; reflexivity|vm_compute; reflexivity|vm_compute; reflexivity|reflexivity].
Qed.
Print Assumptions C87_read_keys_refuted.
Print Assumptions C87_read_path_panics_refuted.
Print Assumptions C87_read_counter_refuted.
Print Assumptions C87_batch_forms_refuted.

(** * C88: a verifier of bytes.  It reads a proof and checks it; whatever the
    bytes, it does not panic, it says yes only to what is so, and no two byte
    strings are the same proof. *)
Definition verify_bytes (sha hv : bytes -> bytes) (bs root k : bytes) (x : option bytes) : option (res jerr unit) :=
  (fun p => verify sha hv p root k x) <$> whole dec_proof bs.
Theorem C88_bytes_total sha hv bs root k x : verify_bytes sha hv bs root k x <> Some Panic /\
  verify_bytes sha hv bs root k x <> Some OutOfFuel.
Proof.
  unfold verify_bytes. destruct (whole dec_proof bs) as [p|]; [|by split]. cbn [fmap option_fmap option_map].
  destruct (proj1 (C53_verify_total sha hv p root k x)) as [->|[e ->]]; by split.
Qed.
Theorem C88_bytes_sound sha hv m bs k x : (forall k x, m !! k = Some x -> length k = 32%nat) -> length k = 32%nat ->
  (forall p, whole dec_proof bs = Some p -> good_hash sha (proof_inputs sha (p_leaf p) (p_siblings p) k ++ tree_inputs sha hv m)) ->
  verify_bytes sha hv bs (smt_root sha hv m) k x = Some (Ok tt) ->
  match x with Some x => exists y, m !! k = Some y /\ hv y = hv x | None => m !! k = None end.
Proof.
  intros Hm Hk Hg H. unfold verify_bytes in H. apply fmap_Some in H as (p & E & H). symmetry in H.
  destruct (codec_exact _ _ _ codec_proof) as (_ & He & _). destruct (He _ _ E) as [(Hl & _ & Hs) _].
  assert (wf_proof p) as Hp.
  { split; [exact Hs|]. destruct (p_leaf p) as [[lk lv]|]; [by destruct Hl|done]. }
  destruct x as [x|];
    [exact (C31_inclusion_sound sha hv m p k x Hm Hk Hp (Hg p E) H)|exact (C32_noninclusion_sound sha hv m p k Hm Hk Hp (Hg p E) H)].
Qed.
Lemma bpath_fits sha M : (forall x, length (sha x) = 32%nat) -> wfm M -> (forall k vh, M !! k = Some vh -> length vh = 32%nat) ->
  forall rest B, opt (fun l => hash32 (fst l) /\ hash32 (snd l)) (fst (bpath sha M B rest)) /\ Forall hash32 (snd (bpath sha M B rest)).
Proof.
  intros Hsha Hw Hv. induction rest as [|b rest IH]; intros B.
  all: destruct (decide (cnt B M = 0)%nat) as [H0|H0]; [rewrite bpath_0 by done; split; [done|constructor]|].
  all: destruct (decide (cnt B M = 1)%nat) as [H1|H1].
  1,3: destruct (cnt_1 B M H1) as (k & x & Ek); rewrite (bpath_1 sha _ _ _ _ _ Ek); (split; [|constructor]);
    (assert (M !! k = Some x) as Hk by (assert (subm B M !! k = Some x) as H by (rewrite Ek; apply lookup_singleton); by apply subm_Some in H as [? _]));
    (split; [by eapply Hw|by eapply Hv]).
  - cbn [bpath]. unfold cnt in *. change (size (subm B M)) with (length (map_to_list (subm B M))) in *.
    destruct (map_to_list (subm B M)) as [|? [|]]; cbn [length] in *; [lia..|]. split; [done|constructor].
  - rewrite bpath_2 by lia. destruct (IH (B ++ [b])) as [I1 I2]. destruct (bpath sha M (B ++ [b]) rest) as [l s]. cbn [fst snd] in *.
    split; [done|]. constructor; [by apply hashP_length|done].
Qed.
Theorem C88_bytes_complete sha hv ops s v k : reached sha hv ops s -> low ops <= v < versions ops -> length k = 32%nat ->
  (forall x, length (sha x) = 32%nat) -> (forall x, length (hv x) = 32%nat) ->
  exists p r bs, get_with_proof sha s k v = Ok (value_at k (history ops) v, p) /\ get_root_hash sha s v = Ok r /\
    bs = enc_proof p /\ verify_bytes sha hv bs r k (value_at k (history ops) v) = Some (Ok tt) /\
    forall bs', whole dec_proof bs' = Some p -> bs' = bs.
Proof.
  intros HR Hv Hk Hsha Hhv. pose proof (reached_inv _ _ _ _ HR) as HS. set (m := contents_at (history ops) v).
  assert (forall k x, m !! k = Some x -> length k = 32%nat) as Hm.
  { intros k' x'. apply contents_wf. apply (si_wf _ _ _ _ _ HS). }
  exists (made_proof sha hv k m), (smt_root sha hv m), (enc_proof (made_proof sha hv k m)).
  split; [rewrite (read_ok sha hv s _ _ k v HS Hv Hk), contents_value; done|]. split; [apply (root_ok sha hv s _ _ v HS Hv)|]. split; [done|].
  destruct (codec_exact _ _ _ codec_proof) as (H1 & H2 & _). split; [|intros bs' H'; by apply H2 in H' as [_ ?]].
  unfold verify_bytes. rewrite H1; [cbn [fmap option_fmap option_map]; f_equal; rewrite <-contents_value; by apply made_proof_verifies|].
  pose proof (wfm_hvm hv m Hm) as Hw.
  destruct (bpath_fits sha (hvm hv m) Hsha Hw) with (rest := key_bits k) (B := @nil bool) as [Hf1 Hf2].
  { intros k' vh Hk'. unfold hvm in Hk'. apply lookup_fmap_Some in Hk' as (y & <- & _). apply Hhv. }
  pose proof (bpath_len sha (hvm hv m) [] (key_bits k)) as Hlen. rewrite key_bits_length, Hk in Hlen.
  unfold fits_proof, made_proof, proof_of. destruct (bpath _ _ _ _) as [l sb]. cbn [fst snd p_leaf p_siblings] in *.
  split; [exact Hf1|]. split; [unfold short; rewrite rev_length; lia|]. by apply Forall_rev.
Qed.
(** The sixteen-sibling proof of the example store, 581 bytes; it is refused with
    the last byte cut off, and with a byte of a hash changed. *)
Definition bx_bytes : bytes := enc_proof (ex_proof ka).
Example C88_example : reached sha256 sha256 ex_ops ex_store /\ whole dec_proof bx_bytes = Some (ex_proof ka) /\
  good_hash sha256 (proof_inputs sha256 (p_leaf (ex_proof ka)) (p_siblings (ex_proof ka)) ka ++ tree_inputs sha256 sha256 ex_m) /\
  length bx_bytes = 581%nat /\
  verify_bytes sha256 sha256 bx_bytes (smt_root sha256 sha256 ex_m) ka (Some vb) = Some (Ok tt) /\
  verify_bytes sha256 sha256 (removelast bx_bytes) (smt_root sha256 sha256 ex_m) ka (Some vb) = None /\
  verify_bytes sha256 sha256 (removelast bx_bytes ++ [x00]) (smt_root sha256 sha256 ex_m) ka (Some vb) = Some (Err RootMismatch).
Proof.
  split; [exact ex_reached|]. split; [vm_compute; reflexivity|]. split; [exact (proj1 (proj2 C31_example))|].
  split_and!; vm_compute; reflexivity.
Qed.
Print Assumptions C88_bytes_total.
Print Assumptions C88_bytes_sound.
Print Assumptions C88_bytes_complete.
