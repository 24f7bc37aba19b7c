(** Range proofs and the restoration of a tree (C35, C50, C51, C52, C61).
    What has been received is defined in JmtRestoreSpec.v, executions in
    JmtRestoreRunSpec.v. *)
From Coq Require Import Sorting.Sorted.
From Verif Require Import Base KeccakModel Sha256Model JmtNibModel JmtNibProof JmtSpec JmtTraceSpec JmtNibSpec JmtModel JmtHashProof
  JmtAbsProof JmtCacheProof JmtInsertProof JmtPutProof JmtHistProof JmtRunSpec JmtValueProof JmtRunProof JmtReadProof JmtProofProof
  JmtPropProof JmtOrderProof JmtIterModel JmtIterSpec PmtExamples JmtExamples JmtProps JmtRestoreModel JmtRestoreSpec
  JmtRestoreVerifyProof JmtRestoreRunSpec JmtRestoreRunProof JmtRestoreFinishProof JmtRestorePropProof.
Local Open Scope N_scope.

Lemma contents_32 sha hv ops s u k y : reached sha hv ops s -> contents_at (history ops) u !! k = Some y -> length k = 32%nat.
Proof. intros HR. apply contents_wf. apply (si_wf _ _ _ _ _ (reached_inv _ _ _ _ HR)). Qed.

(** A hash function that is cheap to evaluate, for the examples; the real one
    is used in JmtExamples.v and JmtProps.v. *)
Definition mix (x : bytes) : bytes :=
  le_bytes 8 (fold_left (fun a b => N.land (a * 1099 + Byte.to_N b) 0xFFFFFFFFFFFF) x 7) ++ replicate 24 x01.
Lemma mix_length x : length (mix x) = 32%nat.
Proof. reflexivity. Qed.
Lemma good_mixb (l : list bytes) :
  inj_onb mix l && forallb (fun x => negb (bool_decide (mix x = spec_empty_hash))) l = true -> good_hash mix l.
Proof.
  intros [H1 H2]%andb_true_iff. split; [apply mix_length|]. split; [by apply inj_onb_spec|].
  apply Forall_forall. intros x Hx%elem_of_list_In. rewrite forallb_forall in H2. specialize (H2 x Hx).
  by apply negb_true_iff, bool_decide_eq_false in H2.
Qed.
Definition rx_store : store := match run mix mix ex_ops with Ok s => s | _ => empty_store end.
Lemma rx_reached : reached mix mix ex_ops rx_store.
Proof.
  split; [exact ex_wf|].
  assert (H : (match run mix mix ex_ops with Ok _ => true | _ => false end) = true) by (vm_compute; reflexivity).
  unfold rx_store. revert H. destruct (run mix mix ex_ops); [reflexivity|discriminate..].
Qed.
Lemma fresh_empty v : fresh empty_store v.
Proof. by split. Qed.

(** * C35: honest range proofs are accepted.  [m] is the contents of version
    [u] of the source, [l] what the verifier has received before, whether the
    calls were accepted or not; after the chunk [c] it has exactly the pairs of
    [m] with keys up to [k]. *)
Theorem C35_range_proofs_verify sha hv ops s u k x root : reached sha hv ops s -> low ops <= u < versions ops ->
  let m := contents_at (history ops) u in
  m !! k = Some x -> get_root_hash sha s u = Ok root ->
  Forall (fun i => sha i <> spec_empty_hash) (tree_inputs sha hv m) ->
  exists sibs, get_range_proof sha s k u = Ok sibs /\
    forall t v cs st c l, fresh t v -> Forall (fun c : sent => wf_chunk (fst c)) cs ->
      feed sha hv (new_overwrite t v root) cs = Some st -> received (map fst cs) l ->
      wf_chunk c -> c <> [] -> increasing_part (last_key l) c c ->
      (forall k' y, (k', y) ∈ l ++ c <-> m !! k' = Some y /\ key_le k' k) ->
      exists st', add_chunk sha hv st c sibs = RDone st' None.
Proof.
  intros HR Hu m Hk Hroot Hn. pose proof (reached_inv _ _ _ _ HR) as HS.
  rewrite (root_ok sha hv s _ _ u HS Hu) in Hroot. injection Hroot as <-. fold m.
  eexists. split; [apply (range_proof_ok sha hv ops s u k x HR Hu); [by eapply contents_32|exact Hk]|]. fold m.
  intros t v cs st c l Hf Hcs E Hl Hc Hne Hi Hiff.
  destruct (feed_start sha hv t v _ Hf cs l st Hcs E Hl) as (Wr & Pd & H & El). subst l.
  destruct (last c) as [[k1 x1]|] eqn:Elast; [|by apply last_None in Elast].
  assert (NoDup (((Wr ++ Pd) ++ c).*1)) as Hdup.
  { destruct (add_chunk_ok sha hv t v _ _ Hf st Wr Pd c [] H Hc) as (st' & e & Wr' & Pd' & l & _ & H' & Hil & Eq & _).
    assert (l = c) as -> by by eapply increasing_det. rewrite <-Eq. apply (ri_dup _ _ _ _ _ _ _ _ _ H'). }
  assert (k1 = k) as ->.
  { assert ((k1, x1) ∈ (Wr ++ Pd) ++ c) as Hin1.
    { apply last_Some in Elast as [c' ->]. rewrite !elem_of_app. right. right. by left. }
    apply Hiff in Hin1 as Hin2. destruct Hin2 as [Hk1 [->|Hlt]]; [done|exfalso].
    assert ((k, x) ∈ (Wr ++ Pd) ++ c) as Hin by (apply Hiff; split; [done|by left]).
    assert (forall prev c l', increasing_part prev c l' -> l' = c -> forall a b, last c = Some b -> a ∈ c -> fst a = fst b \/ bytes_lt (fst a) (fst b)) as Hinc.
    { clear. intros prev c l' Hi. induction Hi as [prev|prev k x c l Hf Hi IH|prev k x c Hf]; intros E a b Hb Ha; [done| |done].
      injection E as ->. specialize (IH eq_refl). destruct c as [|d c].
      - apply elem_of_list_singleton in Ha as ->. cbn in Hb. injection Hb as <-. by left.
      - change (last ((k, x) :: d :: c)) with (last (d :: c)) in Hb. apply elem_of_cons in Ha as [->|Ha]; [right|by apply IH].
        inversion Hi as [|? k2 x2 c2 l2 Hf2 Hi2|]; subst. cbn in Hf2. cbn.
        destruct (IH (k2, x2) b Hb ltac:(by left)) as [E|Hlt]; cbn in *; [by rewrite <-E|by eapply klt_trans]. }
    assert (~ bytes_lt k1 k) as Hno; [|done].
    apply elem_of_app in Hin as [Hin|Hin].
    - pose proof (ri_tree _ _ _ _ _ _ _ _ _ H) as Ht. destruct (last (Wr ++ Pd)) as [[k0 x0]|] eqn:E0.
      + destruct Ht as [p HP].
        assert (~ bytes_lt k0 k) as Hle.
        { apply (JmtRestoreAddProof.pd_max _ _ _ _ _ _ _ _ HP k (hv x)). unfold JmtPutProof.hvm. rewrite lookup_fmap.
          rewrite (proj2 (to_map_elem (Wr ++ Pd) k x (ri_dup _ _ _ _ _ _ _ _ _ H)) Hin). done. }
        intros Hlt'. destruct c as [|[k2 x2] c]; [done|]. inversion Hi as [|? ? ? ? ? Hf2 Hi2|]; subst.
        unfold last_key in Hf2. rewrite E0 in Hf2. cbn in Hf2.
        assert (bytes_lt k0 k1) as Hlt01.
        { destruct (Hinc _ _ _ Hi eq_refl (k2, x2) (k1, x1) Elast ltac:(by left)) as [Ek|Hlt2]; [cbn [fst] in Ek; by rewrite <-Ek|cbn [fst] in Hlt2; by apply (klt_trans _ k2)]. }
        apply Hle. by apply (klt_trans _ k1).
      + apply last_None in E0. rewrite E0 in Hin. by apply elem_of_nil in Hin.
    - destruct (Hinc _ _ _ Hi eq_refl (k, x) (k1, x1) Elast Hin) as [Ek|Hlt2]; [cbn [fst] in Ek; rewrite Ek; apply klt_irrefl|cbn [fst] in Hlt2].
      intros Hlt'. apply (klt_irrefl k). by apply (klt_trans _ k1). }
  destruct (chunk_complete sha hv t v _ _ Hf st Wr Pd c m k x1 H Hc Hi Elast) as (st' & E' & _); [|done|done|done|by exists st'].
  intros k' y. by eapply contents_32.
Qed.
(** The source is version 4 of the example; the verifier has received [ka] and
    then gets [kb] and [kd], with the range proof for [kd]. *)
Definition ex_u : N := 4.
Definition ex_cs (u : N) : gmap bytes bytes := contents_at (history ex_ops) u.
Definition rp (u : N) (k : bytes) : list bytes := match get_range_proof mix rx_store k u with Ok r => r | _ => [] end.
Definition src_root (u : N) : bytes := match get_root_hash mix rx_store u with Ok r => r | _ => [] end.
Definition done_with (st : option rstate) (f : rstate -> bool) : bool := match st with Some st => f st | None => false end.
Example C35_example :
  reached mix mix ex_ops rx_store /\ low ex_ops <= ex_u < versions ex_ops /\ ex_cs ex_u !! kd = Some vb /\
  get_root_hash mix rx_store ex_u = Ok (src_root ex_u) /\
  Forall (fun i => mix i <> spec_empty_hash) (tree_inputs mix mix (ex_cs ex_u)) /\
  fresh empty_store 7 /\ received [[(ka, vb)]] [(ka, vb)] /\ increasing_part (last_key [(ka, vb)]) [(kb, va); (kd, vb)] [(kb, va); (kd, vb)] /\
  (forall k' y, (k', y) ∈ [(ka, vb)] ++ [(kb, va); (kd, vb)] <-> ex_cs ex_u !! k' = Some y /\ key_le k' kd) /\
  done_with (feed mix mix (new_overwrite empty_store 7 (src_root ex_u)) [([(ka, vb)], [])])
    (fun st => match add_chunk mix mix st [(kb, va); (kd, vb)] (rp ex_u kd) with RDone _ None => true | _ => false end) = true /\
  length (rp ex_u kd) = 6%nat.
Proof.
  assert (Hlt : forall a b, key_ltb a b = true -> bytes_lt a b) by (intros a b; apply JmtIterProof.key_ltb_lt).
  split; [exact rx_reached|]. split; [rewrite ex_low, ex_versions; unfold ex_u; lia|]. split; [vm_compute; reflexivity|].
  split; [vm_compute; reflexivity|]. split.
  { apply Forall_forall. intros i Hi. assert (Hb : forallb (fun x => negb (bool_decide (mix x = spec_empty_hash)))
      (tree_inputs mix mix (ex_cs ex_u)) = true) by (vm_compute; reflexivity).
    rewrite forallb_forall in Hb. apply elem_of_list_In in Hi. specialize (Hb i Hi). apply negb_true_iff in Hb. by apply bool_decide_eq_false in Hb. }
  split; [apply fresh_empty|]. split.
  { apply (rc_snoc [] [] [(ka, vb)] [(ka, vb)]); [apply rc_nil|]. apply ip_cons; [done|apply ip_nil]. }
  split.
  { apply ip_cons; [apply Hlt; vm_compute; reflexivity|]. apply ip_cons; [apply Hlt; vm_compute; reflexivity|apply ip_nil]. }
  split; [|split; vm_compute; reflexivity].
  assert (Hm : ex_cs ex_u = list_to_map [(ka, vb); (kb, va); (kd, vb); (kc, va)]) by (apply (bool_decide_unpack _); vm_compute; exact I).
  assert (Hd : NoDup ([(ka, vb); (kb, va); (kd, vb); (kc, va)].*1)) by (apply (bool_decide_unpack _); vm_compute; exact I).
  intros k' y. rewrite Hm, <-elem_of_list_to_map by exact Hd. cbn [app]. rewrite !elem_of_cons, elem_of_nil. split.
  - intros [E|[E|[E|[]]]]; injection E as -> ->; (split; [tauto|]); [right|right|left; reflexivity]; apply Hlt; vm_compute; reflexivity.
  - intros [[E|[E|[E|[E|[]]]]] Hle]; [tauto..|]. exfalso. injection E as -> ->. destruct Hle as [E|Hle]; [by vm_compute in E|].
    apply JmtIterProof.key_ltb_lt in Hle. by vm_compute in Hle.
Qed.
Print Assumptions C35_range_proofs_verify.

(** * C50: accepted chunks are the pairs of the tree.  [m] is any map with the
    root that the verifier expects; [right] is adversarial, and so are the
    chunks, received before or now.  [l] is all that has been received. *)
Theorem C50_range_proofs_sound sha hv t v m cs st c sibs st' : fresh t v -> Forall (fun c : sent => wf_chunk (fst c)) cs ->
  (forall k y, m !! k = Some y -> length k = 32%nat) ->
  feed sha hv (new_overwrite t v (smt_root sha hv m)) cs = Some st -> wf_chunk c ->
  Forall (fun s : bytes => length s = 32%nat) sibs -> add_chunk sha hv st c sibs = RDone st' None ->
  exists l k x, received (map fst cs ++ [c]) l /\ last l = Some (k, x) /\
    (good_hash sha (range_inputs sha hv (to_map l) k x sibs ++ tree_inputs sha hv (to_map l) ++ tree_inputs sha hv m) ->
     (forall k' h, (exists y, (k', y) ∈ l /\ hv y = h) <-> (exists y, m !! k' = Some y /\ hv y = h) /\ key_le k' k) /\
     (inj_on hv (map snd l ++ map snd (map_to_list m)) ->
      forall k' y, (k', y) ∈ l <-> m !! k' = Some y /\ key_le k' k)).
Proof.
  intros Hf Hcs Hm E Hc Hr EA.
  destruct (feed_total sha hv t v (smt_root sha hv m) Hf cs Hcs) as (st1 & Wr & Pd & E1 & H & Hrec). rewrite E in E1. injection E1 as <-.
  destruct (add_chunk_ok sha hv t v _ _ Hf st Wr Pd c sibs H Hc) as (st2 & e & Wr' & Pd' & l & E2 & H' & Hil & Eq & He & _).
  rewrite EA in E2. injection E2 as <- <-. destruct He as [He _]. destruct (He eq_refl) as (Hne & -> & _).
  destruct (last ((Wr ++ Pd) ++ c)) as [[k x]|] eqn:El; [|apply last_None in El; by destruct (Wr ++ Pd), c].
  exists ((Wr ++ Pd) ++ c), k, x. split; [by constructor|]. split; [done|]. intros Hg.
  assert (forall k' h, (exists y, (k', y) ∈ (Wr ++ Pd) ++ c /\ hv y = h) <-> (exists y, m !! k' = Some y /\ hv y = h) /\ key_le k' k) as Hiff.
  { by apply (chunk_sound sha hv t v _ _ Hf st Wr Pd c sibs st' m H Hc EA Hr Hm eq_refl c k x Hil El). }
  split; [exact Hiff|]. intros Hinj k' y. split.
  - intros Hy. destruct (proj1 (Hiff k' (hv y))) as [(z & Hz & Ez) Hle]; [by exists y|]. split; [|done].
    apply Hinj in Ez as <-; [done| |].
    + apply elem_of_app. right. apply elem_of_list_fmap. exists (k', z). by rewrite elem_of_map_to_list.
    + apply elem_of_app. left. apply elem_of_list_fmap. by exists (k', y).
  - intros [Hy Hle]. destruct (proj2 (Hiff k' (hv y))) as (z & Hz & Ez); [split; [by exists y|done]|].
    apply Hinj in Ez as <-; [done| |].
    + apply elem_of_app. left. apply elem_of_list_fmap. by exists (k', z).
    + apply elem_of_app. right. apply elem_of_list_fmap. exists (k', y). by rewrite elem_of_map_to_list.
Qed.
(** The pairs [ka] and [kb] are accepted; a chunk without [ka] is not, nor one
    with another value. *)
Definition verdict (cs : list sent) (c : list (bytes * bytes)) (sibs : list bytes) : option (option jerr) :=
  match feed mix mix (new_overwrite empty_store 7 (src_root ex_u)) cs with
  | Some st => match add_chunk mix mix st c sibs with RDone _ e => Some e | RPanic => None end
  | None => None
  end.
Example C50_example :
  src_root ex_u = smt_root mix mix (ex_cs ex_u) /\ Forall (fun s : bytes => length s = 32%nat) (rp ex_u kb) /\
  verdict [] [(ka, vb); (kb, va)] (rp ex_u kb) = Some None /\
  good_hash mix (range_inputs mix mix (to_map [(ka, vb); (kb, va)]) kb va (rp ex_u kb) ++
    tree_inputs mix mix (to_map [(ka, vb); (kb, va)]) ++ tree_inputs mix mix (ex_cs ex_u)) /\
  inj_on mix (map snd [(ka, vb); (kb, va)] ++ map snd (map_to_list (ex_cs ex_u))) /\
  verdict [] [(kb, va)] (rp ex_u kb) = Some (Some RootMismatch) /\
  verdict [] [(ka, va); (kb, va)] (rp ex_u kb) = Some (Some RootMismatch) /\
  verdict [([(ka, vb); (kb, va)], rp ex_u kb)] [(kc, va)] (rp ex_u kc) = Some (Some RootMismatch).
Proof.
  split; [vm_compute; reflexivity|]. split; [vm_compute; repeat constructor|]. split; [vm_compute; reflexivity|].
  split; [apply good_mixb; vm_compute; reflexivity|]. split; [apply inj_onb_spec; vm_compute; reflexivity|].
  split; [vm_compute; reflexivity|]. split; vm_compute; reflexivity.
Qed.
Print Assumptions C50_range_proofs_sound.

(** * C51: a tree is rebuilt, whatever the chunks it is cut into. *)
Theorem C51_restore sha hv ops s u root t v cs : reached sha hv ops s -> low ops <= u < versions ops ->
  let m := contents_at (history ops) u in
  get_root_hash sha s u = Ok root -> Forall (fun i => sha i <> spec_empty_hash) (tree_inputs sha hv m) ->
  fresh t v -> cs <> [] -> ascending (concat (map fst cs)) ->
  (forall k y, (k, y) ∈ concat (map fst cs) <-> m !! k = Some y) ->
  Forall (fun c : sent => exists k x, last (fst c) = Some (k, x) /\ get_range_proof sha s k u = Ok (snd c)) cs ->
  exists st t', feed_all sha hv (new_overwrite t v root) cs = Some st /\ finish sha st = Ok t' /\
    get_root_hash sha t' v = Ok root /\ get_leaf_count t' v = get_leaf_count s u /\
    (forall k, length k = 32%nat -> get_with_proof sha t' k v = get_with_proof sha s k u) /\
    (forall k, trie_get t' k v = match m !! k with Some x => Some x | None => trie_get t k v end) /\
    (forall w q, w <> v -> st_nodes t' !! (w, q) = st_nodes t !! (w, q)).
Proof.
  intros HR Hu m Hroot Hn Hf Hne Ha Hiff Hcs. pose proof (reached_inv _ _ _ _ HR) as HS.
  rewrite (root_ok sha hv s _ _ u HS Hu) in Hroot. injection Hroot as <-. fold m.
  destruct (feed_all_ok sha hv t v (smt_root sha hv m) ∅ Hf ops s u HR Hu eq_refl Hn [] cs _ [] (RI_new sha hv t v _ Hf)) as (st & E & H);
    [by rewrite ?app_nil_r..|]. cbn [app] in H. set (l := concat (map fst cs)) in *.
  assert (l <> []) as Hl.
  { destruct cs as [|[c r] cs]; [done|]. inversion Hcs as [|? ? (k & x & Hk & _) _]; subst. cbn in Hk. unfold l. cbn [map concat fst].
    destruct c; done. }
  assert (to_map l = m) as Em.
  { apply map_eq. intros k. apply option_eq. intros y. rewrite to_map_elem by by apply ascending_NoDup. apply Hiff. }
  destruct (finish_ok sha hv t v _ _ Hf st l [] H) as (t' & E' & HF); [by rewrite app_nil_r|done|].
  rewrite app_nil_r, Em in HF. pose proof (fi_holds _ _ _ _ _ _ _ HF) as HH.
  exists st, t'. split; [done|]. split; [done|]. split; [by apply (root_holds sha hv t' v m _ HH)|]. split.
  { rewrite (leaf_count_ok sha hv s _ _ u HS Hu). by apply (count_holds sha hv t' v m _ HH). }
  split.
  { intros k Hk. rewrite (read_ok sha hv s _ _ k u HS Hu Hk). apply (read_holds sha hv t' v m _ k HH Hk).
    intros x Hx. by rewrite (Finished_value sha hv t v ∅ t' m HF), Hx. }
  split; [apply (Finished_value sha hv t v ∅ t' m HF)|apply (fi_old _ _ _ _ _ _ _ HF)].
Qed.
Definition ex_chunks : list sent := [([(ka, vb)], rp ex_u ka); ([(kb, va); (kd, vb)], rp ex_u kd); ([(kc, va)], rp ex_u kc)].
Definition ex_finished (st0 : rstate) (cs : list sent) : option store :=
  match feed_all mix mix st0 cs with
  | Some st => match finish mix st with Ok t => Some t | _ => None end
  | None => None
  end.
Definition on_store (o : option store) (P : store -> Prop) : Prop := match o with Some t => P t | None => False end.
Example C51_example :
  get_root_hash mix rx_store ex_u = Ok (src_root ex_u) /\ fresh empty_store 7 /\ ascending (concat (map fst ex_chunks)) /\
  (forall k y, (k, y) ∈ concat (map fst ex_chunks) <-> ex_cs ex_u !! k = Some y) /\
  Forall (fun c : sent => exists k x, last (fst c) = Some (k, x) /\ get_range_proof mix rx_store k ex_u = Ok (snd c)) ex_chunks /\
  on_store (ex_finished (new_overwrite empty_store 7 (src_root ex_u)) ex_chunks) (fun t =>
    get_root_hash mix t 7 = Ok (src_root ex_u) /\ get_leaf_count t 7 = Ok (Some 4) /\ trie_get t kd 7 = Some vb).
Proof.
  assert (Hlt : forall a b, key_ltb a b = true -> bytes_lt a b) by (intros a b; apply JmtIterProof.key_ltb_lt).
  split; [vm_compute; reflexivity|]. split; [apply fresh_empty|]. split.
  { repeat constructor; apply Hlt; vm_compute; reflexivity. }
  split.
  { assert (Hm : ex_cs ex_u = list_to_map (concat (map fst ex_chunks))) by (apply (bool_decide_unpack _); vm_compute; exact I).
    assert (Hd : NoDup ((concat (map fst ex_chunks)).*1)) by (apply (bool_decide_unpack _); vm_compute; exact I).
    intros k y. rewrite Hm. by apply elem_of_list_to_map. }
  split; [|vm_compute; auto].
  unfold ex_chunks. apply Forall_cons. split; [exists ka, vb; split; [reflexivity|vm_compute; reflexivity]|].
  apply Forall_cons. split; [exists kd, vb; split; [reflexivity|vm_compute; reflexivity]|].
  apply Forall_cons. split; [exists kc, va; split; [reflexivity|vm_compute; reflexivity]|apply Forall_nil; exact I].
Qed.
Print Assumptions C51_restore.
(** Into a store with values of earlier versions, a plain [get] at the restored
    version still finds those values for keys that the source does not have.
    The source is version 3 of the example, without [kc]; the target has [kc]
    at version 0. *)
Definition old_store : store := match run mix mix [OpPut [[(kc, Some vc)]]] with Ok s => s | _ => empty_store end.
Definition ex_chunks3 : list sent := [([(ka, vb); (kd, vb)], rp 3 kd)].
Theorem C51_get_of_absent_key_refuted : exists sha hv ops s u t v cs st t' k,
  reached sha hv ops s /\ low ops <= u < versions ops /\ fresh t v /\
  (forall root, get_root_hash sha s u = Ok root -> feed_all sha hv (new_overwrite t v root) cs = Some st) /\
  finish sha st = Ok t' /\ get_root_hash sha t' v = get_root_hash sha s u /\
  trie_get s k u = None /\ trie_get t' k v <> None.
Proof.
  assert (exists st, feed_all mix mix (new_overwrite old_store 1 (src_root 3)) ex_chunks3 = Some st /\
    exists t', finish mix st = Ok t' /\ get_root_hash mix t' 1 = get_root_hash mix rx_store 3 /\ trie_get t' kc 1 = Some vc)
    as (st & E & t' & E' & Er & Eg).
  { assert (H : match feed_all mix mix (new_overwrite old_store 1 (src_root 3)) ex_chunks3 with
      | Some st => match finish mix st with
                   | Ok t' => get_root_hash mix t' 1 = get_root_hash mix rx_store 3 /\ trie_get t' kc 1 = Some vc
                   | _ => False end
      | None => False end) by (vm_compute; auto).
    revert H. destruct (feed_all _ _ _ _) as [st|]; [|intros []]. intros H. exists st. split; [reflexivity|].
    revert H. destruct (finish mix st) as [t'| | |]; [|intros []..]. intros H. exists t'. split; [reflexivity|exact H]. }
  exists mix, mix, ex_ops, rx_store, 3, old_store, 1, ex_chunks3, st, t', kc.
  split; [exact rx_reached|]. split; [rewrite ex_low, ex_versions; lia|]. split.
  { split.
    - assert (H : bool_decide (map_Forall (fun (nk : nkey) (_ : node) => fst nk <> 1) (st_nodes old_store)) = true) by (vm_compute; reflexivity).
      apply bool_decide_eq_true in H. exact H.
    - assert (H : bool_decide (map_Forall (fun (_ : bytes) (l : list (N * option bytes)) => Forall (fun e => fst e < 1) l) (st_hist old_store)) = true)
        by (vm_compute; reflexivity).
      apply bool_decide_eq_true in H. intros k l e Hl He. specialize (H k l Hl). cbn in H. rewrite Forall_forall in H. by apply H. }
  split; [intros root Hr; replace root with (src_root 3); [exact E|unfold src_root; rewrite Hr; reflexivity]|].
  split; [exact E'|]. split; [exact Er|]. split; [vm_compute; reflexivity|rewrite Eg; discriminate].
Qed.
Print Assumptions C51_get_of_absent_key_refuted.

(** * C52: [finish] does not compare the root it writes with the expected one.
    The false statement, over any calls: *)
Definition finish_checks_root : Prop := forall sha hv t v root cs st t' r, fresh t v ->
  Forall (fun c : sent => wf_chunk (fst c)) cs -> feed sha hv (new_overwrite t v root) cs = Some st ->
  finish sha st = Ok t' -> get_root_hash sha t' v = Ok r -> r = root.
Definition wrong_root (cs : list sent) : bool :=
  match feed mix mix (new_overwrite empty_store 7 (src_root ex_u)) cs with
  | Some st => match finish mix st with
               | Ok t => match get_root_hash mix t 7 with Ok r => negb (bool_decide (r = src_root ex_u)) | _ => false end
               | _ => false end
  | None => false
  end.
(** Early: the first chunk is accepted, the others are not sent. *)
Definition early : list sent := [([(ka, vb); (kb, va)], rp ex_u kb)].
Lemma wrong_root_spec cs : Forall (fun c : sent => wf_chunk (fst c)) cs -> wrong_root cs = true -> exists st t' r,
  feed mix mix (new_overwrite empty_store 7 (src_root ex_u)) cs = Some st /\ finish mix st = Ok t' /\
  get_root_hash mix t' 7 = Ok r /\ r <> src_root ex_u.
Proof.
  intros Hc H. unfold wrong_root in H. destruct (feed _ _ _ _) as [st|]; [|done]. destruct (finish mix st) as [t'| | |] eqn:E'; try done.
  destruct (get_root_hash mix t' 7) as [r| | |] eqn:Er; try done. exists st, t', r. apply negb_true_iff, bool_decide_eq_false in H.
  split; [reflexivity|]. split; [exact E'|]. split; [exact Er|exact H].
Qed.
Theorem C52_finish_root_refuted : exists sha hv t v root cs st t' r,
  fresh t v /\ Forall (fun c : sent => wf_chunk (fst c)) cs /\
  feed_all sha hv (new_overwrite t v root) cs = Some st /\ finish sha st = Ok t' /\
  get_root_hash sha t' v = Ok r /\ r <> root.
Proof.
  assert (Hw : Forall (fun c : sent => wf_chunk (fst c)) early) by (repeat constructor).
  destruct (wrong_root_spec early Hw) as (st & t' & r & E & E' & Er & Hne); [vm_compute; reflexivity|].
  exists mix, mix, empty_store, 7, (src_root ex_u), early, st, t', r. split; [apply fresh_empty|]. split; [exact Hw|].
  split; [|split; [exact E'|split; [exact Er|exact Hne]]].
  rewrite <-E.
  assert (Ha : match add_chunk mix mix (new_overwrite empty_store 7 (src_root ex_u)) [(ka, vb); (kb, va)] (rp ex_u kb) with
    | RDone _ None => true | _ => false end = true) by (vm_compute; reflexivity).
  unfold early. cbn [feed feed_all]. revert Ha. by destruct (add_chunk _ _ _ _ _) as [? [|]|].
Qed.
(** After a chunk that was refused: [finish] writes the refused pairs. *)
Theorem C52_finish_after_error_refuted : exists sha hv t v root c sibs st e st' t' r,
  fresh t v /\ wf_chunk c /\ add_chunk sha hv (new_overwrite t v root) c sibs = RDone st (Some e) /\ st' = st /\
  finish sha st' = Ok t' /\ get_root_hash sha t' v = Ok r /\ r <> root /\ r = smt_root sha hv (to_map c).
Proof.
  assert (exists st e t' r, add_chunk mix mix (new_overwrite empty_store 7 (src_root ex_u)) [(ka, va); (kb, va)] [] = RDone st (Some e) /\
    finish mix st = Ok t' /\ get_root_hash mix t' 7 = Ok r /\ r <> src_root ex_u /\ r = smt_root mix mix (to_map [(ka, va); (kb, va)]))
    as (st & e & t' & r & H).
  { assert (H : match add_chunk mix mix (new_overwrite empty_store 7 (src_root ex_u)) [(ka, va); (kb, va)] [] with
      | RDone st (Some e) => match finish mix st with
        | Ok t => match get_root_hash mix t 7 with
                  | Ok r => negb (bool_decide (r = src_root ex_u)) && bool_decide (r = smt_root mix mix (to_map [(ka, va); (kb, va)]))
                  | _ => false end
        | _ => false end
      | _ => false end = true) by (vm_compute; reflexivity).
    destruct (add_chunk _ _ _ _ _) as [st [e|]|]; try done. destruct (finish mix st) as [t'| | |] eqn:E'; try done.
    destruct (get_root_hash mix t' 7) as [r| | |] eqn:Er; try done. apply andb_true_iff in H as [H1 H2].
    apply negb_true_iff, bool_decide_eq_false in H1. apply bool_decide_eq_true in H2. exists st, e, t', r.
    split; [reflexivity|]. split; [exact E'|]. split; [exact Er|]. split; [exact H1|exact H2]. }
  destruct H as (H1 & H2 & H3 & H4 & H5).
  exists mix, mix, empty_store, 7, (src_root ex_u), [(ka, va); (kb, va)], [], st, e, st, t', r.
  split; [apply fresh_empty|]. split; [repeat constructor|]. split; [exact H1|]. split; [reflexivity|]. split; [exact H2|].
  split; [exact H3|]. split; [exact H4|exact H5].
Qed.
(** What holds instead: the root that [finish] writes is the one of all pairs
    received, refused chunks included; it writes when two pairs have been
    received, and panics when none has (restoring the empty tree). *)
Theorem C52_finish_root_of_received sha hv t v root cs st l : fresh t v -> Forall (fun c : sent => wf_chunk (fst c)) cs ->
  feed sha hv (new_overwrite t v root) cs = Some st -> received (map fst cs) l ->
  (forall t', finish sha st = Ok t' ->
     get_root_hash sha t' v = Ok (smt_root sha hv (to_map l)) /\ get_leaf_count t' v = Ok (Some (N.of_nat (length l))) /\
     (forall k, length k = 32%nat -> exists p, get_with_proof sha t' k v = Ok (to_map l !! k, p))) /\
  ((2 <= length l)%nat -> exists t', finish sha st = Ok t') /\
  (l = [] -> finish sha st = Panic) /\
  (forall e, finish sha st <> Err e).
Proof.
  intros Hf Hcs E Hl. destruct (feed_start sha hv t v root Hf cs l st Hcs E Hl) as (Wr & Pd & H & El). subst l.
  assert (Wr ++ Pd = [] -> finish sha st = Panic) as H0.
  { intros E0. destruct Wr; [|done]. destruct Pd; [|done]. by apply (finish_none sha hv t v root ∅ st). }
  assert (length (Wr ++ Pd) = 1%nat -> Pd <> [] -> finish sha st = Panic) as H1.
  { intros E1 Hp. by apply (finish_one sha hv t v root ∅ st Wr Pd). }
  assert (Wr ++ Pd <> [] -> (length (Wr ++ Pd) = 1%nat -> Pd = []) -> exists t', finish sha st = Ok t' /\ Finished sha hv t v ∅ t' (to_map (Wr ++ Pd))) as H2.
  { intros Hne Hone. by apply (finish_ok sha hv t v root ∅ Hf st Wr Pd). }
  assert (finish sha st = Panic \/ exists t', finish sha st = Ok t' /\ Finished sha hv t v ∅ t' (to_map (Wr ++ Pd))) as HC.
  { destruct (decide (Wr ++ Pd = [])) as [E0|E0]; [left; by apply H0|].
    destruct (decide (length (Wr ++ Pd) = 1%nat)) as [E1|E1]; [|right; by apply H2].
    destruct (decide (Pd = [])) as [E2|E2]; [right; by apply H2|left; by apply H1]. }
  split_and!.
  - intros t' Et. destruct HC as [HC|(t2 & E2 & HF)]; [congruence|]. rewrite Et in E2. injection E2 as <-.
    pose proof (fi_holds _ _ _ _ _ _ _ HF) as HH. split_and!.
    + by apply (root_holds sha hv t' v _ _ HH).
    + rewrite (count_holds sha hv t' v _ _ HH), size_to_map; [done|]. apply (ri_dup _ _ _ _ _ _ _ _ _ H).
    + intros k Hk. eexists. apply (read_holds sha hv t' v _ _ k HH Hk). intros x Hx.
      by rewrite (Finished_value sha hv t v ∅ t' _ HF), Hx.
  - intros Hlen. destruct H2 as (t' & Et & _); [by destruct (Wr ++ Pd); [cbn in Hlen; lia|]|lia|by exists t'].
  - exact H0.
  - intros e Ee. destruct HC as [HC|(t2 & E2 & _)]; congruence.
Qed.
Example C52_example : fresh empty_store 7 /\ wrong_root early = true /\
  received (map fst early) [(ka, vb); (kb, va)] /\
  done_with (feed mix mix (new_overwrite empty_store 7 (src_root ex_u)) early)
    (fun st => match finish mix st with
               | Ok t => match get_root_hash mix t 7 with
                         | Ok r => bool_decide (r = smt_root mix mix (to_map [(ka, vb); (kb, va)]))
                         | _ => false end
               | _ => false end) = true /\
  finish mix (new_overwrite empty_store 7 (smt_root mix mix ∅)) = Panic.
Proof.
  split; [apply fresh_empty|]. split; [vm_compute; reflexivity|]. split.
  - apply (rc_snoc [] [] _ [(ka, vb); (kb, va)]); [apply rc_nil|]. apply ip_cons; [done|]. apply ip_cons; [|apply ip_nil].
    apply JmtIterProof.key_ltb_lt. vm_compute. reflexivity.
  - split; vm_compute; reflexivity.
Qed.
Print Assumptions C52_finish_root_refuted.
Print Assumptions C52_finish_after_error_refuted.
Print Assumptions C52_finish_root_of_received.

(** * C61: no sequence of chunks, however wrong, makes [add_chunk] panic. *)
Theorem C61_add_chunk_total sha hv t v root cs : fresh t v -> Forall (fun c : sent => wf_chunk (fst c)) cs ->
  exists st l, feed sha hv (new_overwrite t v root) cs = Some st /\ received (map fst cs) l.
Proof.
  intros Hf Hcs. destruct (feed_total sha hv t v root Hf cs Hcs) as (st & Wr & Pd & E & _ & Hr). eauto.
Qed.
(** Keys out of order, too many siblings, an empty chunk, a wrong value. *)
Definition junk : list sent :=
  [([], []); ([(kb, va); (ka, vb)], [va]); ([(kd, vb)], replicate 300 va); ([(kd, va)], []); ([(kc, va)], [])].
Example C61_example : Forall (fun c : sent => wf_chunk (fst c)) junk /\
  done_with (feed mix mix (new_overwrite empty_store 7 (src_root ex_u)) junk)
    (fun st => (rs_num st =? 3) && bool_decide (fst <$> rs_prev st = Some kc)) = true.
Proof. split; [repeat constructor|vm_compute; reflexivity]. Qed.
Print Assumptions C61_add_chunk_total.
