(** Restorations whose writes fail (C89), and what the store of an unfinished
    restoration holds (C90).  Answers and stored data are specified in
    JmtRestoreFailSpec.v. *)
From Coq Require Import Sorting.Sorted.
From Verif Require Import Base KeccakModel Sha256Model JmtNibModel JmtNibProof JmtSpec JmtTraceSpec JmtNibSpec JmtModel JmtHashProof
  JmtAbsProof JmtCacheProof JmtInsertProof JmtPutProof JmtHistProof JmtRunSpec JmtValueProof JmtRunProof JmtReadProof JmtProofProof
  JmtPropProof JmtOrderProof JmtIterModel JmtIterSpec PmtExamples JmtExamples JmtProps JmtRestoreModel JmtRestoreSpec
  JmtRestoreVerifyProof JmtRestoreRunSpec JmtRestoreRunProof JmtRestoreFinishProof JmtRestorePropProof JmtRestoreProps
  JmtRestoreFailModel JmtRestoreFailSpec JmtRestoreFailProof.
Local Open Scope N_scope.

(** * C89: writes that fail.  The chunks of a tree are sent in order, each at
    least once, over a store whose writes may fail; each chunk may be sent again,
    any number of times.  The first call with a chunk answers as its write does,
    the others are refused, and the restoration ends as if nothing had failed:
    the nodes that could not be written are kept and written later. *)
Theorem C89_write_failures sha hv ops s u root t v cs : reached sha hv ops s -> low ops <= u < versions ops ->
  let m := contents_at (history ops) u in
  let l := concat (map (fun c : sent * list bool => fst (fst c)) cs) in
  get_root_hash sha s u = Ok root -> Forall (fun i => sha i <> spec_empty_hash) (tree_inputs sha hv m) ->
  fresh t v -> cs <> [] -> ascending l -> (forall k y, (k, y) ∈ l <-> m !! k = Some y) ->
  Forall (fun c : sent * list bool => snd c <> [] /\
    exists k x, last (fst (fst c)) = Some (k, x) /\ get_range_proof sha s k u = Ok (snd (fst c))) cs ->
  exists st, feed_io sha hv (new_overwrite t v root) cs = Some (st, concat (map (fun c => answers_for (snd c)) cs)) /\
    (length l = 1%nat -> Exists first_failed cs -> finish sha st = Panic) /\
    ((2 <= length l)%nat \/ ~ Exists first_failed cs -> exists t', finish sha st = Ok t' /\
      get_root_hash sha t' v = Ok root /\ get_leaf_count t' v = get_leaf_count s u /\
      (forall k, length k = 32%nat -> get_with_proof sha t' k v = get_with_proof sha s k u) /\
      (forall k, trie_get t' k v = match m !! k with Some x => Some x | None => trie_get t k v end) /\
      (forall w q, w <> v -> st_nodes t' !! (w, q) = st_nodes t !! (w, q))).
Proof.
  intros HR Hu m l Hroot Hn Hf Hne Ha Hiff Hcs. pose proof (reached_inv _ _ _ _ HR) as HS.
  rewrite (root_ok sha hv s _ _ u HS Hu) in Hroot. injection Hroot as <-. fold m.
  destruct (feed_io_ok sha hv t v (smt_root sha hv m) ∅ Hf ops s u HR Hu eq_refl Hn [] cs _ [] [] (RI_new sha hv t v _ Hf))
    as (st & Wr & Pd & E & H & EW & HPd).
  { cbn [app]. rewrite app_nil_r. exact Ha. }
  { intros k y. cbn [app]. rewrite app_nil_r. apply Hiff. }
  { exact Hcs. }
  cbn [app] in EW. change (Wr ++ Pd = l) in EW. exists st. split; [exact E|].
  assert (l <> []) as Hl.
  { destruct cs as [|[[c r] ws] cs]; [done|]. inversion Hcs as [|? ? (_ & k & x & Hk & _) _]; subst. cbn in Hk. unfold l. cbn [map concat fst].
    destruct c; done. }
  assert (length l = 1%nat -> exists c, cs = [c]) as Hone.
  { intros H1. destruct cs as [|c1 [|c2 cs]]; [done|by eexists|exfalso].
    inversion Hcs as [|? ? (_ & k & x & Hk & _) Hcs2]; subst. inversion Hcs2 as [|? ? (_ & k2 & x2 & Hk2 & _) _]; subst.
    unfold l in H1. cbn [map concat] in H1. rewrite !app_length in H1. apply last_Some in Hk as [l1 E1]. apply last_Some in Hk2 as [l2 E2].
    rewrite E1, E2, !app_length in H1. cbn [length] in H1. lia. }
  split.
  - intros H1 Hfail. destruct (Hone H1) as [c ->]. rewrite Exists_cons, Exists_nil in Hfail. destruct Hfail as [Hfail|[]].
    apply (finish_one sha hv t v (smt_root sha hv m) ∅ st Wr Pd H); [by rewrite EW|]. intros ->. by apply (proj1 HPd eq_refl).
  - intros Hc.
    assert (to_map l = m) as Em.
    { apply map_eq. intros k. apply option_eq. intros y. rewrite to_map_elem by by apply ascending_NoDup. apply Hiff. }
    destruct (finish_ok sha hv t v _ _ Hf st Wr Pd H) as (t' & E' & HF); [by rewrite EW| |].
    { rewrite EW. intros H1. destruct Hc as [Hc|Hc]; [lia|]. destruct (Hone H1) as [c ->]. apply HPd. intros Hff. apply Hc. by left. }
    rewrite EW, Em in HF. pose proof (fi_holds _ _ _ _ _ _ _ HF) as HH.
    exists t'. split; [exact E'|]. split; [by apply (root_holds sha hv t' v m _ HH)|]. split.
    { rewrite (leaf_count_ok sha hv s _ _ u HS Hu). by apply (count_holds sha hv t' v m _ HH). }
    split.
    { intros k Hk. rewrite (read_ok sha hv s _ _ k u HS Hu Hk). apply (read_holds sha hv t' v m _ k HH Hk).
      intros x Hx. by rewrite (Finished_value sha hv t v ∅ t' m HF), Hx. }
    split; [apply (Finished_value sha hv t v ∅ t' m HF)|apply (fi_old _ _ _ _ _ _ _ HF)].
Qed.
(** Three chunks; the first and the last write fail, the first and the second
    chunk are sent again. *)
Definition fail_chunks : list (sent * list bool) :=
  [(([(ka, vb)], rp ex_u ka), [false; true]); (([(kb, va); (kd, vb)], rp ex_u kd), [true; false; true]); (([(kc, va)], rp ex_u kc), [false])].
Example C89_example :
  map fst fail_chunks = ex_chunks /\ Exists first_failed fail_chunks /\
  match feed_io mix mix (new_overwrite empty_store 7 (src_root ex_u)) fail_chunks with
  | Some (st, l) =>
      l = [WriteFailed; Refused KeysNotIncreasing; Accepted; Refused KeysNotIncreasing; Refused KeysNotIncreasing; WriteFailed] /\
      match finish mix st with
      | Ok t => get_root_hash mix t 7 = Ok (src_root ex_u) /\ get_leaf_count t 7 = Ok (Some 4) /\ trie_get t ka 7 = Some vb /\
                trie_get t kc 7 = Some va
      | _ => False
      end
  | None => False
  end.
Proof. split; [reflexivity|]. split; [by left|]. vm_compute. auto. Qed.
(** The chunk whose write failed cannot be sent again: what a caller does who
    takes the error for a reason to retry. *)
Definition failed_chunk_can_be_sent_again : Prop := forall sha hv t v root c right st, fresh t v -> wf_chunk c ->
  add_chunk_io sha hv false (new_overwrite t v root) c right = WDone st WriteFailed ->
  exists st', add_chunk_io sha hv true st c right = WDone st' Accepted.
Theorem C89_retry_refuted : ~ failed_chunk_can_be_sent_again.
Proof.
  intros H.
  assert (exists st st2, add_chunk_io mix mix false (new_overwrite empty_store 7 (src_root ex_u)) [(ka, vb)] (rp ex_u ka) = WDone st WriteFailed /\
    add_chunk_io mix mix true st [(ka, vb)] (rp ex_u ka) = WDone st2 (Refused KeysNotIncreasing)) as (st & st2 & E1 & E2).
  { assert (HT : match send_again mix mix (new_overwrite empty_store 7 (src_root ex_u)) ([(ka, vb)], rp ex_u ka) [false; true] with
      | Some (_, [WriteFailed; Refused KeysNotIncreasing]) => true | _ => false end = true) by (vm_compute; reflexivity).
    cbn [send_again fst snd] in HT. destruct (add_chunk_io mix mix false _ _ _) as [st [|e|]|]; try discriminate HT;
      destruct (add_chunk_io mix mix true st _ _) as [st2 [|[]|]|] eqn:E2; try discriminate HT.
    exists st, st2. split; [reflexivity|exact E2]. }
  destruct (H mix mix empty_store 7 (src_root ex_u) [(ka, vb)] (rp ex_u ka) st (fresh_empty 7)) as (st' & E'); [repeat constructor|exact E1|].
  rewrite E2 in E'. discriminate E'.
Qed.
Lemma one_pair_iff (a b k y : bytes) : (k, y) ∈ [(a, b)] <-> ({[a := b]} : gmap bytes bytes) !! k = Some y.
Proof. rewrite lookup_singleton_Some, elem_of_list_singleton. split; [by intros [= -> ->]|by intros [-> ->]]. Qed.
(** A tree with one pair, whose only write fails: [finish] does not write what
    is left but panics. *)
Definition one_ops : list op := [OpPut [[(ka, Some va)]]].
Definition one_store : store := match run mix mix one_ops with Ok s => s | _ => empty_store end.
Theorem C89_one_pair_refuted : exists sha hv ops s root t v c right st,
  reached sha hv ops s /\ get_root_hash sha s 0 = Ok root /\ fresh t v /\ length c = 1%nat /\
  (forall k y, (k, y) ∈ c <-> contents_at (history ops) 0 !! k = Some y) /\
  add_chunk_io sha hv false (new_overwrite t v root) c right = WDone st WriteFailed /\ finish sha st = Panic.
Proof.
  assert (exists st, add_chunk_io mix mix false (new_overwrite empty_store 7 (smt_root mix mix {[ka := va]})) [(ka, va)] [] = WDone st WriteFailed /\
   finish mix st = Panic) as (st & E1 & E2).
  { assert (HT : match add_chunk_io mix mix false (new_overwrite empty_store 7 (smt_root mix mix {[ka := va]})) [(ka, va)] [] with
      | WDone st WriteFailed => match finish mix st with Panic => true | _ => false end | _ => false end = true) by (vm_compute; reflexivity).
    destruct (add_chunk_io _ _ _ _ _ _) as [st [|e|]|]; try discriminate HT. destruct (finish mix st) eqn:E2; try discriminate HT.
    exists st. split; [reflexivity|exact E2]. }
  exists mix, mix, one_ops, one_store, (smt_root mix mix {[ka := va]}), empty_store, 7, [(ka, va)], [], st.
  split.
  { split; [split; [apply wf_setsb; vm_compute; reflexivity|vm_compute; discriminate]|].
    assert (HT : (match run mix mix one_ops with Ok _ => true | _ => false end) = true) by (vm_compute; reflexivity).
    unfold one_store. revert HT. destruct (run mix mix one_ops); [reflexivity|discriminate..]. }
  split; [vm_compute; reflexivity|]. split; [apply fresh_empty|]. split; [reflexivity|]. split; [|split; [exact E1|exact E2]].
  intros k y. replace (contents_at (history one_ops) 0) with ({[ka := va]} : gmap bytes bytes).
  - apply one_pair_iff.
  - apply (bool_decide_unpack _). vm_compute. exact I.
Qed.
Print Assumptions C89_write_failures.
Print Assumptions C89_retry_refuted.
Print Assumptions C89_one_pair_refuted.

(** * C90: before [finish], nothing unchecked is in the store.  A call that does
    not succeed writes nothing: *)
Theorem C90_errors_write_nothing sha hv w st c right st' a :
  add_chunk_io sha hv w st c right = WDone st' a -> a <> Accepted -> rs_store st' = rs_store st.
Proof. apply io_store. Qed.
(** and whatever chunks have been sent, right or wrong, accepted or refused, with
    whatever siblings, the store holds at the target version values and nodes of
    the expected tree only, [m] being any map with the expected root. *)
Theorem C90_stored_is_right sha hv t v m cs st : fresh t v -> (forall k y, m !! k = Some y -> length k = 32%nat) ->
  Forall (fun c : sent => wf_chunk (fst c)) cs -> Forall (fun c : sent => Forall (fun s : bytes => length s = 32%nat) (snd c)) cs ->
  feed sha hv (new_overwrite t v (smt_root sha hv m)) cs = Some st ->
  (forall cs1 c cs2 l k x, cs = cs1 ++ c :: cs2 -> received (map fst (cs1 ++ [c])) l -> last l = Some (k, x) ->
     good_hash sha (range_inputs sha hv (to_map l) k x (snd c) ++ tree_inputs sha hv (to_map l) ++ tree_inputs sha hv m)) ->
  stored_right sha hv (rs_store st) v m.
Proof.
  intros Hf Hm Hc Hs E Hg.
  apply (feed_right sha hv t v m Hf Hm cs [] (new_overwrite t v (smt_root sha hv m)) [] rc_nil); try assumption.
  - exists [], []. split; [by apply RI_new|reflexivity].
  - destruct Hf as [Hf1 Hf2]. split; cbn [new_overwrite rs_store].
    + intros k l y Hl Hin. exfalso. specialize (Hf2 _ _ _ Hl Hin). cbn in Hf2. lia.
    + intros q nd Hq. exfalso. by apply (Hf1 _ _ Hq).
Qed.
(** A chunk that is right but comes without a proof is refused, one that follows
    is accepted; a third has a wrong value. *)
Definition mixed : list sent := [([(ka, vb)], []); ([(kb, va)], rp ex_u kb); ([(kd, va)], rp ex_u kd)].
Definition mixed_st : option rstate := feed mix mix (new_overwrite empty_store 7 (smt_root mix mix (ex_cs ex_u))) mixed.
Lemma mixed_received cs1 c cs2 l k x : mixed = cs1 ++ c :: cs2 -> received (map fst (cs1 ++ [c])) l -> last l = Some (k, x) ->
  good_hash mix (range_inputs mix mix (to_map l) k x (snd c) ++ tree_inputs mix mix (to_map l) ++ tree_inputs mix mix (ex_cs ex_u)).
Proof.
  assert (Hlt : forall a b, key_ltb a b = true -> bytes_lt a b) by (intros a b; apply JmtIterProof.key_ltb_lt).
  assert (R1 : received [[(ka, vb)]] [(ka, vb)]).
  { apply (rc_snoc [] [] _ [(ka, vb)]); [apply rc_nil|]. apply ip_cons; [exact I|apply ip_nil]. }
  assert (R2 : received [[(ka, vb)]; [(kb, va)]] [(ka, vb); (kb, va)]).
  { apply (rc_snoc [[(ka, vb)]] [(ka, vb)] _ [(kb, va)] R1). apply ip_cons; [apply Hlt; vm_compute; reflexivity|apply ip_nil]. }
  assert (R3 : received [[(ka, vb)]; [(kb, va)]; [(kd, va)]] [(ka, vb); (kb, va); (kd, va)]).
  { apply (rc_snoc [[(ka, vb)]; [(kb, va)]] [(ka, vb); (kb, va)] _ [(kd, va)] R2). apply ip_cons; [apply Hlt; vm_compute; reflexivity|apply ip_nil]. }
  intros E R L. unfold mixed in E.
  destruct cs1 as [|c1 [|c2 [|c3 cs1]]]; cbn [app] in E.
  - injection E as <- <-. cbn [app map fst] in R. rewrite (received_det _ _ _ R R1) in L |- *. injection L as <- <-.
    apply good_mixb. vm_compute. reflexivity.
  - injection E as <- <- <-. cbn [app map fst] in R. rewrite (received_det _ _ _ R R2) in L |- *. injection L as <- <-.
    apply good_mixb. vm_compute. reflexivity.
  - injection E as <- <- <- <-. cbn [app map fst] in R. rewrite (received_det _ _ _ R R3) in L |- *. injection L as <- <-.
    apply good_mixb. vm_compute. reflexivity.
  - exfalso. injection E as _ _ _ E. by destruct cs1.
Qed.
Example C90_example :
  Forall (fun c : sent => wf_chunk (fst c)) mixed /\ Forall (fun c : sent => Forall (fun s : bytes => length s = 32%nat) (snd c)) mixed /\
  match mixed_st with
  | Some st => st_hist (rs_store st) !! ka = Some [(7, Some vb)] /\ st_hist (rs_store st) !! kb = Some [(7, Some va)] /\
              st_hist (rs_store st) !! kd = None /\ size (st_nodes (rs_store st)) = 1%nat
  | None => False
  end.
Proof. split; [repeat constructor|]. split; [vm_compute; repeat constructor|]. vm_compute. auto. Qed.
Print Assumptions C90_errors_write_nothing.
Print Assumptions C90_stored_is_right.
