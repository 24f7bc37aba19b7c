(** Proofs of membership, and reads over incomplete databases. *)
From Verif Require Import Base PmtNibblesModel RlpModel PmtModel PmtRunSpec PmtNibblesProof RlpProof PmtSpec
  PmtEncProof PmtLookupProof PmtOpsProof PmtDeleteProof PmtCommitProof PmtRunProof PmtStepProof.
Open Scope res_scope.

Section hash.
  Context (keccak : bytes -> bytes) (Hk : forall x, length (keccak x) = 32).
  Notation enc := (enc keccak).
  Notation collapse := (collapse keccak).
  Notation view_ok := (view_ok keccak).
  Notation root_ok := (root_ok keccak).
  Notation keyed := (keyed keccak).
  Notation inv := (inv keccak).
  Notation wfc c t := (wf c Bmax Bmax t).

  (** The database built from a proof. *)
  Lemma proof_db_sound_from rh l d h e :
    storage (fold_left (fun d e =>
      if bool_decide (rh = keccak e) || (32 <=? length e)
      then db_insert d (keccak e) e else d) l d) !! h = Some e ->
    storage d !! h = Some e \/ (keccak e = h /\ e ∈ l).
  Proof.
    revert d. induction l as [|e0 l IH]; intros d; cbn [fold_left]; [auto|].
    intros H. apply IH in H as [H|[H1 H2]]; [|right; split; [done|by right]].
    destruct (_ || _); [|auto]. cbn in H. apply lookup_insert_Some in H as [[<- <-]|[_ H]]; [|auto].
    right. split; [done|by left].
  Qed.
  Lemma proof_db_sound rh l h e : db_get (proof_db keccak rh l) h = Some e -> keccak e = h /\ e ∈ l.
  Proof. intros [H|?]%proof_db_sound_from; [|done]. cbn in H. by rewrite lookup_empty in H. Qed.

  Lemma proof_db_complete_from rh l d e :
    inj_on keccak (e :: l) ->
    (storage d !! keccak e = Some e \/ (e ∈ l /\ (32 <= length e \/ rh = keccak e))) ->
    storage (fold_left (fun d e =>
      if bool_decide (rh = keccak e) || (32 <=? length e)
      then db_insert d (keccak e) e else d) l d) !! keccak e = Some e.
  Proof.
    revert d. induction l as [|e0 l IH]; intros d Hi H; cbn [fold_left].
    { destruct H as [H|[H _]]; [done|by apply elem_of_nil in H]. }
    apply IH.
    - eapply inj_on_sub; [|exact Hi]. intros x. rewrite !elem_of_cons. tauto.
    - destruct H as [H|[H Hc]].
      + left. destruct (_ || _); [|done]. cbn.
        destruct (decide (keccak e0 = keccak e)) as [E|E]; [|by rewrite lookup_insert_ne].
        apply Hi in E as ->; [by rewrite lookup_insert|right; left|left].
      + apply elem_of_cons in H as [->|H]; [left|auto].
        replace (_ || _) with true; [cbn; by rewrite lookup_insert|].
        symmetry. apply orb_true_iff. destruct Hc as [Hc|Hc].
        * right. by apply Nat.leb_le.
        * left. by apply bool_decide_eq_true.
  Qed.
  Lemma proof_db_complete rh l e : inj_on keccak l -> e ∈ l -> 32 <= length e \/ rh = keccak e ->
    db_get (proof_db keccak rh l) (keccak e) = Some e.
  Proof.
    intros Hi He Hc. apply proof_db_complete_from; [|auto].
    eapply inj_on_sub; [|exact Hi]. intros x. rewrite elem_of_cons. by intros [->|?].
  Qed.

  (** Reads over a database that may lack entries. *)
  Lemma known_sub d d' s : known keccak true d s ->
    (forall h e, db_get d' h = Some e -> db_get d h = Some e) -> known keccak false d' s.
  Proof.
    intros [H|[? _]] Hs; [|done]. destruct (db_get d' (keccak (enc s))) eqn:E; [|by right].
    left. apply Hs in E as E'. congruence.
  Qed.
  Lemma stored_weaken d d' t : stored keccak true d t ->
    (forall h e, db_get d' h = Some e -> db_get d h = Some e) -> stored keccak false d' t.
  Proof.
    unfold stored. rewrite !Forall_forall. intros H Hs x Hx Hl. eapply known_sub; eauto.
  Qed.
  Lemma repr_sub d d' n t : repr keccak true d n t ->
    (forall h e, db_get d' h = Some e -> db_get d h = Some e) -> repr keccak false d' n t.
  Proof.
    intros Hr Hs. revert t Hr. induction n as [|k v|p n IH|ns v IH|h] using node_ind';
      intros t Hr; inversion Hr as [| |? ? ? Hn|? ts ? Hf|]; subst; constructor; auto.
    - clear Hr. revert ts Hf. induction IH as [|n ns Hn _ IHl]; intros ts Hf; inversion Hf; subst; constructor; auto.
    - by eapply stored_weaken.
  Qed.
  Lemma rrepr_sub d d' n t : rrepr keccak true d n t ->
    (forall h e, db_get d' h = Some e -> db_get d h = Some e) -> rrepr keccak false d' n t.
  Proof.
    intros [H|(-> & H1 & H2)] Hs; [left; by eapply repr_sub|right].
    split_and!; [done|by eapply known_sub|by eapply stored_weaken].
  Qed.

  Lemma with_key_lost {A} d k (r : tres A) : miss false d r -> lost d k (with_key k r).
  Proof. intros [_ (h & tr & rh & k' & -> & H)]. exists h, tr, rh. by split. Qed.

  Lemma get_sub c d d' T v m k x : view_ok c d T v m ->
    (forall h e, db_get d' h = Some e -> db_get d h = Some e) ->
    get (fuel_for x k) d' v k = Ok (m !! k) \/ lost d' k (get (fuel_for x k) d' v k).
  Proof.
    intros (t & Hr & Hw & [Hh _] & _) Hs.
    destruct (get_at_spec keccak Hk Bmax Bmax_small false d' (fuel_for x k) (t_root_hash v) (t_root v) t
      (from_raw k true) 0 c Bmax) as [E|E]; try done.
    - by eapply rrepr_sub.
    - lia.
    - rewrite drop_0. apply tpath_from_raw.
    - rewrite <- fuel_for_enough. unfold enough. pose proof (rank_le (t_root v)). lia.
    - left. rewrite drop_0 in E. unfold get. by rewrite E, Hh.
    - right. by apply with_key_lost.
  Qed.

  (** Soundness of proofs. *)
  Lemma verify_sound c d T r m k x proof : keyed T (storage d) -> root_ok c d r m ->
    inj_on keccak (T ++ proof) ->
    verify_proof keccak (fuel_for x k) r k proof = Ok (m !! k) \/
    verify_proof keccak (fuel_for x k) r k proof = Err InvalidProof.
  Proof.
    intros Hd (t & -> & Hw & [Hh _] & Hkn & Hst) Hi.
    set (d' := proof_db keccak (keccak (enc t)) proof).
    assert (Hsub : forall s, known keccak true d s -> known keccak false d' s).
    { intros s [Hs|[? _]]; [|done]. destruct (db_get d' (keccak (enc s))) as [e|] eqn:E; [|by right].
      left. destruct (proof_db_sound _ _ _ _ E) as [E1 E2]. rewrite E. f_equal.
      destruct (Hd _ _ Hs) as [_ Hs2].
      apply Hi; [apply elem_of_app; by right|apply elem_of_app; by left|done]. }
    unfold verify_proof. fold d'.
    destruct (get_at_spec keccak Hk Bmax Bmax_small false d' (fuel_for x k) (keccak (enc t)) (NHash (keccak (enc t))) t
      (from_raw k true) 0 c Bmax) as [E|E]; try done.
    - right. split; [done|]. split; [by apply Hsub|].
      unfold stored in *. rewrite Forall_forall in *. intros s Hs Hl. apply Hsub. by apply Hst.
    - lia.
    - rewrite drop_0. apply tpath_from_raw.
    - rewrite <- fuel_for_enough. unfold enough. cbn [rank]. lia.
    - left. rewrite drop_0 in E. unfold get, at_root. cbn [t_root t_root_hash]. by rewrite E, Hh.
    - right. unfold get, at_root. cbn [t_root t_root_hash].
      destruct E as [_ (h & tr & rh & k' & -> & _)]. done.
  Qed.

  (** Completeness of proofs on a committed view. *)
  Lemma proof_complete c d T v m t k x y :
    keyed T (storage d) -> inj_on keccak T ->
    t_root v = collapse t -> repr keccak true d (collapse t) t -> wfc c t -> holds t m ->
    known keccak true d t -> stored keccak true d t -> m <> ∅ ->
    exists v' proof, get_proof keccak (fuel_for x k) d v k = (v', Ok proof) /\ Forall (fun e => e ∈ T) proof /\
      verify_proof keccak (fuel_for y k) (keccak (enc t)) k proof = Ok (m !! k).
  Proof.
    intros Hd Hi Et Hr Hw Hh Hkn Hst Hm.
    destruct (get_path_spec keccak Hk (fuel_for x k) d (t_root_hash v) (collapse t) t (from_raw k true) 0 c Bmax)
      as (ss & E & Hss & Hget); try done.
    - by left.
    - lia.
    - rewrite drop_0. apply tpath_from_raw.
    - rewrite <- fuel_for_enough. unfold enough. pose proof (rank_le (collapse t)). lia.
    - assert (Hroot : forall l, match collapse t with NEmpty => l | r => l ++ [r] end = l ++ [collapse t]).
      { intros l. destruct t; try done. exfalso. apply Hm. apply map_eq. intros k'.
        rewrite <- (proj1 Hh k'). by rewrite lookup_empty. }
      unfold get_proof. rewrite Et, E. cbn [with_key]. rewrite Hroot.
      assert (Hts : Forall2 (fun n t => repr keccak true d n t /\ wfc c t /\ forall h, n <> NHash h)
                      (rev (map collapse ss ++ [collapse t])) (rev (ss ++ [t]))).
      { rewrite !rev_app_distr. cbn [rev app]. constructor.
        - split_and!; [done|done|]. intros h. by eapply collapse_not_hash.
        - rewrite <- map_rev. apply Forall2_fmap_l. apply Forall_Forall2_diag. apply Forall_forall.
          intros s Hs. apply elem_of_list_In, in_rev, elem_of_list_In in Hs.
          rewrite Forall_forall in Hss. destruct (Hss s Hs) as (Hsub & [Hkn' Hsts] & _).
          pose proof (wf_sub keccak Hk Bmax Bmax_small _ _ _ _ _ Hw Hsub) as Hws.
          split_and!; [by eapply repr_collapse_wf|done|]. intros h. by eapply collapse_not_hash. }
      destruct (encode_all_ok keccak d _ _ c (t_cache v, t_gen v) Hts) as ([cache gen] & -> & _).
      eexists _, _. split; [reflexivity|].
      set (proof := map enc (rev (ss ++ [t]))).
      assert (Hin : forall s, s ∈ ss ++ [t] -> enc s ∈ proof /\ known keccak true d s).
      { intros s Hs. split.
        - apply elem_of_list_In, in_map, in_rev. rewrite rev_involutive. by apply elem_of_list_In.
        - apply elem_of_app in Hs as [Hs|Hs]; [|apply elem_of_list_singleton in Hs; by subst].
          rewrite Forall_forall in Hss. by apply Hss. }
      assert (HpT : forall e, e ∈ proof -> e ∈ T).
      { intros e He.
        apply elem_of_list_In, in_map_iff in He as (s & <- & Hs).
        apply in_rev in Hs. apply elem_of_list_In in Hs.
        destruct (Hin s Hs) as [_ [Hs2|[? _]]]; [|done]. by destruct (Hd _ _ Hs2). }
      split; [by apply Forall_forall|].
      assert (Hip : inj_on keccak proof) by (eapply inj_on_sub; [exact HpT|exact Hi]).
      set (d2 := proof_db keccak (keccak (enc t)) proof).
      assert (Hd2 : Forall (fun s => db_get d2 (keccak (enc s)) = Some (enc s)) ss).
      { apply Forall_forall. intros s Hs. apply proof_db_complete; [done|by apply Hin, elem_of_app; left|].
        left. rewrite Forall_forall in Hss. by apply Hss. }
      assert (Hdt : db_get d2 (keccak (enc t)) = Some (enc t)).
      { apply proof_db_complete; [done| |by right]. apply Hin, elem_of_app. right. by apply elem_of_list_singleton. }
      unfold verify_proof, get, at_root. cbn [t_root t_root_hash]. fold d2.
      assert (exists f, fuel_for y k = S f) as [f Ef] by (exists (6 * length k + 12 + y); unfold fuel_for; lia).
      rewrite Ef. cbn [get_at]. rewrite offset_drop by lia. cbn [rbind].
      destruct (recover_known keccak Hk Bmax Bmax_small true d2 c Bmax t Hw (le_n _)) as [->|[? _]]; [by left| |done].
      cbn [rbind]. rewrite (Hget d2 _ f Hd2).
      + rewrite drop_0. rewrite (proj1 Hh). done.
      + pose proof (fuel_for_enough y k) as Ef'. unfold enough in Ef'.
        pose proof (rank_collapse keccak _ _ _ _ Hw). lia.
  Qed.
End hash.
