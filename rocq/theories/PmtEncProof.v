(** Encoding and decoding of hash-free tries. *)
From Verif Require Import Base PmtNibblesModel RlpModel PmtModel PmtNibblesProof RlpProof PmtSpec.
Open Scope res_scope.

Lemma node_ind' (P : node -> Prop) :
  P NEmpty -> (forall k v, P (NLeaf k v)) -> (forall p n, P n -> P (NExt p n)) ->
  (forall cs v, Forall P cs -> P (NBranch cs v)) -> (forall h, P (NHash h)) ->
  forall n, P n.
Proof.
  intros H1 H2 H3 H4 H5. fix IH 1. intros [|k v|p n|cs v|h].
  - exact H1.
  - apply H2.
  - apply H3, IH.
  - apply H4. induction cs; constructor; auto.
  - apply H5.
Qed.

Lemma wf_mono c V L L' t : wf c V L t -> L <= L' -> wf c V L' t.
Proof.
  intros Hw. revert L'. revert t L Hw.
  apply (node_ind' (fun t => forall L, wf c V L t -> forall L', L <= L' -> wf c V L' t)).
  - constructor.
  - intros k v L Hw L' HL. inversion Hw; subst. constructor; auto; lia.
  - intros p n IH L Hw L' HL. inversion Hw; subst.
    replace L' with (length p + (L' - length p)) by lia. constructor; auto.
    eapply IH; eauto. lia.
  - intros cs v IH L Hw L' HL. inversion Hw; subst.
    destruct L' as [|L']; [lia|]. constructor; auto.
    rewrite Forall_forall in *. intros x Hx. eapply IH; eauto. lia.
  - intros h L Hw. inversion Hw.
Qed.

Lemma wf_weaken c V L t : wf c V L t -> wf false V L t.
Proof.
  revert L. induction t as [| | |cs v IH|] using node_ind'; intros L Hw; inversion Hw; subst; constructor; auto.
  - rewrite Forall_forall in *. intros x Hx. apply IH; auto.
  - done.
Qed.

Lemma wf_tpath c V L k v : wf c V L (NLeaf k v) -> tpath k.
Proof. inversion 1; subst. by eexists. Qed.

Lemma subs_refl t : t ∈ subs t.
Proof. destruct t; cbn; left. Qed.
Lemma subs_child cs v i c s : cs !! i = Some c -> s ∈ subs c -> s ∈ subs (NBranch cs v).
Proof.
  intros Hi Hs. cbn. right. apply elem_of_list_In, in_concat. exists (subs c).
  split; [|by apply elem_of_list_In]. apply in_map, elem_of_list_In.
  by eapply elem_of_list_lookup_2.
Qed.
Lemma subs_trans a b c : a ∈ subs b -> b ∈ subs c -> a ∈ subs c.
Proof.
  intros Ha. induction c as [| | |cs v IH|] using node_ind'; cbn; rewrite elem_of_cons.
  1, 2, 5: intros [->|H]; [done|set_solver].
  - intros [->|H]; [done|right; auto].
  - intros [->|H]; [done|].
    right. apply elem_of_list_In, in_concat in H as (l & Hl & Hb).
    apply in_map_iff in Hl as (x & <- & Hx). rewrite Forall_forall in IH.
    apply elem_of_list_In, in_concat. exists (subs x). split; [by apply in_map|].
    apply elem_of_list_In, IH; by apply elem_of_list_In.
Qed.

Section hash.
  Context (keccak : bytes -> bytes) (Hk : forall x, length (keccak x) = 32).
  Notation enc := (enc keccak).
  Notation ref := (ref keccak).
  Notation collapse := (collapse keccak).
  Notation cref := (cref keccak).
  Notation repr := (repr keccak).
  Notation stored := (stored keccak).
  Notation long := (long keccak).

  Lemma long_dec t : (length (enc t) <? 32) = true /\ length (enc t) < 32 \/
                     (length (enc t) <? 32) = false /\ long t.
  Proof. unfold PmtSpec.long. destruct (Nat.ltb_spec (length (enc t)) 32); auto. Qed.

  Lemma ref_length e : length (ref e) <= 41.
  Proof.
    unfold PmtSpec.ref. destruct (Nat.ltb_spec (length e) 32); [lia|].
    etransitivity; [apply rlp_str_length|]. rewrite Hk. lia.
  Qed.

  Lemma concat_length_bound (l : list bytes) b : Forall (fun x => length x <= b) l ->
    length (concat l) <= length l * b.
  Proof. induction 1; cbn; [lia|]. rewrite app_length. lia. Qed.

  Lemma hp_ok h : valid_path h -> encode_compact h = Ok (hp h) /\ from_compact (hp h) = Ok h /\
    length (hp h) <= length h + 1 /\ hp h <> [].
  Proof.
    intros (c & H1 & H2 & H3 & H4)%compact_roundtrip. unfold hp. rewrite H1. auto.
  Qed.

  Lemma valid_leaf b : nibs b -> valid_path (b ++ [16]).
  Proof. exists b. auto. Qed.
  Lemma valid_ext b : nibs b -> b <> [] -> valid_path b.
  Proof. exists b. auto. Qed.

  Context (B : nat) (HB : (N.of_nat B < 2 ^ 60)%N).

  Definition fits (c : bool) (t : node) : Prop := wf c B B t.

  Lemma enc_small c L t : wf c B L t -> L <= B -> (N.of_nat (length (enc t)) < 2 ^ 63)%N.
  Proof.
    intros Hw HL. inversion Hw; subst; cbn [PmtSpec.enc].
    - vm_compute. done.
    - unfold rlp_list. rewrite app_length. cbn [concat]. rewrite !app_length.
      destruct (hp_ok _ (valid_leaf _ H)) as (_ & _ & Hl & _).
      pose proof (rlp_str_length (hp (b ++ [16]))). pose proof (rlp_str_length v).
      match goal with |- context [rlp_header ?a ?b] => pose proof (rlp_header_length a b) end.
      rewrite app_length in *. cbn [length] in *. lia.
    - unfold rlp_list. rewrite app_length. cbn [concat]. rewrite !app_length.
      destruct (hp_ok _ (valid_ext _ H0 H)) as (_ & _ & Hl & _).
      pose proof (rlp_str_length (hp p)). pose proof (ref_length (enc s)).
      match goal with |- context [rlp_header ?a ?b] => pose proof (rlp_header_length a b) end.
      cbn [length] in *. lia.
    - unfold rlp_list. rewrite app_length, concat_app, app_length.
      pose proof (concat_length_bound (map (fun c => ref (enc c)) ts) 41) as Hc.
      rewrite map_length, H in Hc.
      assert (length (concat [match v with Some v => rlp_str v | None => null_rlp end]) <= vsize v + 9).
      { cbn [concat]. rewrite app_nil_r. destruct v; cbn [vsize]; [apply rlp_str_length|cbn; lia]. }
      match goal with |- context [rlp_header ?a ?b] => pose proof (rlp_header_length a b) end.
      assert (length (concat (map (fun c => ref (enc c)) ts)) <= 16 * 41).
      { apply Hc. apply Forall_forall. intros x Hx. apply elem_of_list_In, in_map_iff in Hx as (? & <- & _).
        apply ref_length. }
      lia.
  Qed.

  Lemma null_item : item null_rlp [].
  Proof. apply (rlp_str_item []). vm_compute. done. Qed.

  Lemma list_item_of items : (N.of_nat (length (rlp_list items)) < 2 ^ 63)%N ->
    small (length (concat items)).
  Proof. unfold rlp_list, small. rewrite app_length. lia. Qed.

  Lemma wf_enc_item c L t : wf c B L t -> L <= B -> exists p, item (enc t) p.
  Proof.
    intros Hw HL. pose proof (enc_small c L t Hw HL) as Hs.
    inversion Hw; subst; cbn [PmtSpec.enc] in *; eauto using null_item;
      eexists; apply rlp_list_item; by apply list_item_of.
  Qed.

  Lemma keccak_small x : small (length (keccak x)).
  Proof. rewrite Hk. vm_compute. done. Qed.

  Lemma ref_item c L t : wf c B L t -> L <= B -> exists p, item (ref (enc t)) p.
  Proof.
    intros Hw HL. unfold PmtSpec.ref. destruct (length (enc t) <? 32).
    - eauto using wf_enc_item.
    - eexists. apply rlp_str_item, keccak_small.
  Qed.

  Lemma value_item v : vsize v <= B ->
    exists p, item (match v with Some v => rlp_str v | None => null_rlp end) p.
  Proof.
    intros Hv. destruct v as [v|]; [|eauto using null_item].
    eexists. apply rlp_str_item. unfold small. cbn in Hv. lia.
  Qed.

  Lemma decode_hash fuel x : decode_node (S fuel) (rlp_str (keccak x)) = Ok (NHash (keccak x)).
  Proof.
    pose proof (keccak_small x) as Hs. cbn [decode_node].
    rewrite rlp_str_prototype, rlp_str_is_data, rlp_str_size, Hk by done. cbn.
    rewrite (item_data' _ (keccak x)); [done|by apply rlp_str_item].
  Qed.

  Lemma rmapM_ok {A E C} (f : A -> res E C) g l :
    Forall (fun x => f x = Ok (g x)) l -> rmapM f l = Ok (map g l).
  Proof.
    induction 1 as [|x l Hx Hl IH]; [done|]. cbn [rmapM map]. rewrite Hx, IH. reflexivity.
  Qed.

  Lemma in_concat_length (l : list bytes) x : x ∈ l -> length x <= length (concat l).
  Proof.
    induction 1; cbn; rewrite app_length; lia.
  Qed.

  Lemma rlp_list_longer items x : x ∈ items -> length x < length (rlp_list items).
  Proof.
    intros Hx. unfold rlp_list. rewrite app_length.
    pose proof (in_concat_length _ _ Hx).
    assert (0 < length (rlp_header 192 (length (concat items)))); [|lia].
    unfold rlp_header. case_match; cbn [length]; lia.
  Qed.

  Lemma decode_cref c L t fuel : wf c B L t -> L <= B -> length (ref (enc t)) < fuel ->
    (forall fuel, length (enc t) < fuel -> decode_node fuel (enc t) = Ok (collapse t)) ->
    decode_node fuel (ref (enc t)) = Ok (cref t).
  Proof.
    intros Hw HL Hf IH. unfold PmtSpec.ref, PmtSpec.cref in *.
    destruct (length (enc t) <? 32); [auto|]. destruct fuel; [lia|]. apply decode_hash.
  Qed.

  Lemma decode_enc c L t fuel : wf c B L t -> L <= B -> length (enc t) < fuel ->
    decode_node fuel (enc t) = Ok (collapse t).
  Proof.
    revert L fuel. induction t as [|k v|p s IH|ts v IH|h] using node_ind';
      intros L fuel Hw HL Hf; (destruct fuel as [|fuel]; [lia|]); inversion Hw; subst.
    - reflexivity.
    - pose proof (enc_small _ _ _ Hw HL) as Hs. cbn [PmtSpec.enc] in *.
      destruct (hp_ok _ (valid_leaf _ H1)) as (He & Hd & Hl & Hne).
      rewrite app_length in Hl. cbn in Hl.
      assert (item (rlp_str (hp (b ++ [16]))) (hp (b ++ [16]))) as Hi0.
      { apply rlp_str_item. unfold small. lia. }
      assert (item (rlp_str v) v) as Hi1.
      { apply rlp_str_item. unfold small. lia. }
      assert (Hitems : Forall (fun y => exists p, item y p) [rlp_str (hp (b ++ [16])); rlp_str v]) by (repeat constructor; eauto).
      assert (Hsm : small (length (concat [rlp_str (hp (b ++ [16])); rlp_str v]))) by (by apply list_item_of).
      cbn [decode_node]. rewrite rlp_list_prototype by done. cbn [length].
      rewrite (rlp_list_at _ Hitems Hsm 0 _ eq_refl). cbn [rbind].
      rewrite (item_data' _ _ Hi0). cbn [rbind]. rewrite Hd. cbn [rbind].
      rewrite is_leaf_app. cbn [rbind Nat.eqb].
      rewrite (rlp_list_at _ Hitems Hsm 1 _ eq_refl). cbn [rbind].
      rewrite (item_data' _ _ Hi1). reflexivity.
    - pose proof (enc_small _ _ _ Hw HL) as Hs. cbn [PmtSpec.enc] in *.
      destruct (hp_ok _ (valid_ext _ H2 H1)) as (He & Hd & Hl & Hne).
      assert (item (rlp_str (hp p)) (hp p)) as Hi0.
      { apply rlp_str_item. unfold small. lia. }
      destruct (ref_item _ _ _ H5) as [ps Hi1]; [lia|].
      assert (Hitems : Forall (fun y => exists p, item y p) [rlp_str (hp p); ref (enc s)]) by (repeat constructor; eauto).
      assert (Hsm : small (length (concat [rlp_str (hp p); ref (enc s)]))) by (by apply list_item_of).
      cbn [decode_node]. rewrite rlp_list_prototype by done. cbn [length].
      rewrite (rlp_list_at _ Hitems Hsm 0 _ eq_refl). cbn [rbind].
      rewrite (item_data' _ _ Hi0). cbn [rbind]. rewrite Hd. cbn [rbind].
      rewrite is_leaf_nibs by done. cbn [rbind].
      rewrite (rlp_list_at _ Hitems Hsm 1 _ eq_refl). cbn [rbind].
      erewrite decode_cref; eauto.
      + lia.
      + eapply Nat.lt_le_trans; [apply (rlp_list_longer [rlp_str (hp p); ref (enc s)])|lia].
        right. left.
      + intros. eapply IH; eauto. lia.
    - pose proof (enc_small _ _ _ Hw HL) as Hs. cbn [PmtSpec.enc] in *.
      set (vi := match v with Some v => rlp_str v | None => null_rlp end) in *.
      set (items := map (fun c => ref (enc c)) ts ++ [vi]) in *.
      assert (Hitems : Forall (fun y => exists p, item y p) items).
      { apply Forall_app. split.
        - apply Forall_forall. intros x Hx.
          apply elem_of_list_In, in_map_iff in Hx as (s & <- & Hin).
          rewrite Forall_forall in H2. eapply ref_item; [apply H2; by apply elem_of_list_In|lia].
        - constructor; [by apply value_item|constructor]. }
      assert (Hsm : small (length (concat items))) by (by apply list_item_of).
      cbn [decode_node]. rewrite rlp_list_prototype by done.
      assert (Hlen : length items = 17).
      { unfold items. rewrite app_length, map_length, H1. reflexivity. }
      rewrite Hlen.
      rewrite (rmapM_ok _ (fun i => default NEmpty (cref <$> ts !! i))).
      + cbn [rbind].
        replace (map (fun i => default NEmpty (cref <$> ts !! i)) (seq 0 16)) with (map cref ts).
        2:{ rewrite <- H1. clear. induction ts as [|t ts IH] using rev_ind; [done|].
            rewrite map_app, app_length, Nat.add_comm. cbn [length Nat.add].
            rewrite seq_S, map_app. f_equal.
            - rewrite IH. apply map_ext_in. intros i Hi. apply in_seq in Hi.
              rewrite lookup_app_l by lia. reflexivity.
            - cbn. rewrite lookup_app_r, Nat.sub_diag by lia. reflexivity. }
        rewrite (rlp_list_at items Hitems Hsm 16 vi).
        2:{ unfold items. rewrite lookup_app_r; rewrite map_length, H1; [reflexivity|lia]. }
        cbn [rbind]. destruct v as [v|].
        * unfold vi. assert (small (length v)) by (unfold small; cbn in H5; lia).
          rewrite rlp_str_not_empty by (auto; congruence).
          rewrite (item_data' _ v) by (by apply rlp_str_item). reflexivity.
        * reflexivity.
      + apply Forall_forall. intros i Hi. apply elem_of_list_In, in_seq in Hi.
        destruct (lookup_lt_is_Some_2 ts i) as [t Ht]; [lia|].
        assert (Hit : items !! i = Some (ref (enc t))).
        { unfold items. rewrite lookup_app_l by (rewrite map_length; lia).
          change (map (fun c0 => ref (enc c0)) ts) with ((fun c0 => ref (enc c0)) <$> ts).
          by rewrite list_lookup_fmap, Ht. }
        rewrite (rlp_list_at items Hitems Hsm _ _ Hit). cbn [rbind].
        rewrite Ht. cbn.
        assert (Hin : t ∈ ts) by (by eapply elem_of_list_lookup_2).
        rewrite Forall_forall in H2, IH.
        eapply decode_cref; [apply H2, Hin|lia| |].
        * eapply Nat.lt_le_trans; [apply (rlp_list_longer items)|lia].
          by eapply elem_of_list_lookup_2.
        * intros. eapply IH; eauto. lia.
  Qed.

  Lemma recover_known C d c L t : wf c B L t -> L <= B -> known keccak C d t ->
    recover_from_db d (keccak (enc t)) = Ok (Some (collapse t)) \/
    C = false /\ recover_from_db d (keccak (enc t)) = Ok None.
  Proof.
    intros Hw HL [Hd|[-> Hd]]; unfold recover_from_db; rewrite Hd; [left|by right].
    erewrite decode_enc; eauto.
  Qed.

  Lemma stored_sub C d t s : stored C d t -> s ∈ subs t -> stored C d s.
  Proof.
    unfold PmtSpec.stored. rewrite !Forall_forall. intros H Hs x Hx. apply H. by eapply subs_trans.
  Qed.
  Lemma stored_known C d t : stored C d t -> long t -> known keccak C d t.
  Proof. unfold PmtSpec.stored. rewrite Forall_forall. intros H. apply H, subs_refl. Qed.

  Lemma repr_collapse C d t : stored C d t -> (forall h, NHash h ∉ subs t) -> repr C d (collapse t) t.
  Proof.
    induction t as [|k v|p s IH|ts v IH|h] using node_ind'; cbn [PmtSpec.collapse]; intros Hs Hn; try constructor.
    - assert (Hss : stored C d s) by (eapply stored_sub; eauto; cbn; right; apply subs_refl).
      destruct (long_dec s) as [[-> _]|[-> Hl]]; [|by constructor].
      apply IH; auto. intros h Hh. apply (Hn h). cbn. by right.
    - apply Forall2_same_length_lookup_2; [by rewrite map_length|].
      intros i n t Hn1 Ht.
      change (map ?f ts) with (f <$> ts) in Hn1. rewrite list_lookup_fmap, Ht in Hn1.
      injection Hn1 as <-.
      assert (Hst : stored C d t).
      { eapply stored_sub; eauto. eapply subs_child; eauto. apply subs_refl. }
      destruct (long_dec t) as [[-> _]|[-> Hl]]; [|by constructor].
      rewrite Forall_lookup in IH. eapply IH; eauto.
      intros h Hh. apply (Hn h). eapply subs_child; eauto.
    - exfalso. apply (Hn h). cbn. left.
  Qed.

  Lemma wf_no_hash c V L t h : wf c V L t -> NHash h ∉ subs t.
  Proof.
    revert L. induction t as [|k v|p s IH|ts v IH|h'] using node_ind'; intros L Hw; inversion Hw; subst;
      cbn; rewrite ?elem_of_cons.
    - intros [?|?%elem_of_nil]; done.
    - intros [?|?%elem_of_nil]; done.
    - intros [?|Hin]; [done|]. eapply IH; eauto.
    - intros [?|Hin]; [done|].
      apply elem_of_list_In, in_concat in Hin as (l & Hl & Hb).
      apply in_map_iff in Hl as (x & <- & Hx). rewrite Forall_forall in IH, H2.
      apply elem_of_list_In in Hx, Hb. eapply IH; eauto.
  Qed.

  Lemma repr_collapse_wf C d c V L t : wf c V L t -> stored C d t -> repr C d (collapse t) t.
  Proof. intros Hw Hs. apply repr_collapse; auto. intros h. by eapply wf_no_hash. Qed.

  Lemma collapse_not_hash c V L t h : wf c V L t -> collapse t <> NHash h.
  Proof. by inversion 1. Qed.

  Lemma wf_sub c V L t s : wf c V L t -> s ∈ subs t -> wf c V L s.
  Proof.
    revert L. induction t as [|k v|p n IH|ts v IH|h'] using node_ind'; intros L Hw; cbn;
      rewrite elem_of_cons; (intros [->|Hin]; [done|]); try set_solver.
    - inversion Hw; subst. eapply wf_mono; [eapply IH; eauto|lia].
    - inversion Hw; subst.
      apply elem_of_list_In, in_concat in Hin as (l & Hl & Hb).
      apply in_map_iff in Hl as (x & <- & Hx). rewrite Forall_forall in IH, H2.
      apply elem_of_list_In in Hx, Hb. eapply wf_mono; [eapply IH; eauto|lia].
  Qed.
End hash.
