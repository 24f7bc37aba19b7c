(** Decoding an encoded node. *)
From Verif Require Import Base PmtNibblesModel RlpModel PmtModel PmtRunSpec PmtCodecSpec PmtNibblesProof RlpProof
  PmtSpec PmtEncProof.
Open Scope res_scope.

Lemma list_small items : (N.of_nat (length (rlp_list items)) < 2 ^ 63)%N -> small (length (concat items)).
Proof. by apply (list_item_of 0). Qed.
Lemma item_shorter items (x : bytes) : x ∈ items -> length x < length (rlp_list items).
Proof.
  apply (rlp_list_longer (fun _ => replicate 32 Byte.x00)) with (B := 0); [|done].
  intros _. apply replicate_length.
Qed.

Section hash.
  Context (keccak : bytes -> bytes) (Hk : forall x, length (keccak x) = 32).
  Notation raw := (raw keccak).
  Notation shrink := (shrink keccak).
  Notation encode_raw := (encode_raw keccak).

  (** The item a child contributes. *)
  Definition kid (c : node) : bytes :=
    match c with
    | NHash h => rlp_str h
    | _ => if length (raw c) <? 32 then raw c else rlp_str (keccak (raw c))
    end.
  Definition go (c : node) : node :=
    match c with
    | NHash _ => c
    | _ => if length (raw c) <? 32 then shrink c else NHash (keccak (raw c))
    end.
  Definition vitem (v : option bytes) : bytes := match v with Some v => rlp_str v | None => null_rlp end.
  Definition not_hash (n : node) : Prop := forall h, n <> NHash h.

  Definition encodes (n : node) : Prop := forall w, exists w', encode_raw n w = (w', Ok (raw n)).

  Lemma encodes_intro n e : (forall w, exists w', encode_raw n w = (w', Ok e)) -> raw n = e /\ encodes n.
  Proof.
    intros H. assert (raw n = e) as Hr.
    { unfold PmtRunSpec.raw. destruct (H (∅, ∅)) as [w' E]. by rewrite E. }
    split; [done|]. intros w. rewrite Hr. apply H.
  Qed.

  Lemma kid_written n w : (not_hash n -> encodes n) ->
    exists w' e, write_with keccak (encode_raw n) n w = (w', Ok e) /\ enc_item e = kid n.
  Proof.
    intros H. unfold write_with, kid.
    assert (Hx : not_hash n -> exists w' e,
      (let '(w, r) := encode_raw n w in
        match r with
        | Ok data =>
            if length data <? 32 then (w, Ok (EInline data))
            else let h := keccak data in
                 ((<[h := data]> w.1, {[h]} ∪ w.2), Ok (EHash h))
        | Err e => (w, Err e)
        | Panic => (w, Panic)
        | OutOfFuel => (w, OutOfFuel)
        end) = (w', Ok e) /\ enc_item e = if length (raw n) <? 32 then raw n else rlp_str (keccak (raw n))).
    { intros Hn. destruct (H Hn w) as [w' E]. rewrite E. destruct (length (raw n) <? 32); eauto. }
    destruct n; try (by apply Hx). eauto.
  Qed.

  Lemma enc_shape n : valid_node n -> not_hash n -> encodes n /\
    raw n = match n with
            | NLeaf k v => rlp_list [rlp_str (hp k); rlp_str v]
            | NExt p c => rlp_list [rlp_str (hp p); kid c]
            | NBranch cs v => rlp_list (map kid cs ++ [vitem v])
            | _ => null_rlp
            end.
  Proof.
    induction n as [|k v|p n IH|ns v IH|h] using node_ind'; intros Hv Hn;
      (match goal with |- encodes ?n /\ _ = ?e => cut (forall w, exists w', encode_raw n w = (w', Ok e)) end;
       [intros Hc; by apply encodes_intro in Hc as [? ?]|]); intros w.
    - eauto.
    - inversion Hv; subst. cbn [PmtModel.encode_raw].
      destruct (hp_ok _ (valid_leaf _ H1)) as (-> & _). eauto.
    - inversion Hv; subst. cbn [PmtModel.encode_raw].
      destruct (hp_ok _ (valid_ext _ H1 H2)) as (-> & _).
      destruct (kid_written n w) as (w' & e & -> & Ee).
      { intros Hnh. by apply IH. }
      cbn [rbind]. rewrite Ee. eauto.
    - inversion Hv as [| | |? ? Hl Hcs Hv1 Hv2|]; subst. cbn [PmtModel.encode_raw].
      assert (Hgo : forall w0, exists w',
        (fix go (cs : list node) (w : wst) : wst * tres (list bytes) :=
           match cs with
           | [] => (w, Ok [])
           | c :: cs' =>
               let '(w, r) := write_with keccak (encode_raw c) c w in
               match r with
               | Ok e =>
                   let '(w, rs) := go cs' w in
                   (w, try! l := rs in Ok (enc_item e :: l))
               | Err e => (w, Err e)
               | Panic => (w, Panic)
               | OutOfFuel => (w, OutOfFuel)
               end
           end) ns w0 = (w', Ok (map kid ns))).
      { clear Hv Hl Hn. induction ns as [|n ns IHns]; intros w0; [eauto|].
        inversion IH; subst. inversion Hcs; subst.
        destruct (kid_written n w0) as (w' & e & -> & Ee).
        { intros Hnh. by apply H1. }
        destruct (IHns H2 H4 w') as [w2 ->]. cbn [rbind map]. rewrite Ee. eauto. }
      destruct (Hgo w) as [w' ->]. cbn [rbind]. eauto.
    - by edestruct Hn.
  Qed.

  Lemma small32 (h : bytes) : length h = 32 -> small (length h).
  Proof. intros ->. vm_compute. done. Qed.

  Lemma kid_length n : valid_node n -> length (kid n) <= 41.
  Proof.
    intros Hv. assert (Hg : not_hash n -> length (if length (raw n) <? 32 then raw n else rlp_str (keccak (raw n))) <= 41).
    { intros _. destruct (Nat.ltb_spec (length (raw n)) 32); [lia|].
      etransitivity; [apply rlp_str_length|]. rewrite Hk. lia. }
    destruct n; try (by apply Hg). inversion Hv; subst. cbn [kid].
    etransitivity; [apply rlp_str_length|]. lia.
  Qed.
  Lemma raw_small n : valid_node n -> not_hash n -> (N.of_nat (length (raw n)) < 2 ^ 63)%N.
  Proof.
    intros Hv Hn. destruct (enc_shape n Hv Hn) as [_ ->].
    inversion Hv; subst.
    - vm_compute. done.
    - unfold rlp_list. rewrite app_length. cbn [concat]. rewrite !app_length.
      destruct (hp_ok _ (valid_leaf _ H)) as (_ & _ & Hl & _).
      pose proof (rlp_str_length (hp (b ++ [16]))). pose proof (rlp_str_length v).
      match goal with |- context [rlp_header ?a ?b] => pose proof (rlp_header_length a b) end.
      rewrite app_length in *. cbn [length] in *. unfold short_path, short_value in *. lia.
    - unfold rlp_list. rewrite app_length. cbn [concat]. rewrite !app_length.
      destruct (hp_ok _ (valid_ext _ H H0)) as (_ & _ & Hl & _).
      pose proof (rlp_str_length (hp p)). pose proof (kid_length _ H2).
      match goal with |- context [rlp_header ?a ?b] => pose proof (rlp_header_length a b) end.
      cbn [length] in *. unfold short_path, short_value in *. lia.
    - unfold rlp_list. rewrite app_length, concat_app, app_length.
      pose proof (concat_length_bound keccak Hk (map kid cs) 41) as Hc.
      rewrite map_length, H in Hc.
      assert (N.of_nat (length (concat [vitem v])) < 2 ^ 60 + 9)%N.
      { cbn [concat]. rewrite app_nil_r. destruct v as [v|]; cbn [vitem]; [|cbn; lia].
        pose proof (rlp_str_length v). specialize (H2 v eq_refl). unfold short_value in H2. lia. }
      match goal with |- context [rlp_header ?a ?b] => pose proof (rlp_header_length a b) end.
      assert (length (concat (map kid cs)) <= 16 * 41).
      { apply Hc. apply Forall_forall. intros x Hx. apply elem_of_list_In, in_map_iff in Hx as (? & <- & Hin).
        apply kid_length. rewrite Forall_forall in H0. apply H0. by apply elem_of_list_In. }
      lia.
    - by edestruct Hn.
  Qed.

  Lemma raw_item n : valid_node n -> not_hash n -> exists p, item (raw n) p.
  Proof.
    intros Hv Hn. pose proof (raw_small n Hv Hn) as Hs. destruct (enc_shape n Hv Hn) as [_ E]. rewrite E in *.
    destruct n; [eauto using null_item|..]; try (eexists; apply rlp_list_item; by apply list_small).
    by edestruct Hn.
  Qed.
  Lemma kid_item n : valid_node n -> exists p, item (kid n) p.
  Proof.
    intros Hv.
    assert (Hg : not_hash n -> exists p, item (if length (raw n) <? 32 then raw n else rlp_str (keccak (raw n))) p).
    { intros Hn. destruct (_ <? _); [by apply raw_item|]. eexists. apply rlp_str_item, small32, Hk. }
    destruct n; try (by apply Hg). inversion Hv; subst. eexists. apply rlp_str_item. by apply small32.
  Qed.

  Lemma decode_hash' fuel h : length h = 32 -> decode_node (S fuel) (rlp_str h) = Ok (NHash h).
  Proof.
    intros Hh. pose proof (small32 h Hh) as Hs. cbn [decode_node].
    rewrite rlp_str_prototype, rlp_str_is_data, rlp_str_size, Hh by done. cbn.
    rewrite (item_data' _ h); [done|by apply rlp_str_item].
  Qed.

  Lemma decode_kid n fuel : valid_node n -> length (kid n) < fuel ->
    (not_hash n -> forall fuel, length (raw n) < fuel -> decode_node fuel (raw n) = Ok (shrink n)) ->
    decode_node fuel (kid n) = Ok (go n).
  Proof.
    intros Hv Hf IH.
    assert (Hg : not_hash n -> length (if length (raw n) <? 32 then raw n else rlp_str (keccak (raw n))) < fuel ->
      decode_node fuel (if length (raw n) <? 32 then raw n else rlp_str (keccak (raw n))) =
      Ok (if length (raw n) <? 32 then shrink n else NHash (keccak (raw n)))).
    { intros Hn Hf'. destruct (_ <? _); [by apply IH|]. destruct fuel; [lia|]. by apply decode_hash'. }
    destruct n; try (by apply Hg). inversion Hv; subst. destruct fuel; [lia|]. by apply decode_hash'.
  Qed.

  Lemma decode_raw n fuel : valid_node n -> not_hash n -> length (raw n) < fuel ->
    decode_node fuel (raw n) = Ok (shrink n).
  Proof.
    revert fuel. induction n as [|k v|p s IH|ts v IH|h] using node_ind';
      intros fuel Hv Hn Hf; (destruct fuel as [|fuel]; [lia|]);
      pose proof (raw_small _ Hv Hn) as Hs; destruct (enc_shape _ Hv Hn) as [_ E]; rewrite E in *; inversion Hv; subst.
    - reflexivity.
    - destruct (hp_ok _ (valid_leaf _ H1)) as (He & Hd & Hl & Hne).
      rewrite app_length in Hl. cbn in Hl. unfold short_path, short_value in *.
      assert (item (rlp_str (hp (b ++ [16]))) (hp (b ++ [16]))) as Hi0.
      { apply rlp_str_item. unfold small. lia. }
      assert (item (rlp_str v) v) as Hi1.
      { apply rlp_str_item. unfold small. lia. }
      assert (Hitems : Forall (fun y => exists p, item y p) [rlp_str (hp (b ++ [16])); rlp_str v]) by (repeat constructor; eauto).
      assert (Hsm : small (length (concat [rlp_str (hp (b ++ [16])); rlp_str v]))) by (by apply list_small).
      cbn [decode_node]. rewrite rlp_list_prototype by done. cbn [length].
      rewrite (rlp_list_at _ Hitems Hsm 0 _ eq_refl). cbn [rbind].
      rewrite (item_data' _ _ Hi0). cbn [rbind]. rewrite Hd. cbn [rbind].
      rewrite is_leaf_app. cbn [rbind Nat.eqb].
      rewrite (rlp_list_at _ Hitems Hsm 1 _ eq_refl). cbn [rbind].
      rewrite (item_data' _ _ Hi1). reflexivity.
    - destruct (hp_ok _ (valid_ext _ H1 H2)) as (He & Hd & Hl & Hne).
      unfold short_path, short_value in *.
      assert (item (rlp_str (hp p)) (hp p)) as Hi0.
      { apply rlp_str_item. unfold small. lia. }
      destruct (kid_item _ H4) as [ps Hi1].
      assert (Hitems : Forall (fun y => exists p, item y p) [rlp_str (hp p); kid s]) by (repeat constructor; eauto).
      assert (Hsm : small (length (concat [rlp_str (hp p); kid s]))) by (by apply list_small).
      cbn [decode_node]. rewrite rlp_list_prototype by done. cbn [length].
      rewrite (rlp_list_at _ Hitems Hsm 0 _ eq_refl). cbn [rbind].
      rewrite (item_data' _ _ Hi0). cbn [rbind]. rewrite Hd. cbn [rbind].
      rewrite is_leaf_nibs by done. cbn [rbind].
      rewrite (rlp_list_at _ Hitems Hsm 1 _ eq_refl). cbn [rbind].
      rewrite decode_kid; [done|done| |by eauto].
      eapply Nat.lt_le_trans; [apply (item_shorter [rlp_str (hp p); kid s])|lia]. right. left.
    - set (items := map kid ts ++ [vitem v]) in *.
      assert (Hitems : Forall (fun y => exists p, item y p) items).
      { apply Forall_app. split.
        - apply Forall_forall. intros x Hx.
          apply elem_of_list_In, in_map_iff in Hx as (s & <- & Hin).
          rewrite Forall_forall in H2. apply kid_item. apply H2. by apply elem_of_list_In.
        - constructor; [|constructor]. destruct v as [v|]; [|eauto using null_item].
          eexists. apply rlp_str_item. specialize (H4 v eq_refl). unfold short_value in H4. unfold small. lia. }
      assert (Hsm : small (length (concat items))) by (by apply list_small).
      cbn [decode_node]. rewrite rlp_list_prototype by done.
      assert (Hlen : length items = 17).
      { unfold items. rewrite app_length, map_length, H1. reflexivity. }
      rewrite Hlen.
      rewrite (rmapM_ok _ (fun i => default NEmpty (go <$> ts !! i))).
      + cbn [rbind].
        replace (map (fun i => default NEmpty (go <$> ts !! i)) (seq 0 16)) with (map go ts).
        2:{ rewrite <- H1. clear. induction ts as [|t ts IH] using rev_ind; [done|].
            rewrite map_app, app_length, Nat.add_comm. cbn [length Nat.add].
            rewrite seq_S, map_app. f_equal.
            - rewrite IH. apply map_ext_in. intros i Hi. apply in_seq in Hi.
              rewrite lookup_app_l by lia. reflexivity.
            - cbn. rewrite lookup_app_r, Nat.sub_diag by lia. reflexivity. }
        rewrite (rlp_list_at items Hitems Hsm 16 (vitem v)).
        2:{ unfold items. rewrite lookup_app_r; rewrite map_length, H1; [reflexivity|lia]. }
        cbn [rbind]. destruct v as [v|].
        * cbn [vitem]. specialize (H4 v eq_refl). unfold short_value in H4.
          assert (small (length v)) by (unfold small; lia).
          rewrite rlp_str_not_empty by (auto; congruence).
          rewrite (item_data' _ v) by (by apply rlp_str_item). reflexivity.
        * reflexivity.
      + apply Forall_forall. intros i Hi. apply elem_of_list_In, in_seq in Hi.
        destruct (lookup_lt_is_Some_2 ts i) as [t Ht]; [lia|].
        assert (Hit : items !! i = Some (kid t)).
        { unfold items. rewrite lookup_app_l by (rewrite map_length; lia).
          change (map kid ts) with (kid <$> ts).
          by rewrite list_lookup_fmap, Ht. }
        rewrite (rlp_list_at items Hitems Hsm _ _ Hit). cbn [rbind].
        rewrite Ht. cbn [fmap option_fmap option_map default].
        assert (Hin : t ∈ ts) by (by eapply elem_of_list_lookup_2).
        rewrite Forall_forall in H2, IH.
        apply decode_kid; [by apply H2| |].
        * eapply Nat.lt_le_trans; [apply (item_shorter items)|lia].
          by eapply elem_of_list_lookup_2.
        * intros. by apply IH; [|apply H2| |].
    - by edestruct Hn.
  Qed.
End hash.
