(** Writing tries to the database. *)
From Verif Require Import Base PmtNibblesModel RlpModel PmtModel PmtRunSpec PmtNibblesProof RlpProof PmtSpec
  PmtEncProof PmtLookupProof PmtOpsProof.
Open Scope res_scope.

Section hash.
  Context (keccak : bytes -> bytes).
  Notation enc := (enc keccak).
  Notation collapse := (collapse keccak).
  Notation long := (long keccak).
  Notation hashed := (hashed keccak).
  Notation hashed_below := (hashed_below keccak).
  Notation raw := (raw keccak).
  Notation encode_raw := (encode_raw keccak).
  Notation write_node := (write_node keccak).

  (** The map [m'] is [m] with the strings of [l] stored under their hash. *)
  Definition adds (l : list bytes) (m m' : gmap bytes bytes) : Prop :=
    forall h, (m' !! h = m !! h /\ forall e, e ∈ l -> keccak e <> h) \/
              (exists e, e ∈ l /\ keccak e = h /\ m' !! h = Some e).

  Lemma adds_nil m : adds [] m m.
  Proof. intros h. left. split; [done|]. intros e He. by apply elem_of_nil in He. Qed.
  Lemma adds_app l1 l2 m1 m2 m3 : adds l1 m1 m2 -> adds l2 m2 m3 -> adds (l1 ++ l2) m1 m3.
  Proof.
    intros H1 H2 h. destruct (H2 h) as [[E2 N2]|(e & He & Hh & Hm)].
    - destruct (H1 h) as [[E1 N1]|(e & He & Hh & Hm)].
      + left. split; [congruence|]. intros e [He|He]%elem_of_app; auto.
      + right. exists e. rewrite elem_of_app. split; [auto|]. split; [done|congruence].
    - right. exists e. rewrite elem_of_app. auto.
  Qed.
  Lemma adds_one e m : adds [e] m (<[keccak e := e]> m).
  Proof.
    intros h. destruct (decide (keccak e = h)) as [<-|Hne].
    - right. exists e. rewrite lookup_insert. split_and!; [left|done|done].
    - left. rewrite lookup_insert_ne by done. split; [done|].
      intros e' ->%elem_of_list_singleton. done.
  Qed.

  Lemma encode_branch_go cs w : (fix go (cs : list node) (w : wst) : wst * tres (list bytes) :=
             match cs with
             | [] => (w, Ok [])
             | c :: cs' =>
                 let '(w, r) := write_with keccak (encode_raw c) c w in
                 match r with
                 | Ok e =>
                     let '(w, rs) := go cs' w in
                     (w, try! l := rs in Ok (enc_item e :: l))
                 | Err e => (w, Err e)
                 | Panic => (w, Panic)
                 | OutOfFuel => (w, OutOfFuel)
                 end
             end) cs w =
    (fix go (cs : list node) (w : wst) : wst * tres (list bytes) :=
             match cs with
             | [] => (w, Ok [])
             | c :: cs' =>
                 let '(w, r) := write_node c w in
                 match r with
                 | Ok e =>
                     let '(w, rs) := go cs' w in
                     (w, try! l := rs in Ok (enc_item e :: l))
                 | Err e => (w, Err e)
                 | Panic => (w, Panic)
                 | OutOfFuel => (w, OutOfFuel)
                 end
             end) cs w.
  Proof. reflexivity. Qed.

  Section rep.
    Context (C : bool) (d : db).
    Notation repr := (repr keccak C d).
    Notation rrepr := (rrepr keccak C d).

    Definition enc_out (t : node) : encoded :=
      if length (enc t) <? 32 then EInline (enc t) else EHash (keccak (enc t)).

    Lemma enc_out_item t : enc_item (enc_out t) = ref keccak (enc t).
    Proof. unfold enc_out, ref. by destruct (length (enc t) <? 32). Qed.

    Lemma hp_encode_leaf b : nibs b -> encode_compact (b ++ [16]) = Ok (hp (b ++ [16])).
    Proof. intros H. by destruct (hp_ok _ (valid_leaf _ H)). Qed.
    Lemma hp_encode_ext b : nibs b -> b <> [] -> encode_compact b = Ok (hp b).
    Proof. intros H H1. by destruct (hp_ok _ (valid_ext _ H H1)). Qed.

    (** Encoding and writing a represented trie. *)
    Lemma encode_write : forall n t c V L w, repr n t -> wf c V L t ->
      ((forall h, n <> NHash h) -> exists w', encode_raw n w = (w', Ok (enc t)) /\ adds (hashed_below n) w.1 w'.1) /\
      (exists w', write_node n w = (w', Ok (enc_out t)) /\ adds (hashed n) w.1 w'.1).
    Proof.
      assert (Hfin : forall n t w,
        (forall h, n <> NHash h) ->
        (forall w, exists w', encode_raw n w = (w', Ok (enc t)) /\ adds (hashed_below n) w.1 w'.1) ->
        ((forall h, n <> NHash h) -> exists w', encode_raw n w = (w', Ok (enc t)) /\ adds (hashed_below n) w.1 w'.1) /\
        (exists w', write_node n w = (w', Ok (enc_out t)) /\ adds (hashed n) w.1 w'.1)).
      { intros n t w Hn He. split; [auto|].
        destruct (He w) as (w' & E & Ha).
        assert (Hraw : raw n = enc t).
        { unfold PmtRunSpec.raw. destruct (He (∅, ∅)) as (w2 & E2 & _). by rewrite E2. }
        assert (Hhd : hashed n = hashed_below n ++ (if length (raw n) <? 32 then [] else [raw n])).
        { destruct n; done || by edestruct Hn. }
        assert (Hwn : write_node n w =
          (let '(w0, r) := encode_raw n w in
           match r with
           | Ok data =>
               if length data <? 32 then (w0, Ok (EInline data))
               else let h := keccak data in ((<[h := data]> w0.1, {[h]} ∪ w0.2), Ok (EHash h))
           | Err e => (w0, Err e)
           | Panic => (w0, Panic)
           | OutOfFuel => (w0, OutOfFuel)
           end)).
        { unfold PmtModel.write_node, write_with. destruct n; done || by edestruct Hn. }
        rewrite Hwn, E, Hhd, Hraw. unfold enc_out. destruct (length (enc t) <? 32).
        - exists w'. split; [done|]. by rewrite app_nil_r.
        - eexists. split; [reflexivity|]. cbn [fst]. eapply adds_app; [exact Ha|apply adds_one]. }
      intros n. induction n as [|k v|p n IH|ns v IH|h] using node_ind'; intros t c V L w Hr Hw.
      - apply Hfin; [done|]. intros w0. inversion Hr; subst. exists w0. split; [done|apply adds_nil].
      - apply Hfin; [done|]. intros w0. inversion Hr; subst. inversion Hw; subst. exists w0.
        cbn [PmtModel.encode_raw]. rewrite hp_encode_leaf by done. split; [done|apply adds_nil].
      - apply Hfin; [done|]. intros w0. inversion Hr; subst. inversion Hw; subst.
        cbn [PmtModel.encode_raw]. rewrite hp_encode_ext by done.
        match goal with H : repr n ?s |- _ => destruct (IH s c V L0 w0) as [_ (w' & E & Ha)]; try done end.
        unfold PmtModel.write_node in E. rewrite E. cbn [rbind]. rewrite enc_out_item.
        exists w'. done.
      - apply Hfin; [done|]. intros w0. inversion Hr as [| | |? ts ? Hf|]; subst. inversion Hw as [| | |? ? ? Hl Hts Hv HvV Ho]; subst.
        assert (Hgo : forall w0, exists w',
          (fix go (cs : list node) (w : wst) : wst * tres (list bytes) :=
             match cs with
             | [] => (w, Ok [])
             | c :: cs' =>
                 let '(w, r) := write_with keccak (encode_raw c) c w in
                 match r with
                 | Ok e =>
                     let '(w, rs) := go cs' w in
                     (w, try! l := rs in Ok (enc_item e :: l))
                 | Err e => (w, Err e)
                 | Panic => (w, Panic)
                 | OutOfFuel => (w, OutOfFuel)
                 end
             end) ns w0 = (w', Ok (map (fun c => ref keccak (enc c)) ts)) /\
          adds (concat (map hashed ns)) w0.1 w'.1).
        { clear Hl Hr Hw Ho. revert ts Hf Hts.
          induction ns as [|n ns IHns]; intros ts Hf Hts w1.
          - inversion Hf; subst. exists w1. split; [done|apply adds_nil].
          - inversion Hf as [|? t ? ts' Hn Hns]; subst.
            inversion IH as [|? ? IHn IHr]; subst. inversion Hts as [|? ? Hwt Hwts]; subst.
            destruct (IHn t c V L0 w1 Hn Hwt) as [_ (w' & E & Ha)].
            unfold PmtModel.write_node in E. rewrite E.
            destruct (IHns IHr ts' Hns Hwts w') as (w2 & E2 & Ha2).
            rewrite E2. cbn [rbind]. rewrite enc_out_item. exists w2. split; [done|].
            cbn [map concat]. by eapply adds_app. }
        destruct (Hgo w0) as (w' & E & Ha). cbn [PmtModel.encode_raw]. rewrite E. cbn [rbind].
        exists w'. done.
      - split; [intros Hn; by edestruct Hn|]. exists w. inversion Hr; subst.
        unfold enc_out. destruct (Nat.ltb_spec (length (enc t)) 32) as [Hl|_].
        { unfold PmtSpec.long in *. lia. }
        split; [done|apply adds_nil].
    Qed.

    Lemma raw_enc n t c V L : repr n t -> wf c V L t -> (forall h, n <> NHash h) -> raw n = enc t.
    Proof.
      intros Hr Hw Hn. destruct (encode_write n t c V L (∅, ∅) Hr Hw) as [He _].
      destruct (He Hn) as (w' & E & _). unfold PmtRunSpec.raw. by rewrite E.
    Qed.

    (** Every long subtrie is either hashed by the write or already stored. *)
    Lemma hashed_covers n : forall t c V L s, repr n t -> wf c V L t -> s ∈ subs t -> long s ->
      enc s ∈ hashed n \/ known keccak C d s.
    Proof.
      induction n as [|k v|p n IH|ns v IH|h] using node_ind'; intros t c V L s Hr Hw Hs Hl.
      - inversion Hr; subst. cbn in Hs. apply elem_of_list_singleton in Hs as ->.
        left. pose proof (raw_enc _ _ _ _ _ Hr Hw) as E. cbn [PmtRunSpec.hashed].
        rewrite E by done. destruct (Nat.ltb_spec (length (enc NEmpty)) 32); [|left].
        unfold PmtSpec.long in Hl. lia.
      - inversion Hr; subst. cbn in Hs. apply elem_of_list_singleton in Hs as ->.
        left. pose proof (raw_enc _ _ _ _ _ Hr Hw) as E. cbn [PmtRunSpec.hashed].
        rewrite E by done. destruct (Nat.ltb_spec (length (enc (NLeaf k v))) 32); [|left].
        unfold PmtSpec.long in Hl. lia.
      - inversion Hr; subst. pose proof (raw_enc _ _ _ _ _ Hr Hw) as E. inversion Hw; subst.
        cbn [PmtRunSpec.hashed]. rewrite E by done. rewrite elem_of_app.
        cbn [subs] in Hs. apply elem_of_cons in Hs as [->|Hs].
        + left. right. destruct (Nat.ltb_spec (length (enc (NExt p t0))) 32); [|left].
          unfold PmtSpec.long in Hl. lia.
        + edestruct IH; eauto.
      - inversion Hr as [| | |? ts ? Hf|]; subst. pose proof (raw_enc _ _ _ _ _ Hr Hw) as E.
        inversion Hw as [| | |? ? ? Hlen Hts Hv HvV Ho]; subst.
        cbn [PmtRunSpec.hashed]. rewrite E by done. rewrite elem_of_app.
        cbn [subs] in Hs. apply elem_of_cons in Hs as [->|Hs].
        + left. right. destruct (Nat.ltb_spec (length (enc (NBranch ts v))) 32); [|left].
          unfold PmtSpec.long in Hl. lia.
        + apply elem_of_list_In, in_concat in Hs as (l & Hin & Hb).
          apply in_map_iff in Hin as (t & <- & Hx).
          apply elem_of_list_In, elem_of_list_lookup in Hx as [i Hi]. apply elem_of_list_In in Hb.
          destruct (Forall2_lookup_r _ _ _ _ _ Hf Hi) as (n & Hn & Hrn).
          rewrite Forall_lookup in IH, Hts.
          destruct (IH i n Hn t c V L0 s Hrn (Hts _ _ Hi) Hb Hl) as [?|?]; [|by right].
          left. left. apply elem_of_list_In, in_concat. exists (hashed n).
          split; [|by apply elem_of_list_In]. apply in_map, elem_of_list_In.
          by eapply elem_of_list_lookup_2.
      - inversion Hr; subst. right. match goal with H : stored _ _ _ t |- _ => rename H into Hst end.
        unfold stored in Hst. rewrite Forall_forall in Hst. auto.
    Qed.
  End rep.

  (** Growing the database. *)
  Lemma known_mono d d' s : storage d ⊆ storage d' -> known keccak true d s -> known keccak true d' s.
  Proof.
    intros Hs [H|[? _]]; [|done]. left. unfold db_get in *. by eapply lookup_weaken.
  Qed.
  Lemma stored_mono d d' t : storage d ⊆ storage d' -> stored keccak true d t -> stored keccak true d' t.
  Proof.
    intros Hs. unfold stored. rewrite !Forall_forall. intros H x Hx Hl. eapply known_mono; eauto.
  Qed.
  Lemma repr_mono d d' n t : storage d ⊆ storage d' -> repr keccak true d n t -> repr keccak true d' n t.
  Proof.
    intros Hs. revert t. induction n as [|k v|p n IH|ns v IH|h] using node_ind';
      intros t Hr; inversion Hr as [| |? ? ? Hn|? ts ? Hf|]; subst; constructor; auto.
    - apply Forall2_same_length_lookup_2; [by eapply Forall2_length|].
      intros i a b Ha Hb. rewrite Forall_lookup in IH. eapply IH; eauto.
      by eapply Forall2_lookup_lr.
    - by eapply stored_mono.
  Qed.
  Lemma rrepr_mono d d' n t : storage d ⊆ storage d' -> rrepr keccak true d n t -> rrepr keccak true d' n t.
  Proof.
    intros Hs [H|(-> & H1 & H2)]; [left; by eapply repr_mono|right].
    split_and!; [done|by eapply known_mono|by eapply stored_mono].
  Qed.

  Lemma insert_batch_storage d kvs :
    light (db_insert_batch d kvs) = light d /\
    forall h, storage (db_insert_batch d kvs) !! h =
              (fold_left (fun m kv => <[kv.1 := kv.2]> m) kvs (storage d)) !! h.
  Proof.
    unfold db_insert_batch. revert d. induction kvs as [|kv kvs IH]; intros d; [done|].
    cbn [fold_left]. destruct (IH (db_insert d kv.1 kv.2)) as [H1 H2]. rewrite H1. split; [done|].
    intros h. rewrite H2. done.
  Qed.
  Lemma fold_insert_lookup (kvs : list (bytes * bytes)) (m : gmap bytes bytes) h : NoDup kvs.*1 ->
    fold_left (fun m kv => <[kv.1 := kv.2]> m) kvs m !! h =
    match (list_to_map kvs : gmap bytes bytes) !! h with Some v => Some v | None => m !! h end.
  Proof.
    revert m. induction kvs as [|[k v] kvs IH]; intros m Hnd; [done|].
    cbn [fmap list_fmap] in Hnd. apply NoDup_cons in Hnd as [Hk1 Hnd].
    cbn [fold_left]. rewrite IH by done. cbn [fst snd list_to_map foldr uncurry].
    change (list_to_map ((k, v) :: kvs) : gmap bytes bytes) with (<[k := v]> (list_to_map kvs : gmap bytes bytes)).
    destruct (decide (h = k)) as [->|Hne].
    - rewrite !lookup_insert. by rewrite not_elem_of_list_to_map_1.
    - by rewrite !lookup_insert_ne.
  Qed.
  Lemma flush_lookup (d : db) (cache : gmap bytes bytes) (h : bytes) :
    storage (db_insert_batch d (map_to_list cache)) !! h =
    match cache !! h with Some v => Some v | None => storage d !! h end.
  Proof.
    destruct (insert_batch_storage d (map_to_list cache)) as [_ ->].
    rewrite fold_insert_lookup by apply NoDup_fst_map_to_list. by rewrite list_to_map_to_list.
  Qed.
  Lemma remove_batch_archive d ks : light d = false -> db_remove_batch d ks = d.
  Proof.
    unfold db_remove_batch. intros H. revert d H. induction ks as [|k ks IH]; intros d H; [done|].
    cbn [fold_left]. unfold db_remove at 2. rewrite H. auto.
  Qed.

  (** A table keyed by the hash of strings of a trace. *)
  Definition keyed (T : list bytes) (m : gmap bytes bytes) : Prop :=
    forall h e, m !! h = Some e -> keccak e = h /\ e ∈ T.

  Lemma keyed_mono T T' m : keyed T m -> (forall e, e ∈ T -> e ∈ T') -> keyed T' m.
  Proof. intros H HT h e He. destruct (H h e He). auto. Qed.
  Lemma keyed_adds T l m m' : keyed T m -> adds l m m' -> keyed (T ++ l) m'.
  Proof.
    intros Hm Ha h e He. destruct (Ha h) as [[E _]|(e' & Hin & Hh & E)].
    - rewrite E in He. destruct (Hm h e He). split; [done|]. apply elem_of_app. auto.
    - rewrite E in He. injection He as <-. split; [done|]. apply elem_of_app. auto.
  Qed.
  Lemma keyed_sub T m m' : keyed T m -> (forall h, m' !! h = m !! h \/ m' !! h = None) -> keyed T m'.
  Proof. intros H Hm h e He. destruct (Hm h) as [E|E]; rewrite E in He; [eauto|done]. Qed.
End hash.
