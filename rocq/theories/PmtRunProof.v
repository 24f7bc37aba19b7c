(** Client histories of the Patricia trie refine finite maps. *)
From Verif Require Import Base PmtNibblesModel RlpModel PmtModel PmtRunSpec PmtNibblesProof RlpProof PmtSpec
  PmtEncProof PmtLookupProof PmtOpsProof PmtDeleteProof PmtCommitProof.
Open Scope res_scope.

Definition Bmax : nat := N.to_nat (2 ^ 59).
Lemma Bmax_small : (N.of_nat Bmax < 2 ^ 60)%N.
Proof. unfold Bmax. rewrite N2Nat.id. done. Qed.
Lemma Bmax_short b : short b -> length b <= Bmax /\ length (from_raw b true) <= Bmax.
Proof.
  unfold short, Bmax, from_raw. intros H. rewrite app_length, unpack_length. cbn [length].
  pose proof (N2Nat.id (2 ^ 59)) as E. generalize dependent (N.to_nat (2 ^ 59)). intros; lia.
Qed.
Global Opaque Bmax.

(** Contents as maps. *)
Lemma from_raw_inj a b : from_raw a true = from_raw b true -> a = b.
Proof. unfold from_raw. intros H%app_inv_tail. by apply unpack_inj. Qed.

Lemma holds_insert t t' m k v : holds t m -> updates t t' (from_raw k true) (Some v) ->
  holds t' (<[k := v]> m).
Proof.
  intros [H1 H2] Hu. split.
  - intros k'. rewrite (Hu _ (tpath_from_raw k')). destruct (decide (k = k')) as [<-|Hne].
    + rewrite lookup_insert. by rewrite decide_True.
    + rewrite lookup_insert_ne by done. rewrite decide_False; [auto|].
      intros E. by apply from_raw_inj in E.
  - intros p Hp. rewrite (Hu _ Hp). case_decide; [eauto|by apply H2].
Qed.
Lemma holds_delete t t' m k : holds t m -> updates t t' (from_raw k true) None ->
  holds t' (delete k m).
Proof.
  intros [H1 H2] Hu. split.
  - intros k'. rewrite (Hu _ (tpath_from_raw k')). destruct (decide (k = k')) as [<-|Hne].
    + rewrite lookup_delete. by rewrite decide_True.
    + rewrite lookup_delete_ne by done. rewrite decide_False; [auto|].
      intros E. by apply from_raw_inj in E.
  - intros p Hp. rewrite (Hu _ Hp). case_decide; [done|by apply H2].
Qed.
Lemma holds_empty : holds NEmpty ∅.
Proof. split; [done|]. intros p _ H. by destruct H. Qed.

Lemma unpack_prefix k k' x q : x < 16 -> unpack k ++ x :: q = from_raw k' true -> proper_prefix k k'.
Proof.
  intros Hx. unfold from_raw. revert k'. induction k as [|b k IH]; intros [|b' k'] E; cbn [unpack app] in E.
  - injection E as -> _. lia.
  - split; [by exists (b' :: k')|done].
  - injection E as E1 E2. pose proof (hi_lt b). lia.
  - injection E as E1 E2 E3. destruct (IH _ E3) as [[z ->] Hne].
    rewrite (hi_lo_inj b b' E1 E2). split; [by exists z|]. intros [= Heq]. by apply Hne.
Qed.

Lemma tame_no_longer t m k : holds t m -> (forall k', is_Some (m !! k') -> ~ proper_prefix k k') ->
  no_longer t (from_raw k true).
Proof.
  intros [H1 H2] Ht b x q Eb Hx Hq.
  assert (b = unpack k) as -> by (unfold from_raw in Eb; by apply app_inv_tail in Eb).
  destruct (lk t (unpack k ++ x :: q)) eqn:E; [|done]. exfalso.
  destruct (H2 (unpack k ++ x :: q)) as [k' Ek].
  - apply tpath_app; [apply unpack_nibs|]. apply tpath_cons. auto.
  - congruence.
  - apply (Ht k'); [|by eapply unpack_prefix]. rewrite <- H1, <- Ek, E. eauto.
Qed.

Lemma unpack_split k k' x q : x < 16 -> unpack k ++ x :: q = from_raw k' true ->
  exists a z, k' = k ++ a :: z /\ hi a = x.
Proof.
  intros Hx E. destruct (unpack_prefix k k' x q Hx E) as [[[|a z] ->] Hne]; [by rewrite app_nil_r in Hne|].
  exists a, z. split; [done|]. unfold from_raw in E. rewrite unpack_app, <- app_assoc in E.
  apply app_inv_head in E. by injection E.
Qed.
Lemma forks_forked t m k : holds t m -> forks m k <-> forked t (from_raw k true).
Proof.
  intros [H1 H2]. split.
  - intros (a & b & x & y & Ha & Hb & Hne).
    exists (unpack k), (hi a), (hi b), (lo a :: from_raw x true), (lo b :: from_raw y true).
    assert (forall c z, unpack k ++ hi c :: lo c :: from_raw z true = from_raw (k ++ c :: z) true) as E.
    { intros c z. unfold from_raw. rewrite unpack_app, <- app_assoc. done. }
    split_and!; try apply hi_lt; try done.
    + apply tpath_cons. right. split; [apply lo_lt|apply tpath_from_raw].
    + apply tpath_cons. right. split; [apply lo_lt|apply tpath_from_raw].
    + rewrite E, H1. by apply not_eq_None_Some.
    + rewrite E, H1. by apply not_eq_None_Some.
  - intros (b & x & y & q & r & Eb & Hx & Hy & Hne & Hq & Hr & Hl1 & Hl2).
    assert (b = unpack k) as -> by (unfold from_raw in Eb; by apply app_inv_tail in Eb).
    assert (forall z q, z < 16 -> tpath q -> lk t (unpack k ++ z :: q) <> None ->
      exists c l, is_Some (m !! (k ++ c :: l)) /\ hi c = z) as Hs.
    { intros z q' Hz Hq' Hl. destruct (H2 (unpack k ++ z :: q')) as [k' Ek]; [|done|].
      - apply tpath_app; [apply unpack_nibs|]. apply tpath_cons. auto.
      - destruct (unpack_split k k' z q' Hz Ek) as (c & l & -> & Hc). exists c, l.
        rewrite <- H1, <- Ek. split; [by apply not_eq_None_Some|done]. }
    destruct (Hs x q Hx Hq Hl1) as (a & l1 & Ha & Ea). destruct (Hs y r Hy Hr Hl2) as (b & l2 & Hb & Eb').
    exists a, b, l1, l2. split; [done|]. split; [done|]. change (hi a <> hi b). congruence.
Qed.
Lemma tame_fine t m k : holds t m ->
  (is_Some (m !! k) -> (forall k', is_Some (m !! k') -> ~ proper_prefix k k') \/ forks m k) ->
  fine t (from_raw k true).
Proof.
  intros Hh Ht Hl. destruct Ht as [H|H].
  - destruct Hh as [<- _]. by apply not_eq_None_Some.
  - left. by eapply tame_no_longer.
  - right. by apply (forks_forked t m k Hh).
Qed.

Lemma fuel_for_enough x k : enough k + x = fuel_for x k.
Proof. unfold enough, fuel_for, from_raw. rewrite app_length, unpack_length. cbn [length]. lia. Qed.

Lemma rank_le n : rank n <= 2.
Proof. destruct n; cbn; lia. Qed.

Section hash.
  Context (keccak : bytes -> bytes) (Hk : forall x, length (keccak x) = 32).
  Notation enc := (enc keccak).
  Notation collapse := (collapse keccak).
  Notation repr := (repr keccak true).
  Notation rrepr := (rrepr keccak true).
  Notation known := (known keccak true).
  Notation stored := (stored keccak true).
  Notation adds := (adds keccak).
  Notation keyed := (keyed keccak).
  Notation wfc c t := (wf c Bmax Bmax t).

  Definition view_ok (c : bool) (d : db) (T : list bytes) (v : trie) (m : gmap bytes bytes) : Prop :=
    exists t, rrepr d (t_root v) t /\ wfc c t /\ holds t m /\ keyed T (t_cache v).
  Definition root_ok (c : bool) (d : db) (r : bytes) (m : gmap bytes bytes) : Prop :=
    exists t, r = keccak (enc t) /\ wfc c t /\ holds t m /\ known d t /\ stored d t.
  Record inv (c : bool) (w : world) (s : spec) : Prop := Inv {
    inv_light : light (w_db w) = false;
    inv_db : keyed (w_trace w) (storage (w_db w));
    inv_views : Forall2 (view_ok c (w_db w) (w_trace w)) (w_views w) (s_views s);
    inv_roots : Forall2 (root_ok c (w_db w)) (w_roots w) (s_roots s)
  }.

  (** The operations on one view. *)
  Lemma get_ok c d T v m k x : view_ok c d T v m -> short k ->
    get (fuel_for x k) d v k = Ok (m !! k) /\
    contains (fuel_for x k) d v k = Ok (bool_decide (is_Some (m !! k))).
  Proof.
    intros (t & Hr & Hw & [Hh _] & _) Hs.
    destruct (get_at_spec keccak Hk Bmax Bmax_small true d (fuel_for x k) (t_root_hash v) (t_root v) t
      (from_raw k true) 0 c Bmax) as [E|[? _]]; try done.
    - lia.
    - rewrite drop_0. apply tpath_from_raw.
    - rewrite <- fuel_for_enough. unfold enough. pose proof (rank_le (t_root v)). lia.
    - rewrite drop_0 in E. unfold get, contains. rewrite E, Hh. cbn. split; [done|].
      by destruct (m !! k).
  Qed.

  Lemma insert_ok c d T v m k val x : view_ok c d T v m -> short k -> short val -> val <> [] ->
    exists v', insert (fuel_for x k) d v k val = (v', Ok tt) /\ view_ok c d T v' (<[k := val]> m).
  Proof.
    intros (t & Hr & Hw & Hh & Hc) Hs Hsv Hne.
    destruct (Bmax_short k Hs) as [_ Hl]. destruct (Bmax_short val Hsv) as [Hlv _].
    destruct (insert_at_spec keccak Hk Bmax Bmax_small true d (fuel_for x k) (t_root_hash v) (t_passing v)
      (t_root v) t (from_raw k true) 0 val c Bmax)
      as [(pk' & n' & t' & E & Hr' & Hw' & Hu & _ & _)|[? _]]; try done.
    - lia.
    - rewrite drop_0. apply tpath_from_raw.
    - rewrite <- fuel_for_enough. unfold enough. pose proof (rank_le (t_root v)). lia.
    - rewrite drop_0 in *. unfold insert. destruct val as [|b0 val]; [done|]. rewrite E. cbn.
      eexists. split; [reflexivity|]. exists t'. cbn. split_and!; [by left|done|by eapply holds_insert|done].
  Qed.

  Lemma remove_ok c d T v m k x : view_ok c d T v m -> short k ->
    (c = true -> is_Some (m !! k) -> (forall k', is_Some (m !! k') -> ~ proper_prefix k k') \/ forks m k) ->
    exists v' b, remove (fuel_for x k) d v k = (v', Ok b) /\ view_ok c d T v' (delete k m) /\
      (is_Some (m !! k) -> b = true) /\ (c = true -> b = true <-> is_Some (m !! k) \/ forks m k).
  Proof.
    intros (t & Hr & Hw & Hh & Hc) Hs Ht.
    destruct (delete_at_spec keccak Hk Bmax Bmax_small true d (fuel_for x k) (t_root_hash v) (t_passing v)
      (t_root v) t (from_raw k true) 0 c Bmax)
      as [(pk' & n' & t' & b & E & Hr' & Hnh & Hw' & Hu & Hb1 & Hb2 & Hb3 & _)|[? _]]; try done.
    - lia.
    - rewrite drop_0. apply tpath_from_raw.
    - rewrite drop_0. intros Hct. eapply tame_fine; eauto.
    - rewrite <- fuel_for_enough. unfold enough. pose proof (rank_le (t_root v)). lia.
    - rewrite drop_0 in *. unfold remove. rewrite E. cbn.
      eexists _, b. split; [reflexivity|]. rewrite (forks_forked t m k Hh). pose proof Hh as [Hh1 Hh2].
      split; [|rewrite <- Hh1; split; [intros [? Ev]; apply Hb1; congruence|]].
      + exists t'. cbn. split_and!; [by left|done|by eapply holds_delete|done].
      + intros Hct. rewrite (Hb3 Hct). by rewrite not_eq_None_Some.
  Qed.

  (** Flushing the cache. *)
  Lemma adds_dup (l : list bytes) (e : bytes) (m m' : gmap bytes bytes) : e ∈ l -> adds l m m' -> adds (l ++ [e]) m m'.
  Proof.
    intros He Ha h. destruct (Ha h) as [[E N]|(e' & Hin & Hh & Hm)].
    - left. split; [done|]. intros e' [?| ->%elem_of_list_singleton]%elem_of_app; auto.
    - right. exists e'. rewrite elem_of_app. auto.
  Qed.

  Lemma flush_ok (d : db) (T T' : list bytes) (cache : gmap bytes bytes) :
    keyed T (storage d) -> keyed T' cache -> (forall e, e ∈ T -> e ∈ T') -> inj_on keccak T' ->
    let d' := db_insert_batch d (map_to_list cache) in
    storage d ⊆ storage d' /\ keyed T' (storage d') /\ light d' = light d /\
    (forall h e, cache !! h = Some e -> db_get d' h = Some e).
  Proof.
    intros Hd Hc Hsub Hinj d'. split_and!.
    - apply map_subseteq_spec. intros h e He. unfold d'. rewrite flush_lookup.
      destruct (cache !! h) as [e'|] eqn:E; [|done].
      destruct (Hd _ _ He) as [H1 H2]. destruct (Hc _ _ E) as [H3 H4].
      f_equal. apply Hinj; [done|auto|congruence].
    - intros h e He. unfold d' in He. rewrite flush_lookup in He.
      destruct (cache !! h) as [e'|] eqn:E; [injection He as <-; eauto|].
      destruct (Hd _ _ He). auto.
    - apply insert_batch_storage.
    - intros h e He. unfold db_get, d'. rewrite flush_lookup, He. done.
  Qed.

  Lemma adds_lookup (T l : list bytes) (m m' : gmap bytes bytes) (e : bytes) : adds l m m' -> inj_on keccak T -> (forall e, e ∈ l -> e ∈ T) ->
    e ∈ l -> m' !! keccak e = Some e.
  Proof.
    intros Ha Hinj Hsub He. destruct (Ha (keccak e)) as [[_ N]|(e' & Hin & Hh & Hm)].
    - by destruct (N e He).
    - rewrite Hm. f_equal. apply Hinj; auto.
  Qed.

  Lemma commit_exact c d T v t :
    light d = false -> keyed T (storage d) -> rrepr d (t_root v) t -> wfc c t -> keyed T (t_cache v) ->
    inj_on keccak (T ++ hashed_root keccak (t_root v)) ->
    exists d', commit keccak d v = (d', Trie (collapse t) (keccak (enc t)) ∅ ∅ ∅, Ok (keccak (enc t))) /\
      light d' = false /\ storage d ⊆ storage d' /\
      keyed (T ++ hashed_root keccak (t_root v)) (storage d') /\
      repr d' (collapse t) t /\ known d' t /\ stored d' t.
  Proof.
    intros Hl Hd Hr Hw Hc Hinj.
    set (T' := T ++ hashed_root keccak (t_root v)) in *.
    assert (Hsub : forall e, e ∈ T -> e ∈ T') by (intros; apply elem_of_app; auto).
    (* the write *)
    assert (Hwr : exists cache gen, exists e,
      write_node keccak (t_root v) (t_cache v, t_gen v) = ((cache, gen), Ok e) /\
      let p := match e with
        | EHash h => (h, cache)
        | EInline data => (keccak data, <[keccak data := data]> cache)
        end in
      p.1 = keccak (enc t) /\ keyed T' p.2 /\
      (forall s, s ∈ subs t -> long keccak s -> known d s \/ p.2 !! keccak (enc s) = Some (enc s)) /\
      (known d t \/ p.2 !! keccak (enc t) = Some (enc t))).
    { destruct (rrepr_resolve keccak Hk Bmax Bmax_small true d (t_root v) c Bmax t Hr Hw (le_n _))
        as [[Hr' Hnh]|(h & E & _)].
      - destruct (encode_write keccak true d (t_root v) t c Bmax Bmax (t_cache v, t_gen v) Hr' Hw)
          as [_ ([cache gen] & E & Ha)]. cbn [fst] in Ha.
        assert (Hraw : raw keccak (t_root v) = enc t) by (by eapply raw_enc).
        assert (Hhr : hashed_root keccak (t_root v) = hashed keccak (t_root v) ++ [enc t]).
        { unfold hashed_root. rewrite Hraw. destruct (t_root v); try done. by edestruct Hnh. }
        exists cache, gen, (enc_out keccak t). split; [done|].
        set (p := match enc_out keccak t with EHash h => (h, cache)
          | EInline data => (keccak data, <[keccak data := data]> cache) end).
        assert (Hp : p.1 = keccak (enc t) /\ adds (hashed_root keccak (t_root v)) (t_cache v) p.2).
        { unfold p, enc_out. rewrite Hhr. destruct (Nat.ltb_spec (length (enc t)) 32) as [Hlt|Hge].
          - split; [done|]. cbn [snd]. eapply adds_app; [exact Ha|apply adds_one].
          - split; [done|]. cbn [snd]. apply adds_dup; [|done].
            destruct (t_root v) eqn:Er; cbn [hashed]; try (by edestruct Hnh); rewrite Hraw;
              destruct (Nat.ltb_spec (length (enc t)) 32); try lia; apply elem_of_app; right; left. }
        destruct Hp as [Hp1 Hp2]. cbn zeta. fold p.
        assert (Hlook : forall e, e ∈ hashed_root keccak (t_root v) -> p.2 !! keccak e = Some e).
        { intros e He. eapply adds_lookup; eauto. intros. apply elem_of_app. auto. }
        split_and!; [done|by eapply keyed_adds| |].
        + intros s Hs Hls. destruct (hashed_covers keccak true d (t_root v) t c Bmax Bmax s) as [Hin|Hkn]; auto.
          right. apply Hlook. rewrite Hhr. apply elem_of_app. auto.
        + right. apply Hlook. rewrite Hhr. apply elem_of_app. right. left.
      - rewrite E in *. apply rrepr_hash in Hr as (-> & Hkn & Hst).
        eexists (t_cache v), (t_gen v), _. split; [reflexivity|]. cbn zeta. cbn [fst snd].
        split_and!; [done|by eapply keyed_mono| |by left].
        intros s Hs Hls. left. unfold PmtSpec.stored in Hst. rewrite Forall_forall in Hst. auto. }
    destruct Hwr as (cache & gen & e & Ew & Hp). cbn zeta in Hp.
    unfold commit. rewrite Ew.
    set (p := match e with EHash h => (h, cache)
      | EInline data => (keccak data, <[keccak data := data]> cache) end) in *.
    destruct p as [rh cache'] eqn:Ep. cbn [fst snd] in Hp. destruct Hp as (-> & Hkc & Hsubs & Hroot).
    destruct (flush_ok d T T' cache' Hd Hkc Hsub Hinj) as (Hmono & Hkd' & Hl' & Hcl).
    set (d' := db_insert_batch d (map_to_list cache')) in *.
    rewrite remove_batch_archive by congruence.
    assert (Hkt : known d' t).
    { destruct Hroot as [Hkn|Hcch]; [by eapply known_mono|]. left. by apply Hcl. }
    assert (Hst : stored d' t).
    { unfold PmtSpec.stored. rewrite Forall_forall. intros s Hs Hls.
      destruct (Hsubs s Hs Hls) as [Hkn|Hcch]; [by eapply known_mono|]. left. by apply Hcl. }
    destruct (recover_known keccak Hk Bmax Bmax_small true d' c Bmax t Hw (le_n _) Hkt) as [->|[? _]]; [|done].
    assert (Hrc : repr d' (collapse t) t) by (by eapply repr_collapse_wf).
    eexists d'. split; [reflexivity|]. split_and!; try done. congruence.
  Qed.

  Lemma commit_ok c d T v m :
    light d = false -> keyed T (storage d) -> view_ok c d T v m ->
    inj_on keccak (T ++ hashed_root keccak (t_root v)) ->
    exists d' v' r, commit keccak d v = (d', v', Ok r) /\
      light d' = false /\ storage d ⊆ storage d' /\
      keyed (T ++ hashed_root keccak (t_root v)) (storage d') /\
      view_ok c d' (T ++ hashed_root keccak (t_root v)) v' m /\ root_ok c d' r m /\
      (exists t, v' = Trie (collapse t) r ∅ ∅ ∅ /\ r = keccak (enc t) /\
         repr d' (collapse t) t /\ wfc c t /\ holds t m /\ known d' t /\ stored d' t).
  Proof.
    intros Hl Hd (t & Hr & Hw & Hh & Hc) Hinj.
    destruct (commit_exact c d T v t Hl Hd Hr Hw Hc Hinj) as (d' & E & Hl' & Hs & Hk' & Hrc & Hkn & Hst).
    eexists d', _, _. split; [exact E|]. do 3 (split; [done|]). split; [|split].
    - exists t. split; [by left|]. split; [done|]. split; [done|].
      intros h e He. cbn in He. by rewrite lookup_empty in He.
    - exists t. done.
    - exists t. done.
  Qed.

  (** Proofs: the nodes collected on the way down. *)
  Lemma get_path_spec fuel d rh n t path idx c L :
    rrepr d n t -> wf c Bmax L t -> L <= Bmax -> idx <= length path -> tpath (drop idx path) ->
    3 * (length path - idx) + rank n < fuel ->
    exists ss, get_path_at fuel d rh n path idx = Ok (map collapse ss) /\
      Forall (fun s => s ∈ subs t /\ (known d s /\ stored d s) /\ (repr d n t -> long keccak s)) ss /\
      (forall d2 rh2 fuel2, Forall (fun s => db_get d2 (keccak (enc s)) = Some (enc s)) ss ->
         3 * (length path - idx) + rank n < fuel2 ->
         get_at fuel2 d2 rh2 n path idx = Ok (lk t (drop idx path))).
  Proof.
    revert n t idx L. induction fuel as [|fuel IH]; intros n t idx L Hr Hw HL Hi Hp Hf; [lia|].
    cbn [get_path_at]. rewrite offset_drop by done. cbn [rbind].
    destruct (rrepr_resolve keccak Hk Bmax Bmax_small true d n c L t Hr Hw HL)
      as [[Hr' Hnh]|(h & -> & [[Hrec Hr']|[? _]])]; [| |done].
    - destruct Hr' as [|k v|p n t Hr'|ns ts v Hr'|t Hlong]; [..|by edestruct Hnh].
      + exists []. split_and!; [done|constructor|]. intros d2 rh2 [|f2] _ Hf2; [lia|].
        cbn [get_at]. rewrite offset_drop by done. done.
      + exists []. split_and!; [done|constructor|]. intros d2 rh2 [|f2] _ Hf2; [lia|].
        cbn [get_at]. rewrite offset_drop by done. cbn [rbind]. rewrite lk_leaf. by case_decide.
      + (* extension *)
        clear Hnh. inversion Hw; subst.
        destruct (Nat.eqb_spec (common_prefix (drop idx path) p) (length p)) as [E|E].
        * destruct (cp_full _ _ E) as [r Er]. rewrite E.
          destruct (drop_prefix _ _ _ _ Hi Er) as [Hi' Ed].
          destruct (IH n t (idx + length p) L0) as (ss & E1 & Hss & Hget).
          -- by left.
          -- done.
          -- lia.
          -- done.
          -- rewrite Ed. rewrite Er in Hp. by apply tpath_app in Hp.
          -- destruct p; [done|]. cbn [length rank] in *. destruct n; cbn [rank]; lia.
          -- exists ss. split_and!; [done| |].
             ++ eapply Forall_impl; [exact Hss|]. intros s (H1' & H2' & H3').
                split; [cbn; by right|split; [done|auto]].
             ++ intros d2 rh2 [|f2] Hd2 Hf2; [lia|]. cbn [get_at]. rewrite offset_drop by done.
                cbn [rbind]. rewrite (proj2 (Nat.eqb_eq _ _) E), E.
                rewrite Hget; [|done|destruct p; [done|]; cbn [length rank] in *; destruct n; cbn [rank]; lia].
                rewrite Ed, Er. by rewrite lk_ext_app.
        * exists []. split_and!; [done|constructor|]. intros d2 rh2 [|f2] _ Hf2; [lia|].
          cbn [get_at]. rewrite offset_drop by done. cbn [rbind].
          rewrite (proj2 (Nat.eqb_neq _ _) E).
          rewrite lk_ext_None; [done|]. intros r Er. apply E. rewrite Er. apply cp_app.
      + (* branch *)
        clear Hnh. inversion Hw; subst.
        destruct (drop idx path) as [|x p] eqn:Ed0; [by apply tpath_nil in Hp|].
        destruct (drop_lt _ _ _ _ Ed0) as [Hlt Ed].
        rewrite lk_branch. destruct (Nat.eqb_spec x 16) as [->|Hx].
        * exists []. split_and!; [done|constructor|]. intros d2 rh2 [|f2] _ Hf2; [lia|].
          cbn [get_at]. rewrite offset_drop by done. rewrite Ed0. done.
        * apply tpath_cons in Hp as [[-> _]|[Hx' Hp]]; [done|].
          destruct (lookup_lt_is_Some_2 ts x) as [t Ht]; [lia|].
          destruct (Forall2_lookup_r _ _ _ _ _ Hr' Ht) as (n & Hn & Hrn).
          rewrite Hn, Ht. rewrite Forall_lookup in H2.
          destruct (IH n t (idx + 1) L0) as (ss & E1 & Hss & Hget).
          -- by left.
          -- eauto.
          -- lia.
          -- lia.
          -- by rewrite Ed.
          -- cbn [rank] in Hf. destruct n; cbn [rank]; lia.
          -- exists ss. split_and!; [done| |].
             ++ eapply Forall_impl; [exact Hss|]. intros s (H1' & H2' & H3').
                split; [by eapply subs_child|split; [done|auto]].
             ++ intros d2 rh2 [|f2] Hd2 Hf2; [lia|]. cbn [get_at]. rewrite offset_drop by done.
                rewrite Ed0. cbn [rbind]. rewrite (proj2 (Nat.eqb_neq _ _) Hx), Hn.
                rewrite Hget; [by rewrite Ed|done|cbn [rank] in *; destruct n; cbn [rank]; lia].
    - rewrite Hrec. cbn [rbind].
      assert (Hk1 := rrepr_hash keccak true d h t Hr). destruct Hk1 as (-> & Hkn & Hst).
      destruct (IH (collapse t) t idx L) as (ss & E1 & Hss & Hget); auto.
      + by left.
      + pose proof (rank_collapse keccak _ _ _ _ Hw). cbn [rank] in Hf. lia.
      + rewrite E1. cbn [rbind]. exists (ss ++ [t]). split_and!.
        * by rewrite map_app.
        * apply Forall_app. split.
          -- eapply Forall_impl; [exact Hss|]. intros s (H1' & H2' & H3'). auto.
          -- constructor; [|constructor]. split; [apply subs_refl|split; [done|]].
             intros Hrh. inversion Hrh; subst.
             match goal with H : keccak _ = keccak _ |- _ => idtac | _ => idtac end. done.
        * intros d2 rh2 [|f2] Hd2 Hf2; [lia|]. apply Forall_app in Hd2 as [Hd2 Hdt].
          inversion Hdt; subst. cbn [get_at]. rewrite offset_drop by done. cbn [rbind].
          destruct (recover_known keccak Hk Bmax Bmax_small true d2 c L t Hw HL) as [->|[? _]]; [by left| |done].
          cbn [rbind]. apply Hget; [done|].
          pose proof (rank_collapse keccak _ _ _ _ Hw). cbn [rank] in Hf2. lia.
  Qed.

  Lemma encode_all_ok d ns ts c w : Forall2 (fun n t => repr d n t /\ wfc c t /\ forall h, n <> NHash h) ns ts ->
    exists w', encode_all keccak ns w = (w', Ok (map enc ts)) /\
      adds (concat (map (hashed_below keccak) ns)) w.1 w'.1.
  Proof.
    intros H. revert w. induction H as [|n t ns ts (Hr & Hw & Hn) _ IH]; intros w.
    - exists w. split; [done|apply adds_nil].
    - cbn [encode_all]. destruct (encode_write keccak true d n t c Bmax Bmax w Hr Hw) as [He _].
      destruct (He Hn) as (w1 & -> & Ha). destruct (IH w1) as (w2 & -> & Ha2).
      exists w2. split; [done|]. cbn [map concat]. by eapply adds_app.
  Qed.

  Lemma keyed_adds_in (T T' l : list bytes) (m m' : gmap bytes bytes) :
    keyed T m -> adds l m m' -> (forall e, e ∈ T -> e ∈ T') -> (forall e, e ∈ l -> e ∈ T') -> keyed T' m'.
  Proof.
    intros Hm Ha H1 H2. eapply keyed_mono; [by eapply keyed_adds|].
    intros e [?|?]%elem_of_app; auto.
  Qed.

  Lemma in_concat_map_rev (f : node -> list bytes) (l : list node) e :
    e ∈ concat (map f (rev l)) -> e ∈ concat (map f l).
  Proof.
    rewrite !elem_of_list_In, !in_concat. intros (x & Hx & He). exists x. split; [|done].
    apply in_map_iff in Hx as (n & <- & Hn). apply in_map, in_rev, Hn.
  Qed.

  (** What [get_proof] returns, and that it leaves the view usable. *)
  Lemma proof_ok c d T v m k x : view_ok c d T v m -> short k ->
    let path := match get_path_at (fuel_for x k) d (t_root_hash v) (t_root v) (from_raw k true) 0 with
                | Ok p => p | _ => [] end in
    let T' := T ++ concat (map (hashed_below keccak) (path ++ [t_root v])) in
    exists v' r, get_proof keccak (fuel_for x k) d v k = (v', r) /\ view_ok c d T' v' m /\
      t_root v' = t_root v /\ t_root_hash v' = t_root_hash v.
  Proof.
    intros (t & Hr & Hw & Hh & Hc) Hs. cbn zeta.
    destruct (get_path_spec (fuel_for x k) d (t_root_hash v) (t_root v) t (from_raw k true) 0 c Bmax)
      as (ss & E & Hss & _); try done.
    - lia.
    - rewrite drop_0. apply tpath_from_raw.
    - rewrite <- fuel_for_enough. unfold enough. pose proof (rank_le (t_root v)). lia.
    - unfold get_proof. rewrite E. cbn [with_key].
      set (T' := T ++ _).
      assert (Hsub : forall e, e ∈ T -> e ∈ T') by (intros; apply elem_of_app; auto).
      destruct (rrepr_resolve keccak Hk Bmax Bmax_small true d (t_root v) c Bmax t Hr Hw (le_n _))
        as [[Hr' Hnh]|(h & Eh & _)].
      + set (path' := match t_root v with NEmpty => map collapse ss | r => map collapse ss ++ [r] end).
        assert (Hin : forall n, n ∈ path' -> n ∈ map collapse ss ++ [t_root v]).
        { intros n. unfold path'. rewrite elem_of_app. destruct (t_root v); auto; rewrite elem_of_app; auto. }
        assert (exists ts, Forall2 (fun n t => repr d n t /\ wfc c t /\ forall h, n <> NHash h) (rev path') ts)
          as [ts Hts].
        { assert (Hall : Forall (fun n => exists t, repr d n t /\ wfc c t /\ forall h, n <> NHash h) (rev path')).
          { apply Forall_forall. intros n Hn.
            apply elem_of_list_In, in_rev, elem_of_list_In, Hin, elem_of_app in Hn as [Hn|Hn].
            - apply elem_of_list_In, in_map_iff in Hn as (s & <- & Hs').
              apply elem_of_list_In in Hs'. rewrite Forall_forall in Hss.
              destruct (Hss s Hs') as (Hsub' & [Hkn Hsts] & _).
              pose proof (wf_sub keccak Hk Bmax Bmax_small _ _ _ _ _ Hw Hsub') as Hws.
              exists s. split_and!; [|done|].
              + by eapply repr_collapse_wf.
              + intros h. by eapply collapse_not_hash.
            - apply elem_of_list_singleton in Hn as ->. eauto. }
          clear -Hall. induction Hall as [|n l [t Ht] _ [ts IH]]; [by exists []|].
          exists (t :: ts). by constructor. }
        destruct (encode_all_ok d (rev path') ts c (t_cache v, t_gen v) Hts) as ([cache gen] & Ee & Ha).
        rewrite Ee. eexists _, _. split; [reflexivity|]. split; [|done].
        exists t. cbn. split_and!; [done|done|done|].
        eapply keyed_adds_in; [exact Hc|exact Ha|done|].
        intros e He. apply elem_of_app. right. apply in_concat_map_rev in He.
        apply elem_of_list_In, in_concat in He as (l & Hl & He).
        apply in_map_iff in Hl as (n & <- & Hn). apply elem_of_list_In, in_concat.
        exists (hashed_below keccak n). split; [|done]. apply in_map.
        apply elem_of_list_In, Hin. by apply elem_of_list_In.
      + rewrite Eh. cbn [encode_all]. rewrite rev_app_distr. cbn [rev app encode_all PmtModel.encode_raw].
        eexists _, _. split; [reflexivity|]. split; [|done].
        exists t. cbn. split_and!; [by rewrite <- Eh|done|done|by eapply keyed_mono].
  Qed.
End hash.
