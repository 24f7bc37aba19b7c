(** Putting single leaves (C99) and preimages (C100) into the mock store. *)
From Verif Require Import Base Sha256Model JmtNibModel JmtNibProof JmtModel JmtAbsProof JmtCacheProof JmtMoreProof JmtMockModel.
Local Open Scope N_scope.

(** ** C99 *)
Lemma hist_put_find h v x l max : hist_put h v x = Ok l ->
  hist_find (rev l) max = if v <=? max then x else match h with Some l => hist_find (rev l) max | None => None end.
Proof.
  unfold hist_put. destruct h as [h|].
  - destruct (unsnoc h) as [[init [lv y]]|] eqn:E.
    + apply unsnoc_Some in E as ->.
      destruct (N.ltb_spec v lv); [discriminate|]. destruct (N.eqb_spec v lv) as [->|Hne].
      * intros [= <-]. rewrite !hist_find_snoc. by destruct (lv <=? max).
      * intros [= <-]. by rewrite hist_find_snoc.
    + intros [= <-]. assert (h = []) as ->.
      { destruct h as [|b h] using rev_ind; [done|]. by rewrite unsnoc_snoc in E. }
      cbn [rev app hist_find]. done.
  - intros [= <-]. cbn [rev app hist_find]. done.
Qed.
(** An accepted leaf is there, with its value from its version on; nothing else
    has changed. *)
Theorem C99_accepted s nk k vh x s' : put_leaf s nk k vh x = (s', Ok tt) ->
  st_nodes s !! nk = None /\ st_nodes s' !! nk = Some (NLeaf k vh) /\
  (forall nk', nk' <> nk -> st_nodes s' !! nk' = st_nodes s !! nk') /\
  (forall v, fst nk <= v -> st_get_value_option s' v k = Some x) /\
  (forall v k', v < fst nk \/ k' <> k -> st_get_value_option s' v k' = st_get_value_option s v k') /\
  st_stale s' = st_stale s.
Proof.
  unfold put_leaf. destruct (st_nodes s !! nk) eqn:En; [discriminate|].
  destruct (hist_put (st_hist s !! k) (fst nk) (Some x)) as [l|e| |] eqn:E; try discriminate. intros [= <-].
  cbn [st_nodes st_stale st_hist]. unfold st_get_value_option. cbn [st_hist].
  split; [done|]. split; [apply lookup_insert|]. split; [intros nk' Hn; by rewrite lookup_insert_ne|]. split; [|split; [|done]].
  - intros v Hv. rewrite lookup_insert, (hist_put_find _ _ _ _ v E). apply N.leb_le in Hv. by rewrite Hv.
  - intros v k' Hv. destruct (decide (k' = k)) as [->|Hne]; [|by rewrite lookup_insert_ne].
    destruct Hv as [Hv|]; [|done]. rewrite lookup_insert, (hist_put_find _ _ _ _ v E).
    apply N.leb_gt in Hv. by rewrite Hv.
Qed.
(** A refused one changes no value; if the node key was taken it changes
    nothing; it never panics. *)
Theorem C99_refused s nk k vh x s' r : put_leaf s nk k vh x = (s', r) -> r <> Ok tt ->
  (exists e, r = Err e) /\ st_hist s' = st_hist s /\ st_stale s' = st_stale s /\ (is_Some (st_nodes s !! nk) -> s' = s).
Proof.
  unfold put_leaf. destruct (st_nodes s !! nk) eqn:En.
  - intros [= <- <-] _. by eauto.
  - assert (hist_put (st_hist s !! k) (fst nk) (Some x) <> Panic /\ hist_put (st_hist s !! k) (fst nk) (Some x) <> OutOfFuel) as [Hp Ho].
    { unfold hist_put. destruct (st_hist s !! k) as [h|]; [|done]. destruct (unsnoc h) as [[i [lv y]]|]; [|done].
      by destruct (fst nk <? lv), (fst nk =? lv). }
    destruct (hist_put _ _ _) as [l|e| |]; try done; intros [= <- <-] Hr; try done.
    cbn [st_hist st_stale]. split; [by eauto|]. split; [done|]. split; [done|]. intros [y Hy]. discriminate.
Qed.
Lemma differ (s s' : store) nk nd : st_nodes s !! nk = None -> st_nodes s' !! nk = Some nd -> s' <> s.
Proof. intros A B ->. congruence. Qed.
Lemma root_none s v : st_nodes s !! ((v, []) : nkey) = None -> get_root_hash sha256 s v = Err (MissingRoot v).
Proof. intros H. unfold get_root_hash. by rewrite H. Qed.
Lemma root_leaf s v k vh : st_nodes s !! ((v, []) : nkey) = Some (NLeaf k vh) -> exists r, get_root_hash sha256 s v = Ok r.
Proof. intros H. unfold get_root_hash. rewrite H. cbn [node_hash]. eexists. reflexivity. Qed.
Lemma put_taken s nk nd k vh x : st_nodes s !! nk = Some nd -> put_leaf s nk k vh x = (s, Err (NodeExists nk)).
Proof. intros H. unfold put_leaf. by rewrite H. Qed.
Definition ex_leaf_key : bytes := repeat Byte.x11 32.
Definition ex_leaf_store : store := (put_leaf empty_store (1, []) ex_leaf_key (sha256 [Byte.x61]) [Byte.x61]).1.
(** "A refused leaf leaves the store as it was" is false: the node of a leaf
    whose value comes too late stays, without its value, so that the tree can be
    read at a version that has no root before, and the key not. *)
Theorem C99_refused_refuted : exists s nk k vh x s' e,
  put_leaf s nk k vh x = (s', Err e) /\ s' <> s /\
  get_root_hash sha256 s (fst nk) = Err (MissingRoot (fst nk)) /\
  (exists r, get_root_hash sha256 s' (fst nk) = Ok r) /\
  (exists e', get_with_proof sha256 s' k (fst nk) = Err e') /\
  exists s2 e2, put_leaf s' nk k vh x = (s2, Err e2) /\ e2 <> e.
Proof.
  exists ex_leaf_store, (0, []), ex_leaf_key, (sha256 [Byte.x62]), [Byte.x62].
  exists (put_leaf ex_leaf_store (0, []) ex_leaf_key (sha256 [Byte.x62]) [Byte.x62]).1, ValuesOutOfOrder.
  set (s' := (put_leaf ex_leaf_store (0, []) ex_leaf_key (sha256 [Byte.x62]) [Byte.x62]).1). cbn [fst].
  assert (st_nodes ex_leaf_store !! ((0, []) : nkey) = None) as H0.
  { apply (bool_decide_unpack _). vm_compute. exact I. }
  assert (st_hist ex_leaf_store !! ex_leaf_key = Some [(1, Some [Byte.x61])]) as H1.
  { apply (bool_decide_unpack _). vm_compute. exact I. }
  assert (put_leaf ex_leaf_store (0, []) ex_leaf_key (sha256 [Byte.x62]) [Byte.x62] = (s', Err ValuesOutOfOrder)) as H2.
  { unfold s', put_leaf. rewrite H0, H1. reflexivity. }
  assert (st_nodes s' !! ((0, []) : nkey) = Some (NLeaf ex_leaf_key (sha256 [Byte.x62]))) as H3.
  { unfold s', put_leaf. rewrite H0, H1. apply lookup_insert. }
  assert (get_with_proof sha256 s' ex_leaf_key 0 = Err (MissingValue 0 ex_leaf_key)) as H4 by (vm_compute; reflexivity).
  clearbody s'. generalize dependent ex_leaf_store. intros s H0 _ H2.
  split; [exact H2|]. split; [exact (differ _ _ _ _ H0 H3)|].
  split; [exact (root_none _ _ H0)|]. split; [exact (root_leaf _ _ _ _ H3)|].
  split; [by exists (MissingValue 0 ex_leaf_key)|].
  exists s', (NodeExists (0, [])). split; [exact (put_taken _ _ _ _ _ _ H3)|discriminate].
Qed.
Example C99_example : put_leaf empty_store (1, []) ex_leaf_key (sha256 [Byte.x61]) [Byte.x61] = (ex_leaf_store, Ok tt) /\
  st_get_value_option ex_leaf_store 3 ex_leaf_key = Some [Byte.x61] /\
  (put_leaf ex_leaf_store (1, []) ex_leaf_key (sha256 [Byte.x62]) [Byte.x62]).2 = Err (NodeExists (1, [])).
Proof.
  split; [reflexivity|]. split; [vm_compute; reflexivity|]. vm_compute. reflexivity.
Qed.

(** ** C100 *)
(** After any number of keys have been put, with hashers of any kind, what is
    returned for a hash is the last of the keys put under it. *)
Definition put_all (t : preimages) (puts : list ((bytes -> bytes) * bytes)) : preimages :=
  fold_left (fun t p => put_key_preimage (fst p) t (snd p)) puts t.
Lemma put_all_last puts t p : put_all t (puts ++ [p]) = put_key_preimage (fst p) (put_all t puts) (snd p).
Proof. unfold put_all. by rewrite fold_left_app. Qed.
Theorem C100_from_puts puts kh key : preimage (put_all ∅ puts) kh = Ok (Some key) ->
  exists l h l', puts = l ++ (h, key) :: l' /\ h key = kh /\ forall h' key', (h', key') ∈ l' -> h' key' <> kh.
Proof.
  unfold preimage. intros [= H]. revert H. induction puts as [|[h k] puts IH] using rev_ind; [by intros H; unfold put_all in H; cbn [fold_left] in H; rewrite lookup_empty in H|].
  rewrite put_all_last. unfold put_key_preimage. cbn [fst snd]. destruct (decide (h k = kh)) as [E|Hne].
  - rewrite E, lookup_insert. intros [= <-]. exists puts, h, []. split; [done|]. split; [done|]. intros h' key' Hin. by apply elem_of_nil in Hin.
  - rewrite lookup_insert_ne by done. intros H. destruct (IH H) as (l & h1 & l' & -> & E & Hl).
    exists l, h1, (l' ++ [(h, k)]). split; [by rewrite <- app_assoc|]. split; [done|]. intros h' key' Hin.
    apply elem_of_app in Hin as [Hin|Hin]; [by apply Hl|]. apply elem_of_list_singleton in Hin as [= -> ->]. done.
Qed.
(** With one hasher that does not collide on the keys put, every key put is
    returned for its hash, and nothing for any other hash. *)
Theorem C100_complete h keys key : inj_on h keys -> key ∈ keys ->
  preimage (put_all ∅ (map (pair h) keys)) (h key) = Ok (Some key).
Proof.
  intros Hinj Hin. unfold preimage. f_equal. revert Hinj Hin. induction keys as [|k keys IH] using rev_ind; intros Hinj Hin; [by apply elem_of_nil in Hin|].
  rewrite map_app. cbn [map]. rewrite put_all_last. unfold put_key_preimage. cbn [fst snd].
  destruct (decide (h k = h key)) as [E|Hne].
  - rewrite E, lookup_insert. f_equal. apply Hinj; [set_solver|done|done].
  - rewrite lookup_insert_ne by done. apply IH; [intros x y Hx Hy; apply Hinj; set_solver|].
    apply elem_of_app in Hin as [Hin|Hin]; [done|]. apply elem_of_list_singleton in Hin as ->. done.
Qed.
Theorem C100_others h keys kh : (forall key, key ∈ keys -> h key <> kh) ->
  preimage (put_all ∅ (map (pair h) keys)) kh = Ok None.
Proof.
  intros Hn. unfold preimage. f_equal. destruct (put_all ∅ (map (pair h) keys) !! kh) as [key|] eqn:E; [|done].
  destruct (C100_from_puts (map (pair h) keys) kh key) as (l & h' & l' & El & Eh & _).
  { unfold preimage. by rewrite E. }
  assert ((h', key) ∈ map (pair h) keys) as Hin by (rewrite El; set_solver).
  change (map (pair h) keys) with (pair h <$> keys) in Hin. apply elem_of_list_fmap in Hin as (k & [= -> ->] & Hk).
  by destruct (Hn k Hk).
Qed.
(** A hasher that collides: the later key is returned for both. *)
Example C100_example : inj_on (fun b : bytes => take 1 b) [[Byte.x61; Byte.x62]; [Byte.x63]] /\
  preimage (put_all ∅ (map (pair (fun b : bytes => take 1 b)) [[Byte.x61; Byte.x62]; [Byte.x63]])) [Byte.x61] = Ok (Some [Byte.x61; Byte.x62]) /\
  preimage (put_all ∅ (map (pair (fun b : bytes => take 1 b)) [[Byte.x61; Byte.x62]; [Byte.x61]])) [Byte.x61] = Ok (Some [Byte.x61]) /\
  preimage (put_all ∅ (map (pair (fun b : bytes => take 1 b)) [[Byte.x61; Byte.x62]])) [Byte.x62] = Ok None.
Proof.
  split; [|vm_compute; repeat split]. intros x y Hx Hy E. rewrite !elem_of_cons, elem_of_nil in Hx, Hy.
  destruct Hx as [->|[->|[]]], Hy as [->|[->|[]]]; try reflexivity; discriminate.
Qed.
Print Assumptions C99_accepted.
Print Assumptions C99_refused.
Print Assumptions C99_refused_refuted.
Print Assumptions C100_from_puts.
Print Assumptions C100_complete.
Print Assumptions C100_others.
