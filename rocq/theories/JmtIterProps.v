(** The leaf iterator (C36, C37). *)
From Verif Require Import Base KeccakModel Sha256Model JmtNibModel JmtNibProof JmtSpec JmtNibSpec JmtModel JmtIterModel
  JmtAbsProof JmtCacheProof JmtPutProof JmtHistProof JmtRunSpec JmtValueProof JmtRunProof JmtProofProof
  JmtPropProof JmtOrderProof JmtIterProof JmtIterSpec JmtExamples JmtProps.
Local Open Scope N_scope.

Lemma last_write_app k a b :
  last_write k (a ++ b) = match last_write k b with Some x => Some x | None => last_write k a end.
Proof.
  induction a as [|ws a IH]; cbn [app last_write]; [by destruct (last_write k b)|].
  rewrite IH. by destruct (last_write k b).
Qed.
Lemma last_write_none k sets : (forall ws, ws ∈ sets -> last_write_in k ws = None) -> last_write k sets = None.
Proof.
  induction sets as [|ws sets IH]; intros H; cbn [last_write]; [done|].
  rewrite IH by (intros; apply H; by right). apply H. left.
Qed.
Lemma value_at_same hist k w u : w <= u -> (forall t, w < t <= u -> ~ wr_of hist t k) ->
  value_at k hist w = value_at k hist u.
Proof.
  intros Hle Hn. unfold value_at.
  replace (S (N.to_nat u)) with (S (N.to_nat w) + (N.to_nat u - N.to_nat w))%nat by lia.
  rewrite <-take_take_drop, last_write_app, (last_write_none k (take _ (drop _ _))); [done|].
  intros ws (i & Hi)%elem_of_list_lookup. apply lookup_take_Some in Hi as [Hi Hlt]. rewrite lookup_drop in Hi.
  destruct (last_write_in k ws) eqn:E; [|done]. exfalso.
  apply (Hn (w + 1 + N.of_nat i)); [lia|]. exists ws. rewrite E. split; [|eauto].
  replace (N.to_nat (w + 1 + N.of_nat i)) with (S (N.to_nat w) + i)%nat by lia. done.
Qed.

Section Run.
Context (sha hv : bytes -> bytes) (ops : list op) (s : store) (v : N).
Context (HR : reached sha hv ops s) (Hv : low ops <= v < versions ops).
Notation m := (contents_at (history ops) v).

(** The pairs of a version in key order. *)
Definition val_of (k : bytes) : bytes := default [] (m !! k).
Definition pair_of (k : bytes) : bytes * bytes := (k, val_of k).
Definition all_keys : list bytes := lkeys (cs_of hv (history ops) v) [].

Lemma wfm_m : wfm (cs_of hv (history ops) v).
Proof.
  apply wfm_hvm. intros k x. apply contents_wf. apply (si_wf _ _ _ _ _ (reached_inv _ _ _ _ HR)).
Qed.
Lemma run_values : exists ver, Holds sha (st_nodes s) v (cs_of hv (history ops) v) ver /\
  forall q k h, q = [] \/ live [] (cs_of hv (history ops) v) q -> subm (path_bits q) (cs_of hv (history ops) v) = {[k := h]} ->
  st_get_value s (vp v ver q) k = Ok (val_of k).
Proof.
  pose proof (reached_inv _ _ _ _ HR) as HS. destruct (si_hist _ _ _ _ _ HS) as [vs HI].
  pose proof (hi_holds _ _ _ _ _ _ _ _ HI v Hv) as HH. exists (vs v). split; [done|].
  intros q k h Hq E.
  assert (cs_of hv (history ops) v !! k = Some h) as Hk.
  { assert (subm (path_bits q) (cs_of hv (history ops) v) !! k = Some h) as Hs by (rewrite E; apply lookup_singleton).
    apply psub_Some in Hs as [? _]. done. }
  unfold cs_of, hvm in Hk. rewrite lookup_fmap in Hk.
  assert (value_at k (history ops) (vp v (vs v) q) = value_at k (history ops) v) as Hval.
  { destruct q as [|i q]; [done|]. destruct Hq as [?|Hq]; [done|]. apply value_at_same.
    - apply (h_le _ _ _ _ _ HH); done.
    - intros t Ht. apply (hi_val _ _ _ _ _ _ _ _ HI v (i :: q) k h t); [done..| |done]. rewrite E. apply lookup_singleton. }
  unfold st_get_value. rewrite (hist_ok_read s (history ops)) by apply (si_vals _ _ _ _ _ HS).
  rewrite Hval, <-contents_value. unfold val_of. destruct (m !! k) as [x|]; done.
Qed.

Lemma state_yields ver (HH : Holds sha (st_nodes s) v (cs_of hv (history ops) v) ver) it l :
  (forall q k h, q = [] \/ live [] (cs_of hv (history ops) v) q ->
   subm (path_bits q) (cs_of hv (history ops) v) = {[k := h]} -> st_get_value s (vp v ver q) k = Ok (val_of k)) ->
  State sha v (cs_of hv (history ops) v) ver it l -> yields s it (map pair_of l).
Proof.
  intros Hval. revert it. induction l as [|k l IH]; intros it HS.
  - constructor. exact (next_ok sha s v _ ver HH val_of Hval it [] HS).
  - destruct (next_ok sha s v _ ver HH val_of Hval it (k :: l) HS) as (it' & E & HS').
    cbn [map]. econstructor; [exact E|]. by apply IH.
Qed.

Lemma all_keys_elem k : k ∈ all_keys <-> is_Some (m !! k).
Proof.
  unfold all_keys. rewrite (lkeys_elem _ wfm_m). unfold cs_of, hvm. rewrite lookup_fmap, fmap_is_Some.
  split; [tauto|]. intros; split; [done|apply prefix_nil].
Qed.
Lemma pairs_elem (P : bytes -> Prop) (l : list bytes) : (forall k, k ∈ l <-> is_Some (m !! k) /\ P k) ->
  forall k x, (k, x) ∈ map pair_of l <-> m !! k = Some x /\ P k.
Proof.
  intros H k x. rewrite elem_of_list_fmap. unfold pair_of, val_of. split.
  - intros (k' & E & Hk). injection E as -> ->. apply H in Hk as [[y ->] HP]. done.
  - intros [E HP]. exists k. rewrite E. split; [done|]. apply H. eauto.
Qed.
Lemma asc_map (l : list bytes) : StronglySorted bytes_lt l -> ascending (map pair_of l).
Proof.
  induction 1 as [|k l H IH Hf]; cbn [map]; constructor; [done|]. apply Forall_map. done.
Qed.
Lemma asc_filter (P : bytes -> Prop) `{forall k, Decision (P k)} (l : list bytes) :
  StronglySorted bytes_lt l -> StronglySorted bytes_lt (filter P l).
Proof.
  induction 1 as [|k l H1 IH Hf]; [constructor|]. destruct (decide (P k)) as [Hp|Hp].
  - rewrite filter_cons_True by done. constructor; [done|]. apply Forall_forall. intros x Hx.
    apply elem_of_list_filter in Hx as [_ Hx]. rewrite Forall_forall in Hf. by apply Hf.
  - by rewrite filter_cons_False by done.
Qed.
End Run.

(** * C36: iterating from a key, present or not, gives the pairs of the version
    whose key is not below it, once each, in ascending order; it ends, and no
    step fails or panics. *)
Theorem C36_iterate_from_key sha hv ops s v start : reached sha hv ops s ->
  low ops <= v < versions ops -> length start = 32%nat ->
  exists it l, iter_new s v start = Ok it /\ yields s it l /\ ascending l /\
    forall k x, (k, x) ∈ l <-> contents_at (history ops) v !! k = Some x /\ ~ bytes_lt k start.
Proof.
  intros HR Hv Hl. destruct (run_values sha hv ops s v HR Hv) as (ver & HH & Hval).
  destruct (iter_new_ok sha s v _ ver HH (val_of ops v) Hval start Hl) as (it & E & HS).
  exists it, (map (pair_of ops v) (keys_from start (all_keys hv ops v))). split; [done|]. split_and!.
  - by apply (state_yields sha hv ops s v ver HH).
  - apply asc_map, asc_filter, lkeys_sorted. by apply (wfm_m sha hv ops s v).
  - apply pairs_elem. intros k. unfold keys_from. rewrite elem_of_list_filter, (all_keys_elem sha hv ops s v) by done. tauto.
Qed.
Example C36_example : reached sha256 sha256 ex_ops ex_store /\ low ex_ops <= 4 < versions ex_ops /\
  match iter_new ex_store 4 (mk 0x12 0x35) with
  | Ok it => match it_next ex_store it with
    | Ok (Some (inl a), it) => match it_next ex_store it with
      | Ok (Some (inl b), it) => match it_next ex_store it with
        | Ok (Some (inl c), it) => match it_next ex_store it with
           | Ok (None, _) => [a; b; c] = [(kb, va); (kd, vb); (kc, va)]
           | _ => False end
        | _ => False end
      | _ => False end
    | _ => False end
  | _ => False end /\
  match iter_new ex_store 4 (mk 0x12 0x36) with
  | Ok it => match it_next ex_store it with
    | Ok (Some (inl a), _) => a = (kd, vb) | _ => False end
  | _ => False end /\
  match iter_new ex_store 4 (mk 0x90 0x01) with
  | Ok it => match it_next ex_store it with Ok (None, _) => True | _ => False end
  | _ => False end.
Proof. split; [exact ex_reached|]. vm_compute. repeat split; discriminate. Qed.
Print Assumptions C36_iterate_from_key.

(** * C37: iterating from an index gives the sorted pairs from that index on,
    and nothing for an index not below the number of keys. *)
Theorem C37_iterate_from_index sha hv ops s v i : reached sha hv ops s ->
  low ops <= v < versions ops ->
  exists it sorted, iter_new_by_index s v (N.of_nat i) = Ok it /\ yields s it (drop i sorted) /\ ascending sorted /\
    length sorted = size (contents_at (history ops) v) /\
    forall k x, (k, x) ∈ sorted <-> contents_at (history ops) v !! k = Some x.
Proof.
  intros HR Hv. destruct (run_values sha hv ops s v HR Hv) as (ver & HH & Hval).
  destruct (iter_index_ok sha s v _ ver HH (val_of ops v) Hval i) as (it & E & HS).
  exists it, (map (pair_of ops v) (all_keys hv ops v)). split; [done|]. split_and!.
  - rewrite <-fmap_drop. by apply (state_yields sha hv ops s v ver HH).
  - apply asc_map, lkeys_sorted. by apply (wfm_m sha hv ops s v).
  - rewrite map_length. unfold all_keys. rewrite lkeys_length by (by apply (wfm_m sha hv ops s v)).
    unfold cnt. cbn [path_bits flat_map]. rewrite subm_nil. unfold cs_of, hvm. apply map_size_fmap.
  - intros k x. rewrite (pairs_elem ops v (fun _ => True)); [tauto|]. intros k'.
    rewrite (all_keys_elem sha hv ops s v) by done. tauto.
Qed.
Example C37_example : reached sha256 sha256 ex_ops ex_store /\ low ex_ops <= 4 < versions ex_ops /\
  size (contents_at (history ex_ops) 4) = 4%nat /\
  match iter_new_by_index ex_store 4 2 with
  | Ok it => match it_next ex_store it with
    | Ok (Some (inl a), it) => match it_next ex_store it with
      | Ok (Some (inl b), it) => match it_next ex_store it with
         | Ok (None, _) => [a; b] = [(kd, vb); (kc, va)]
         | _ => False end
      | _ => False end
    | _ => False end
  | _ => False end /\
  match iter_new_by_index ex_store 4 4 with
  | Ok it => match it_next ex_store it with Ok (None, _) => True | _ => False end
  | _ => False end.
Proof. split; [exact ex_reached|]. vm_compute. repeat split; discriminate. Qed.
Print Assumptions C37_iterate_from_index.
