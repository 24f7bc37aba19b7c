(** Exclusion proofs (C38). *)
From Verif Require Import Base KeccakModel Sha256Model JmtNibModel JmtNibProof JmtSpec JmtNibSpec JmtModel JmtIterModel
  JmtExclModel JmtExclSpec JmtAbsProof JmtCacheProof JmtPutProof JmtHistProof JmtRunSpec JmtValueProof JmtRunProof
  JmtReadProof JmtProofProof JmtPropProof JmtOrderProof JmtIterProof JmtExclProof JmtExamples JmtProps.
Local Open Scope N_scope.

(** [p] is the proof the tree gives for the present key [l], and it verifies. *)
Definition includes (sha hv : bytes -> bytes) (s : store) (v : N) (m : gmap bytes bytes) (l : bytes) (p : proof) : Prop :=
  exists x, m !! l = Some x /\ get_with_proof sha s l v = Ok (Some x, p) /\
    verify sha hv p (smt_root sha hv m) l (Some x) = Ok tt.
(** An exclusion proof that shows [k] to lie between neighbours. *)
Inductive excludes (sha hv : bytes -> bytes) (s : store) (v : N) (m : gmap bytes bytes) (k : bytes) : exclusion -> Prop :=
| excl_leftmost r p : none_below m k -> above m k r -> includes sha hv s v m r p ->
    excludes sha hv s v m k (ExLeftmost p)
| excl_rightmost l p : below m k l -> none_above m k -> includes sha hv s v m l p ->
    excludes sha hv s v m k (ExRightmost p)
| excl_middle l r pl pr : below m k l -> above m k r -> includes sha hv s v m l pl -> includes sha hv s v m r pr ->
    excludes sha hv s v m k (ExMiddle pr pl).

Section Run.
Context (sha hv : bytes -> bytes) (ops : list op) (s : store) (v : N).
Context (HR : reached sha hv ops s) (Hv : low ops <= v < versions ops).
Notation m := (contents_at (history ops) v).
Notation cs := (cs_of hv (history ops)).

Lemma cs_some k : is_Some (cs v !! k) <-> is_Some (m !! k).
Proof. unfold cs_of, hvm. by rewrite lookup_fmap, fmap_is_Some. Qed.
Lemma run_born : exists ver, Holds sha (st_nodes s) v (cs v) ver /\
  (forall q nd, q <> [] -> live [] (cs v) q -> st_nodes s !! (v, q) = Some nd -> ver q = v) /\
  (forall q r, q <> [] -> live [] (cs v) q -> is_Some (m !! r) -> q `prefix_of` nibs r -> written_at (history ops) v r -> ver q = v).
Proof.
  pose proof (reached_inv _ _ _ _ HR) as HS. destruct (si_hist _ _ _ _ _ HS) as [vs HI].
  pose proof (hi_holds _ _ _ _ _ _ _ _ HI v Hv) as HH. exists (vs v). split; [done|]. split.
  - intros q nd Hq Hl Hnd.
    assert (exists u, v <= u < versions ops /\ live_at cs vs u (v, q)) as (u & Hu & Hlu).
    { destruct (hi_comp _ _ _ _ _ _ _ _ HI (v, q) nd Hnd Hq) as [[Hn Hln]|[t Ht]].
      - exists (N.of_nat (length (history ops)) - 1). split; [|done]. unfold versions in *. lia.
      - pose proof (hi_rec _ _ _ _ _ _ _ _ HI t (v, q) Ht) as (A & B & _). cbn [fst] in A.
        exists (t - 1). split; [unfold versions; lia|]. apply (hi_was _ _ _ _ _ _ _ _ HI); [done|done|].
        by apply (hi_lo _ _ _ _ _ _ _ _ HI t (v, q)). }
    pose proof (hi_born _ _ _ _ _ _ _ _ HI u v (v, q) ltac:(unfold versions in *; lia) ltac:(unfold versions in *; lia) Hlu ltac:(cbn; lia)) as (_ & _ & E).
    exact E.
  - intros q r Hq Hl [x Hr] Hp (ws & Hws & Hin). destruct (decide (vs v q = v)) as [|Hne]; [done|exfalso].
    pose proof (h_le _ _ _ _ _ HH q Hq Hl) as Hle.
    apply (hi_val _ _ _ _ _ _ _ _ HI v q r (hv x) v Hv Hq Hl); [|lia|].
    + apply psub_Some. split; [|done]. unfold cs_of, hvm. by rewrite lookup_fmap, Hr.
    + exists ws. split; [done|]. clear -Hin. induction ws as [|[k y] ws IH]; [by apply elem_of_nil in Hin|].
      cbn [map fst] in Hin. cbn [last_write_in]. destruct (last_write_in r ws); [eauto|].
      apply elem_of_cons in Hin as [->|Hin]; [rewrite decide_True by done; eauto|].
      specialize (IH Hin). by destruct IH.
Qed.

Lemma nearest_below k l : nearest (cs v) ExLeft k l <-> match l with Some l => below m k l | None => none_below m k end.
Proof.
  destruct l as [l|]; unfold below, none_below; cbn [nearest kdir].
  - rewrite cs_some. split; intros (A & B & C); (split; [done|]; split; [done|]); intros j Hj; apply C; by apply cs_some.
  - split; intros C j Hj; apply C; by apply cs_some.
Qed.
Lemma nearest_above k r : nearest (cs v) ExRight k r <-> match r with Some r => above m k r | None => none_above m k end.
Proof.
  destruct r as [r|]; unfold above, none_above; cbn [nearest kdir].
  - rewrite cs_some. split; intros (A & B & C); (split; [done|]; split; [done|]); intros j Hj; apply C; by apply cs_some.
  - split; intros C j Hj; apply C; by apply cs_some.
Qed.
Lemma present_includes l : is_Some (m !! l) -> exists x p, get_with_proof sha s l v = Ok (Some x, p) /\
  includes sha hv s v m l p.
Proof.
  intros [x Hx]. pose proof (reached_inv _ _ _ _ HR) as HS.
  destruct (C29_inclusion_complete sha hv ops s v l x HR Hv) as (p & r & E & Er & Hver); [by rewrite <-contents_value|].
  exists x, p. split; [done|]. exists x. split; [done|]. split; [done|].
  rewrite (root_ok sha hv s _ _ v HS Hv) in Er. injection Er as <-. done.
Qed.
Lemma excl_cases k : length k = 32%nat -> m !! k = None -> m <> ∅ ->
  (exists e, get_with_exclusion_proof sha s k v = Ok (inr e) /\ excludes sha hv s v m k e) \/
  (exists q r, get_with_exclusion_proof sha s k v = Err (MissingNode (v, q)) /\
     (below m k r \/ above m k r) /\ ~ written_at (history ops) v r).
Proof.
  intros Hk Hno Hne. destruct run_born as (ver & HH & Hborn & Hwr).
  assert (cs v !! k = None) as Hno'.
  { destruct (cs v !! k) as [y|] eqn:E; [|done]. destruct (proj1 (cs_some k)) as [z Hz]; [by rewrite E|]. congruence. }
  assert (cs v <> ∅) as Hne'.
  { intros E. apply Hne. apply map_empty. intros j. destruct (m !! j) as [y|] eqn:Ej; [|done].
    destruct (proj2 (cs_some j)) as [z Hz]; [by rewrite Ej|]. rewrite E in Hz. by rewrite lookup_empty in Hz. }
  unfold get_with_exclusion_proof.
  pose proof (reached_inv _ _ _ _ HR) as HS. rewrite (read_ok sha hv s _ _ k v HS Hv Hk), Hno. cbn [rbind].
  destruct (bounding_ok sha s v (cs v) ver HH Hborn k Hk Hno' Hne') as [(l & r & E & Hl & Hr)|(e & q & r & E & Hn & Hq & Hlv & Hp & Hver)].
  - left. rewrite E. cbn [rbind]. rewrite nearest_below in Hl. rewrite nearest_above in Hr.
    destruct l as [l|], r as [r|].
    + destruct (present_includes l (proj1 Hl)) as (xl & pl & El & Il). destruct (present_includes r (proj1 Hr)) as (xr & pr & Er & Ir).
      rewrite El, Er. cbn [rbind snd]. eexists. split; [done|]. by apply excl_middle with l r.
    + destruct (present_includes l (proj1 Hl)) as (xl & pl & El & Il). rewrite El. cbn [rbind snd]. eexists. split; [done|].
      by apply excl_rightmost with l.
    + destruct (present_includes r (proj1 Hr)) as (xr & pr & Er & Ir). rewrite Er. cbn [rbind snd]. eexists. split; [done|].
      by apply excl_leftmost with r.
    + exfalso. apply Hne. apply map_empty. intros j. destruct (m !! j) as [y|] eqn:Ej; [|done]. exfalso.
      destruct (klt_total j k) as [H|[->|H]]; [by apply (Hl j); [rewrite Ej|]|congruence|by apply (Hr j); [rewrite Ej|]].
  - right. exists q, r. rewrite E. cbn [rbind]. split; [done|].
    assert (is_Some (m !! r)) as Hr by (apply cs_some; exact (proj1 Hn)).
    split.
    + destruct e; [left; by apply (nearest_below k (Some r))|right; by apply (nearest_above k (Some r))].
    + intros Hw. by apply Hver, (Hwr q r).
Qed.
End Run.

(** * C38: a result of [get_with_exclusion_proof] for an absent key names the
    true neighbours.  In full the property says that there always is a result:
    [exists e, get_with_exclusion_proof sha s k v = Ok (inr e) /\ excludes sha hv s v m k e]
    under the same hypotheses.  That is false, see [C38_exclusion_refuted]; the
    only other outcome is a failed lookup of a node at the version asked for,
    and a neighbour that was not written at that version. *)
Theorem C38_exclusion_partial sha hv ops s v k : reached sha hv ops s -> low ops <= v < versions ops ->
  length k = 32%nat -> contents_at (history ops) v !! k = None -> contents_at (history ops) v <> ∅ ->
  (exists e, get_with_exclusion_proof sha s k v = Ok (inr e) /\
     excludes sha hv s v (contents_at (history ops) v) k e) \/
  (exists q r, get_with_exclusion_proof sha s k v = Err (MissingNode (v, q)) /\
     (below (contents_at (history ops) v) k r \/ above (contents_at (history ops) v) k r) /\
     ~ written_at (history ops) v r).
Proof. intros HR Hv Hk Hno Hne. by apply (excl_cases sha hv ops s v HR Hv). Qed.

(** When the neighbours were written at the version asked for, as in a tree
    written by one value set, there is a result. *)
Theorem C38_neighbours_written sha hv ops s v k : reached sha hv ops s -> low ops <= v < versions ops ->
  length k = 32%nat -> contents_at (history ops) v !! k = None -> contents_at (history ops) v <> ∅ ->
  (forall r, below (contents_at (history ops) v) k r \/ above (contents_at (history ops) v) k r ->
     written_at (history ops) v r) ->
  exists e, get_with_exclusion_proof sha s k v = Ok (inr e) /\
    excludes sha hv s v (contents_at (history ops) v) k e.
Proof.
  intros HR Hv Hk Hno Hne Hw.
  destruct (C38_exclusion_partial sha hv ops s v k HR Hv Hk Hno Hne) as [?|(q & r & _ & Hn & Hnw)]; [done|].
  by destruct Hnw; apply Hw.
Qed.
(** A present key gives its value and inclusion proof. *)
Theorem C38_present_key sha hv ops s v k x : reached sha hv ops s -> low ops <= v < versions ops ->
  contents_at (history ops) v !! k = Some x ->
  exists p, get_with_exclusion_proof sha s k v = Ok (inl (x, p)) /\
    includes sha hv s v (contents_at (history ops) v) k p.
Proof.
  intros HR Hv Hx. destruct (present_includes sha hv ops s v HR Hv k) as (y & p & E & HI); [by rewrite Hx|].
  exists p. pose proof HI as (z & Hz & Ez & _). rewrite Hx in Hz. injection Hz as <-. rewrite Ez in E. injection E as <-.
  split; [|done]. unfold get_with_exclusion_proof. by rewrite Ez.
Qed.

(** The neighbour is looked up at the version asked for, so one written
    earlier is not found, whatever the hash functions. *)
Definition excl_ops : list op := [OpPut [[(ka, Some va); (kc, Some vc)]; [(ka, Some vb)]]].
Theorem C38_exclusion_refuted sha hv : exists s, reached sha hv excl_ops s /\ low excl_ops <= 1 < versions excl_ops /\
  contents_at (history excl_ops) 1 !! kb = None /\ contents_at (history excl_ops) 1 <> ∅ /\
  exists q, get_with_exclusion_proof sha s kb 1 = Err (MissingNode (1, q)).
Proof.
  destruct (run_ok sha hv excl_ops) as (s & E & _); [wf|].
  exists s. split; [split; [wf|exact E]|]. split; [vm_compute; split; [discriminate|reflexivity]|].
  split; [vm_compute; reflexivity|]. split; [intros H; apply (f_equal (lookup ka)) in H; vm_compute in H; discriminate|].
  exists [Nib true false false true].
  assert (H : on_run sha hv excl_ops (fun s => get_with_exclusion_proof sha s kb 1 = Err (MissingNode (1, [Nib true false false true]))))
    by (vm_compute; reflexivity).
  exact (on_run_elim _ _ _ _ _ H E).
Qed.
(** One value set: a key below, between and above its two keys, and one of them. *)
Definition excl_one : list op := [OpPut [[(ka, Some va); (kc, Some vc)]]].
Definition excl_kind (o : res jerr (bytes * proof + exclusion)) : option nat :=
  match o with
  | Ok (inl _) => Some 0%nat | Ok (inr (ExLeftmost _)) => Some 1%nat | Ok (inr (ExMiddle _ _)) => Some 2%nat
  | Ok (inr (ExRightmost _)) => Some 3%nat | _ => None end.
Example C38_example sha hv : exists s, reached sha hv excl_one s /\
  map (fun k => excl_kind (get_with_exclusion_proof sha s k 0)) [mk 0x00 0; kb; mk 0xff 0; ka] =
  [Some 1%nat; Some 2%nat; Some 3%nat; Some 0%nat] /\
  (forall r, is_Some (contents_at (history excl_one) 0 !! r) -> written_at (history excl_one) 0 r).
Proof.
  destruct (run_ok sha hv excl_one) as (s & E & _); [wf|].
  exists s. split; [split; [wf|exact E]|]. split.
  - assert (H : on_run sha hv excl_one (fun s => map (fun k => excl_kind (get_with_exclusion_proof sha s k 0))
        [mk 0x00 0; kb; mk 0xff 0; ka] = [Some 1%nat; Some 2%nat; Some 3%nat; Some 0%nat]))
      by (vm_compute; reflexivity).
    exact (on_run_elim _ _ _ _ _ H E).
  - intros r Hr. exists [(ka, Some va); (kc, Some vc)]. split; [reflexivity|].
    change (contents_at (history excl_one) 0) with (<[kc := vc]> (<[ka := va]> (∅ : gmap bytes bytes))) in Hr.
    destruct Hr as [x Hr]. cbn [map fst].
    apply lookup_insert_Some in Hr as [[E1 _]|[_ Hr]]; [rewrite <-E1; apply elem_of_list_further, elem_of_list_here|].
    apply lookup_insert_Some in Hr as [[E1 _]|[_ Hr]]; [rewrite <-E1; apply elem_of_list_here|].
    by rewrite lookup_empty in Hr.
Qed.
Print Assumptions C38_exclusion_partial.
Print Assumptions C38_neighbours_written.
Print Assumptions C38_present_key.
Print Assumptions C38_exclusion_refuted.
