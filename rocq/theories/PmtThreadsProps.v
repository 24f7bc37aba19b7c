(** Tries of several threads over one archive database (C102). *)
From Verif Require Import Base KeccakModel PmtNibblesModel RlpModel PmtModel PmtFailModel PmtRunSpec PmtNibblesProof RlpProof PmtSpec
  PmtEncProof PmtLookupProof PmtOpsProof PmtDeleteProof PmtCommitProof PmtRunProof PmtStepProof PmtPropProof PmtExamples
  PmtFailProps PmtCloneModel PmtCloneProps PmtThreadsModel.

Section hash.
  Context (keccak : bytes -> bytes) (Hk : forall x, length (keccak x) = 32).
  Notation inv := (inv keccak).

  (** Of a view that is committing: what it writes is of strings hashed so far,
      and is written or yet to be. *)
  Definition committing (w : world) (v : trie) (rest : gmap bytes bytes) : Prop :=
    (forall h e, pending keccak v !! h = Some e -> keccak e = h /\ e ∈ w_trace w) /\
    (forall h e, pending keccak v !! h = Some e -> rest !! h = Some e \/ storage (w_db w) !! h = Some e) /\
    rest ⊆ pending keccak v /\
    (forall e, e ∈ hashed_root keccak (t_root v) -> e ∈ w_trace w).
  Definition tinv (s : threads) (sp : spec) : Prop :=
    inv false (th_world s) sp /\
    forall i rest, th_left s !! i = Some rest -> exists v, w_views (th_world s) !! i = Some v /\ committing (th_world s) v rest.

  Lemma committing_mono w w' v rest : storage (w_db w) ⊆ storage (w_db w') -> (forall e, e ∈ w_trace w -> e ∈ w_trace w') ->
    committing w v rest -> committing w' v rest.
  Proof using.
    intros Hd HT (A & B & C & D). split; [|split; [|split]].
    - intros h e He. destruct (A h e He). auto.
    - intros h e He. destruct (B h e He) as [|H]; [by left|right]. by eapply lookup_weaken.
    - done.
    - auto.
  Qed.
  Lemma inv_mono w w' s : light (w_db w') = false -> keyed keccak (w_trace w') (storage (w_db w')) ->
    storage (w_db w) ⊆ storage (w_db w') -> (forall e, e ∈ w_trace w -> e ∈ w_trace w') ->
    w_views w' = w_views w -> w_roots w' = w_roots w -> inv false w s -> inv false w' s.
  Proof using.
    intros Hl Hd Hs HT Ev Er [_ _ Hv Hr]. split; [done|done|rewrite Ev|rewrite Er].
    - eapply Forall2_impl; [exact Hv|]. intros ??. by apply view_ok_mono.
    - eapply Forall2_impl; [exact Hr|]. intros ??. by apply root_ok_mono.
  Qed.

  (** A call that is not a commit leaves the database and the other views. *)
  Lemma call_frame x w o : (forall i, o <> CCall (OAct i ACommit)) ->
    w_db (cstep keccak x w o).2 = w_db w /\
    forall i v, (forall a, o <> CCall (OAct i a)) -> w_views w !! i = Some v -> w_views (cstep keccak x w o).2 !! i = Some v.
  Proof using.
    intros Hn. destruct o as [[j a|j]|j]; cbn [cstep step].
    - destruct (w_views w !! j) as [t|] eqn:Ej; [|done].
      assert (forall i, (forall a0, CCall (OAct j a) <> CCall (OAct i a0)) -> j <> i) as Hji by (intros i Hi ->; by apply (Hi a)).
      destruct a as [k v|k|k|k| |k]; cbn [act].
      + destruct (insert _ _ _ _ _). cbn. split; [done|]. intros i v0 Hi Hv. rewrite list_lookup_insert_ne; auto.
      + destruct (remove _ _ _ _). cbn. split; [done|]. intros i v0 Hi Hv. rewrite list_lookup_insert_ne; auto.
      + done.
      + done.
      + by destruct (Hn j).
      + destruct (get_proof _ _ _ _ _). cbn. split; [done|]. intros i v0 Hi Hv. rewrite list_lookup_insert_ne; auto.
    - destruct (w_roots w !! j); [|done]. cbn. split; [done|]. intros i v _ Hv. by apply lookup_app_l_Some.
    - destruct (w_views w !! j); [|done]. cbn. split; [done|]. intros i v _ Hv. by apply lookup_app_l_Some.
  Qed.

  (** With all written, the end of a commit is the commit. *)
  Lemma end_commit d v d' v' r : light d = false -> (forall h e, pending keccak v !! h = Some e -> storage d !! h = Some e) ->
    commit keccak d v = (d', v', Ok r) -> d' = d /\ commit_end keccak d v = (v', Ok r).
  Proof using.
    intros Hl Hp E. assert (d' = d) as ->.
    { assert (storage d' = storage d) as Es.
      { apply map_eq. intros h. rewrite (commit_pending _ _ _ _ _ _ h Hl E).
        destruct (pending keccak v !! h) as [e|] eqn:Eh; [|done]. by rewrite (Hp h e Eh). }
      assert (light d' = light d) as El.
      { unfold commit in E. destruct (write_node keccak _ _) as [[cache gen] [e|e| |]]; [|by inversion E..].
        destruct e as [h0|data]; rewrite remove_batch_archive in E by (by rewrite (proj1 (insert_batch_storage _ _)));
          destruct (recover_from_db _ _) as [[n|]|e| |]; try (by inversion E); injection E as <- _ _;
          apply (proj1 (insert_batch_storage _ _)). }
      destruct d, d'. cbn in Es, El. by subst. }
    split; [done|]. unfold commit in E. unfold commit_end. destruct (write_node keccak _ _) as [[cache gen] [e|e| |]]; [|by inversion E..].
    destruct e as [h0|data]; rewrite remove_batch_archive in E by (by rewrite (proj1 (insert_batch_storage _ _))).
    - destruct (recover_from_db (db_insert_batch d (map_to_list cache)) h0) as [[n|]|e| |] eqn:Er; try (by inversion E).
      injection E as Ed <- <-. rewrite Ed in Er. by rewrite Er.
    - destruct (recover_from_db (db_insert_batch d _) (keccak data)) as [[n|]|e| |] eqn:Er; try (by inversion E).
      injection E as Ed <- <-. rewrite Ed in Er. by rewrite Er.
  Qed.

  Lemma estep_trace x s e : w_trace (th_world s) `prefix_of` w_trace (th_world (estep keccak x s e).2).
  Proof using.
    destruct e as [o|i|i k|i]; cbn [estep].
    - pose proof (cstep_trace keccak x (th_world s) o) as H. by destruct (cstep keccak x (th_world s) o).
    - destruct (w_views (th_world s) !! i); cbn; [by eexists|done].
    - destruct (th_left s !! i) as [rest|]; [|done]. by destruct (rest !! k).
    - destruct (w_views (th_world s) !! i); [|done]. by destruct (commit_end _ _ _).
  Qed.
  Lemma erun_trace x es : forall s, w_trace (th_world s) `prefix_of` w_trace (th_world (erun keccak x s es).2).
  Proof using.
    induction es as [|e es IH]; intros s; [done|]. cbn [erun].
    pose proof (estep_trace x s e) as H. destruct (estep keccak x s e) as [r s1]. cbn [snd] in H.
    specialize (IH s1). destruct (erun keccak x s1 es). cbn [snd] in *. by etrans.
  Qed.

  Lemma estep_inv x s sp e : tinv s sp -> enabled s e -> event_short e ->
    inj_on keccak (w_trace (th_world (estep keccak x s e).2)) ->
    tinv (estep keccak x s e).2 (sestep sp e) /\ estep_ok sp e (estep keccak x s e).1.
  Proof using Hk.
    intros [Hinv Hb] Hen Hs Hi. set (w := th_world s) in *.
    destruct e as [o|i|i k|i]; unfold sestep, estep_ok; cbn [as_op estep] in *.
    - (* a call *)
      fold w in Hi |- *.
      pose proof (cstep_inv keccak Hk x w sp o Hinv Hs) as Hst.
      pose proof (cstep_trace keccak x w o) as Htr.
      destruct (call_frame x w o) as [Hdb Hvw]. { intros i ->. by destruct Hen. }
      destruct (cstep keccak x w o) as [r w'] eqn:Ew. cbn [fst snd th_world th_left] in *.
      destruct (Hst Hi) as [Hinv' Hok]. split; [|done]. split; [done|]. intros i rest Hl. cbn [th_left th_world] in *.
      destruct (Hb i rest Hl) as (v & Hv & Hc). exists v. split.
      + apply Hvw; [|done]. intros a ->. destruct Hen as [_ Hn]. congruence.
      + apply (committing_mono w w'); [rewrite Hdb; reflexivity| |exact Hc]. intros e He. destruct Htr as [z ->]. apply elem_of_app. by left.
    - (* a commit starts *)
      destruct Hen as [[v Hv] Hno]. fold w in Hv, Hi |- *. rewrite Hv in Hi |- *. cbn [fst snd th_world th_left w_trace] in *.
      split; [|done].
      assert (HT : forall e, e ∈ w_trace w -> e ∈ w_trace w ++ hashed_root keccak (t_root v)).
      { intros e He. apply elem_of_app. by left. }
      destruct Hinv as [Hl Hd Hvs Hrs]. destruct (Forall2_lookup_l _ _ _ _ _ Hvs Hv) as (m & Em & Hvm).
      destruct (commit_ok keccak Hk false (w_db w) (w_trace w) v m Hl Hd Hvm Hi)
        as (d' & v' & r & E & _ & _ & Hd' & _).
      split.
      + cbn [th_world]. apply (inv_mono w); cbn; try done. by eapply keyed_mono.
      + intros j rest Hj. cbn [th_left th_world w_views] in *. destruct (decide (i = j)) as [<-|Hne].
        * rewrite lookup_insert in Hj. injection Hj as <-. exists v. split; [done|]. split; [|split; [|split]]; cbn [w_trace w_db].
          -- intros h e He. apply Hd'. rewrite (commit_pending _ _ _ _ _ _ h Hl E). by rewrite He.
          -- auto.
          -- done.
          -- intros e He. apply elem_of_app. by right.
        * rewrite lookup_insert_ne in Hj by done. destruct (Hb j rest Hj) as (v1 & Hv1 & Hc). exists v1. split; [done|].
          eapply committing_mono; [| |exact Hc]; cbn; [done|]. exact HT.
    - (* an entry is written *)
      destruct Hen as (rest & Hl & [e He]). rewrite Hl in Hi |- *. rewrite He in Hi |- *. cbn [fst snd th_world th_left w_trace] in *.
      split; [|done]. fold w in Hi |- *. destruct (Hb i rest Hl) as (v & Hv & A & B & C & D).
      assert (pending keccak v !! k = Some e) as Hp by (by eapply lookup_weaken).
      destruct (A k e Hp) as [Ek Ein]. pose proof Hinv as [Hli Hd Hvs Hrs].
      assert (Hsub : storage (w_db w) ⊆ storage (db_insert (w_db w) k e)).
      { cbn [db_insert storage]. apply map_subseteq_spec. intros h e' He'. destruct (decide (k = h)) as [<-|Hne].
        - rewrite lookup_insert. f_equal. destruct (Hd k e' He') as [E1 E2]. apply Hi; [done|done|congruence].
        - by rewrite lookup_insert_ne. }
      split.
      + cbn [th_world]. apply (inv_mono w); cbn; try done.
        intros h e' He'. destruct (decide (k = h)) as [<-|Hne].
        * rewrite lookup_insert in He'. injection He' as <-. done.
        * rewrite lookup_insert_ne in He' by done. by apply Hd.
      + intros j rest' Hj. cbn [th_left th_world w_views] in *. destruct (decide (i = j)) as [<-|Hne].
        * rewrite lookup_insert in Hj. injection Hj as <-. exists v. split; [done|]. split; [|split; [|split]]; cbn [w_trace w_db db_insert storage].
          -- done.
          -- intros h e' He'. destruct (decide (k = h)) as [<-|Hne]; [right; rewrite lookup_insert; congruence|].
             rewrite lookup_delete_ne, lookup_insert_ne by done. by apply B.
          -- etrans; [apply delete_subseteq|done].
          -- done.
        * rewrite lookup_insert_ne in Hj by done. destruct (Hb j rest' Hj) as (v1 & Hv1 & Hc). exists v1. split; [done|].
          eapply committing_mono; [| |exact Hc]; cbn; [exact Hsub|done].
    - (* a commit ends *)
      cbn [enabled] in Hen. destruct (Hb i ∅ Hen) as (v & Hv & A & B & C & D). fold w in Hv, Hi |- *. rewrite Hv in Hi |- *.
      pose proof Hinv as [Hl Hd Hvs Hrs]. destruct (Forall2_lookup_l _ _ _ _ _ Hvs Hv) as (m & Em & Hvm).
      assert (inj_on keccak (w_trace w)) as Hi0 by (destruct (commit_end keccak (w_db w) v); exact Hi).
      destruct (commit_ok keccak Hk false (w_db w) (w_trace w) v m Hl Hd Hvm)
        as (d' & v' & r & E & _ & _ & _ & Hv' & Hr' & _).
      { eapply inj_on_sub; [|exact Hi0]. intros e He. apply elem_of_app in He as [He|He]; auto. }
      destruct (end_commit (w_db w) v d' v' r Hl) as [-> Ee]; [|done|].
      { intros h e He. destruct (B h e He) as [H|H]; [by rewrite lookup_empty in H|done]. }
      rewrite Ee in Hi |- *. cbn [fst snd th_world th_left w_trace cstep_ok step_ok] in *. cbn [scstep sstep]. rewrite Em. cbn [sact act_ok].
      split; [|by exists r]. split.
      + cbn [th_world]. split; cbn; try done.
        * rewrite <- (list_insert_id (s_views sp) i m Em). apply Forall2_insert; [done|].
          eapply view_ok_mono; [done| |exact Hv']. intros e He. apply elem_of_app in He as [He|He]; auto.
        * by constructor.
      + intros j rest Hj. cbn [th_left th_world w_views] in *. apply lookup_delete_Some in Hj as [Hne Hj].
        destruct (Hb j rest Hj) as (v1 & Hv1 & Hc). exists v1. split; [by rewrite list_lookup_insert_ne|].
        eapply committing_mono; [| |exact Hc]; cbn; done.
  Qed.
  Lemma erun_inv x es : forall s sp, tinv s sp -> possible keccak x s es -> Forall event_short es ->
    inj_on keccak (w_trace (th_world (erun keccak x s es).2)) -> eouts_ok sp es (erun keccak x s es).1.
  Proof using Hk.
    induction es as [|e es IH]; intros s sp Hinv Hp Hs Hi; [done|]. inversion Hs; subst. cbn [erun eouts_ok possible] in *.
    destruct Hp as [Hen Hp]. pose proof (estep_inv x s sp e Hinv Hen) as Hst. destruct (estep keccak x s e) as [r s1].
    pose proof (erun_trace x es s1) as Hpre. specialize (IH s1 (sestep sp e)).
    destruct (erun keccak x s1 es) as [rs s2]. cbn [fst snd] in *.
    destruct Hst as [Hinv1 Hok]; [done| |by split; [|apply IH]].
    eapply inj_on_sub; [|exact Hi]. intros e' He. destruct Hpre as [z ->]. apply elem_of_app. by left.
  Qed.
End hash.

(** In every possible interleaving of calls and of the single writes of any
    number of commits, every call returns what it would if each trie were a map
    of its own, and every commit returns a root, at which a view with the
    contents committed can be opened. *)
Theorem C102_threads keccak x es : hash32 keccak -> let s0 := Threads (world0 keccak) ∅ in
  possible keccak x s0 es -> Forall event_short es ->
  inj_on keccak (w_trace (th_world (erun keccak x s0 es).2)) ->
  eouts_ok spec0 es (erun keccak x s0 es).1.
Proof.
  intros Hk s0 Hp Hs Hi. apply (erun_inv keccak Hk); [|done|done|done].
  split; [apply (inv0 keccak)|]. intros i rest Hl. cbn in Hl. by rewrite lookup_empty in Hl.
Qed.

(** A trie with a pending change is cloned; both change further and commit at the
    same time, their writes taking turns; each reads its own, and so does a view
    opened at the root of the commit that ended first. *)
Definition enabledb (s : threads) (e : event) : bool :=
  match e with
  | ECall (CCall (OAct i a)) => match a with ACommit => false | _ => bool_decide (th_left s !! i = None) end
  | ECall (CCall (OOpen _)) => true
  | ECall (CClone i) => bool_decide (th_left s !! i = None)
  | EBegin i => bool_decide (is_Some (w_views (th_world s) !! i)) && bool_decide (th_left s !! i = None)
  | EPut i k => match th_left s !! i with Some rest => bool_decide (is_Some (rest !! k)) | None => false end
  | EEnd i => bool_decide (th_left s !! i = Some ∅)
  end.
Fixpoint possibleb (keccak : bytes -> bytes) (x : nat) (s : threads) (es : list event) : bool :=
  match es with
  | [] => true
  | e :: es' => enabledb s e && possibleb keccak x (estep keccak x s e).2 es'
  end.
Lemma enabledb_spec s e : enabledb s e = true -> enabled s e.
Proof.
  destruct e as [[[i a|j]|i]|i|i k|i]; cbn [enabledb enabled].
  - destruct a; try discriminate; intros H; apply bool_decide_eq_true in H; done.
  - done.
  - intros H. by apply bool_decide_eq_true in H.
  - intros H. apply andb_prop in H as [H1 H2]. apply bool_decide_eq_true in H1, H2. done.
  - destruct (th_left s !! i) as [rest|]; [|discriminate]. intros H. apply bool_decide_eq_true in H. by exists rest.
  - intros H. by apply bool_decide_eq_true in H.
Qed.
Lemma possibleb_spec keccak x es : forall s, possibleb keccak x s es = true -> possible keccak x s es.
Proof.
  induction es as [|e es IH]; intros s; [done|]. cbn [possibleb possible]. intros H. apply andb_prop in H as [H1 H2].
  split; [by apply enabledb_spec|by apply IH].
Qed.
Fixpoint turns {A} (l1 l2 : list A) : list A :=
  match l1, l2 with a :: l1', b :: l2' => a :: b :: turns l1' l2' | _, _ => l1 ++ l2 end.
Definition threads0 : threads := Threads (world0 keccak256) ∅.
Definition threads_pre : list event :=
  [ECall (CCall (OAct 0 (AInsert k1 (v40 5)))); ECall (CClone 0); ECall (CCall (OAct 0 (AInsert k2 (v40 6))));
   ECall (CCall (OAct 1 (AInsert k2 (v40 7)))); ECall (CCall (OAct 1 (AInsert k4 (v40 8)))); EBegin 0; EBegin 1].
Definition puts_of (i : nat) : list event :=
  map (EPut i) (map fst (map_to_list (default ∅ (th_left (erun keccak256 0 threads0 threads_pre).2 !! i)))).
Definition threads_ex : list event :=
  threads_pre ++ turns (puts_of 1) (puts_of 0) ++
  [EEnd 0; ECall (CCall (OOpen 0)); ECall (CCall (OAct 2 (AGet k2))); EEnd 1; ECall (CCall (OAct 0 (AGet k4)));
   ECall (CCall (OAct 1 (AGet k2))); ECall (CCall (OAct 2 (AGet k1)))].
Example C102_example : possible keccak256 0 threads0 threads_ex /\ Forall event_short threads_ex /\
  inj_on keccak256 (w_trace (th_world (erun keccak256 0 threads0 threads_ex).2)) /\
  length (puts_of 0) = 4 /\ length (puts_of 1) = 6 /\
  omap (fun r => match r with RVal v => Some v | _ => None end) (erun keccak256 0 threads0 threads_ex).1 =
    [Ok (Some (v40 6)); Ok None; Ok (Some (v40 7)); Ok (Some (v40 5))].
Proof.
  split; [apply possibleb_spec; vm_compute; reflexivity|]. split.
  { assert (forallb (fun e => match e with ECall (CCall o) => op_shortb o | _ => true end) threads_ex = true) as H by (vm_compute; reflexivity).
    revert H. generalize threads_ex. intros l H. apply Forall_forall. intros e He. rewrite forallb_forall in H.
    apply elem_of_list_In in He. specialize (H e He). destruct e as [[o|i]|i|i k|i]; try exact I.
    cbn [event_short cop_short]. assert (Forall op_short [o]) as Ho by (apply op_shortb_spec; cbn [forallb]; by rewrite H).
    by inversion Ho. }
  split; [apply inj_onb_spec; vm_compute; reflexivity|]. split; [vm_compute; reflexivity|]. split; [vm_compute; reflexivity|].
  vm_compute. reflexivity.
Qed.
Print Assumptions C102_threads.
