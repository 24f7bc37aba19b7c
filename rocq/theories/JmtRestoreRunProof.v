(** The state of a restoration after any calls, and what [finish] writes. *)
From Coq Require Import Sorting.Sorted.
From Verif Require Import Base JmtNibModel JmtNibProof JmtSpec JmtTraceSpec JmtNibSpec JmtModel JmtHashProof JmtAbsProof JmtCacheProof
  JmtInsertProof JmtPutProof JmtHistProof JmtRunSpec JmtValueProof JmtRunProof JmtReadProof JmtProofProof JmtOrderProof
  JmtIterModel JmtIterProof JmtRestoreModel JmtRestoreProof JmtRestoreAddProof JmtRestoreVerifyProof JmtRestoreSpec JmtRestoreCheckProof
  JmtRestoreRunSpec.
Local Open Scope nat_scope.

Lemma last_key_snoc l k x : last_key (l ++ [(k, x)]) = Some k.
Proof. unfold last_key. by rewrite last_snoc. Qed.
Lemma to_map_snoc l k x : k ∉ l.*1 -> to_map (l ++ [(k, x)]) = <[k := x]> (to_map l).
Proof. intros H. unfold to_map. by rewrite list_to_map_snoc. Qed.
Lemma to_map_elem l k x : NoDup (l.*1) -> to_map l !! k = Some x <-> (k, x) ∈ l.
Proof. intros H. unfold to_map. symmetry. by apply elem_of_list_to_map. Qed.
Lemma to_map_None l k : to_map l !! k = None <-> k ∉ l.*1.
Proof. unfold to_map. symmetry. apply not_elem_of_list_to_map. Qed.


Lemma follows_dec prev k : (match prev with Some pk => key_ltb pk k | None => true end) = true <-> follows prev k.
Proof. destruct prev as [pk|]; cbn [follows]; [apply key_ltb_lt|done]. Qed.

Lemma nibs_cons k : length k = 32 -> exists x r, nibs k = x :: r.
Proof.
  intros H. pose proof (nibs_length k) as Hl. destruct (nibs k) as [|x r]; [cbn [length] in Hl; lia|eauto].
Qed.

(** Writing values of one version, some of them for the second time. *)
Lemma hist_puts_last v vals : forall h (b : bytes -> option (list (N * option bytes))),
  (forall e, e ∈ vals -> fst (fst e) = v) -> (forall k e, e ∈ default [] (b k) -> (fst e < v)%N) ->
  (forall k, h !! k = b k \/ exists y, h !! k = Some (default [] (b k) ++ [(v, y)])) ->
  exists h', hist_puts vals h = Ok h' /\
    forall k, h' !! k = match last (of_key k vals) with None => h !! k | Some e => Some (default [] (b k) ++ [e]) end.
Proof.
  induction vals as [|[[w k0] x] vals IH]; intros h b Hw Hb Hh; [by exists h|]. cbn [hist_puts].
  assert (w = v) as -> by (apply (Hw (w, k0, x)); by left).
  assert (hist_put (h !! k0) v x = Ok (default [] (b k0) ++ [(v, x)])) as E.
  { destruct (Hh k0) as [->|[y ->]].
    - destruct (b k0) as [l|] eqn:El; [|done]. apply hist_put_append. intros e He. apply (Hb k0). by rewrite El.
    - unfold hist_put. rewrite unsnoc_app, N.ltb_irrefl, N.eqb_refl. done. }
  rewrite E. cbn [rbind]. destruct (IH (<[k0 := default [] (b k0) ++ [(v, x)]]> h) b) as (h' & E' & Hh').
  - intros e He. apply Hw. by right.
  - done.
  - intros k. destruct (decide (k0 = k)) as [<-|Hne]; [rewrite lookup_insert; eauto|rewrite lookup_insert_ne by done; apply Hh].
  - exists h'. split; [done|]. intros k. rewrite Hh', of_key_cons. destruct (decide (k0 = k)) as [<-|Hne].
    + rewrite lookup_insert. rewrite last_cons. by destruct (last (of_key k0 vals)).
    + by rewrite lookup_insert_ne.
Qed.

Section Run.
Context (sha hv : bytes -> bytes) (s0 : store) (v : N) (root : bytes) (lo : gmap bytes bytes).
Hypothesis Hfresh : fresh s0 v.
Notation Pend := (Pend sha v).
Notation hvm := (hvm hv).
Notation smt_root := (smt_root sha hv).
Implicit Types (Wr Pd l : list (bytes * bytes)).

(** The history of a key, when [m] has been written at [v]; [lo] are values left
    there by a restoration that was interrupted. *)
Definition hist_with (m : gmap bytes bytes) (k : bytes) : option (list (N * option bytes)) :=
  match m !! k with
  | Some x => Some (default [] (st_hist s0 !! k) ++ [(v, Some x)])
  | None => match lo !! k with
            | Some y => Some (default [] (st_hist s0 !! k) ++ [(v, Some y)])
            | None => st_hist s0 !! k
            end
  end.
(** [Wr] are the pairs of accepted chunks, [Pd] the ones received since. *)
Record RI (st : rstate) Wr Pd : Prop := {
  ri_ver : rs_ver st = v;
  ri_root : rs_root st = root;
  ri_num : rs_num st = 0%N <-> Wr ++ Pd = [];
  ri_prev : rs_prev st = (fun kx : bytes * bytes => (fst kx, hv (snd kx))) <$> last (Wr ++ Pd);
  ri_dup : NoDup ((Wr ++ Pd).*1);
  ri_tree : match last (Wr ++ Pd) with
            | None => rs_partial st = [pinfo_empty (v, [])] /\ rs_frozen st = ∅ /\
                      forall q, st_nodes (rs_store st) !! (v, q) = None
            | Some (k, _) => exists p, Pend (rs_partial st) (rs_frozen st) (st_nodes (rs_store st)) (hvm (to_map (Wr ++ Pd))) k p
            end;
  ri_old : forall u q, u <> v -> st_nodes (rs_store st) !! (u, q) = st_nodes s0 !! (u, q);
  ri_stale : st_stale (rs_store st) = st_stale s0;
  ri_ow : st_overwrite (rs_store st) = st_overwrite s0;
  ri_values : forall w k, rs_values st !! (w, k) = if decide (w = v) then Some <$> to_map Pd !! k else None;
  ri_hist : forall k, st_hist (rs_store st) !! k = hist_with (to_map Wr) k;
  ri_frozen : Pd = [] -> rs_frozen st = ∅
}.

Lemma Recd_new ps fz sn : ps = [pinfo_empty (v, [])] -> fz = ∅ -> (forall q, sn !! (v, q) = None) -> Recd sha v ps fz sn ∅ [].
Proof.
  intros -> -> Hsn. split.
  - by intros ??.
  - by left.
  - exists ∅, []. split_and!; [done|constructor|]. intros i. rewrite lookup_empty. symmetry. apply finfo_0.
    apply cnt_0. apply map_eq. intros k. apply eq_None_not_Some. intros [x Hx]. by apply subm_Some in Hx as [??].
  - intros q. rewrite map_empty_union, Hsn. rewrite decide_False; [done|]. intros [(_ & Hp & _) _].
    destruct (cnt_pos_inv _ _ Hp) as (k & x & Hk & _). done.
  - split; [apply map_disjoint_empty_l|]. by intros ??.
Qed.

Lemma add_pair_ok st Wr Pd k x : RI st Wr Pd -> length k = 32 -> follows (last_key (Wr ++ Pd)) k ->
  exists st', add_pair sha hv st k x = Ok st' /\ RI st' Wr (Pd ++ [(k, x)]).
Proof.
  intros H Hk Hfo. pose proof H as [Hv Hr Hnum Hp Hd Ht Ho Hst How Hval Hh Hfzn].
  set (st1 := RState (rs_store st) (rs_ver st) (rs_partial st) (rs_frozen st)
              (<[(rs_ver st, k) := Some x]> (rs_values st)) (rs_prev st) (rs_num st) (rs_root st)).
  assert (exists ps fz p, add_one sha st1 k (hv x) = Ok (with_partial st1 ps fz) /\ k ∉ (Wr ++ Pd).*1 /\
    Pend ps fz (st_nodes (rs_store st)) (<[k := hv x]> (hvm (to_map (Wr ++ Pd)))) k p) as (ps & fz & p & E & Hnk & HP).
  { destruct (last (Wr ++ Pd)) as [[k0 x0]|] eqn:El.
    - destruct Ht as [p HP]. assert (bytes_lt k0 k) as Hlt by (unfold last_key in Hfo; rewrite El in Hfo; exact Hfo).
      destruct (add_one_pend sha v st1 (hvm (to_map (Wr ++ Pd))) p k0 k (hv x)) as (ps & fz & p' & E & HP'); [done| |done..|].
      { cbn. rewrite Hnum. intros E. by rewrite E in El. }
      exists ps, fz, p'. split_and!; [done| |done]. rewrite <-to_map_None.
      destruct (to_map (Wr ++ Pd) !! k) as [y|] eqn:Ey; [exfalso|done].
      apply (pd_max _ _ _ _ _ _ _ _ HP k (hv y)); [|done]. unfold JmtPutProof.hvm. by rewrite lookup_fmap, Ey.
    - destruct Ht as (H1 & H2 & H3). apply last_None in El as Enil. destruct (nibs_cons k Hk) as (a & r & Ea).
      destruct (add_one_rec sha v st1 ∅ [] k (hv x) a r) as (ps & fz & E & HP); [done| | |done| |done| |].
      { cbn. by apply Hnum. }
      { by apply Recd_new. }
      { destruct (decide (pcnt [a] ∅ = 0)) as [|Hne]; [done|]. destruct (cnt_pos_inv (path_bits [a]) ∅) as (? & ? & ? & _); [lia|done]. }
      { by intros ??. }
      rewrite Enil. exists ps, fz, []. split_and!; [done|by intros ?%elem_of_nil|].
      replace (hvm (to_map [])) with (∅ : gmap bytes bytes) by (unfold JmtPutProof.hvm, to_map; cbn; by rewrite fmap_empty). done. }
  unfold add_pair. fold st1. rewrite E. cbn [rbind]. eexists. split; [reflexivity|].
  assert (to_map (Wr ++ Pd ++ [(k, x)]) = <[k := x]> (to_map (Wr ++ Pd))) as Etm by by rewrite app_assoc, to_map_snoc.
  split; cbn [with_partial rs_ver rs_root rs_num rs_prev rs_partial rs_frozen rs_store rs_values st1]; try done.
  - split; [lia|]. intros E0. by destruct Wr, Pd.
  - by rewrite app_assoc, last_snoc.
  - rewrite app_assoc, fmap_app. apply NoDup_app. split_and!; [done| |apply NoDup_singleton].
    intros k' Hk' ?%elem_of_list_singleton. subst k'. done.
  - rewrite app_assoc, last_snoc. exists p. rewrite <-app_assoc, Etm. unfold JmtPutProof.hvm. by rewrite fmap_insert.
  - intros w k'. rewrite Hv. rewrite to_map_snoc.
    + destruct (decide (w = v)) as [->|Hne].
      * destruct (decide (k' = k)) as [->|Hne]; [by rewrite !lookup_insert|].
        rewrite !lookup_insert_ne by congruence. rewrite Hval. by rewrite decide_True.
      * rewrite lookup_insert_ne by congruence. rewrite Hval. by rewrite decide_False.
    + intros Hin. apply Hnk. rewrite fmap_app. set_solver.
  - by destruct Pd.
Qed.

Lemma add_pairs_ok c : forall st Wr Pd, RI st Wr Pd -> wf_chunk c ->
  exists st' l b, add_pairs sha hv st c = Ok (st', b) /\ increasing_part (last_key (Wr ++ Pd)) c l /\
    RI st' Wr (Pd ++ l) /\ (b = true <-> l = c).
Proof.
  induction c as [|[k x] c IH]; intros st Wr Pd H Hc.
  { exists st, [], true. rewrite app_nil_r. split_and!; [done|apply ip_nil|done|done]. }
  apply Forall_cons in Hc as [Hk Hc]. cbn [fst] in Hk. cbn [add_pairs].
  assert (follows (last_key (Wr ++ Pd)) k <-> (match rs_prev st with Some (pk, _) => key_ltb pk k | None => true end) = true) as Hfo.
  { rewrite (ri_prev _ _ _ H). unfold last_key. destruct (last (Wr ++ Pd)) as [[k0 x0]|]; cbn; [by rewrite key_ltb_lt|done]. }
  destruct (match rs_prev st with Some (pk, _) => key_ltb pk k | None => true end) eqn:Eb.
  - destruct (add_pair_ok st Wr Pd k x H Hk) as (st1 & E1 & H1); [by apply Hfo|]. rewrite E1. cbn [rbind].
    destruct (IH st1 Wr (Pd ++ [(k, x)]) H1 Hc) as (st2 & l & b & E2 & Hl & H2 & Hb).
    rewrite app_assoc, last_key_snoc in Hl. exists st2, ((k, x) :: l), b. rewrite <-app_assoc in H2. split_and!; [done| |done|..].
    + constructor; [by apply Hfo|done].
    + rewrite Hb. split; [by intros ->|intros Heq; by injection Heq].
  - exists st, [], false. rewrite app_nil_r. split_and!; [done| |done|done]. apply ip_stop. rewrite Hfo. done.
Qed.

(** ** Writing *)
Lemma RI_hist_ok st Wr Pd : RI st Wr Pd -> exists h, hist_puts (values_sorted (rs_values st)) (st_hist (rs_store st)) = Ok h /\
  forall k, h !! k = hist_with (to_map (Wr ++ Pd)) k.
Proof.
  intros H. pose proof H as [_ _ _ _ Hd _ _ _ _ Hval Hh _].
  assert (forall k, of_key k (values_sorted (rs_values st)) = match to_map Pd !! k with None => [] | Some x => [(v, Some x)] end) as Hof.
  { intros k. apply sorted_eq.
    - apply values_of_key_sorted.
    - destruct (to_map Pd !! k); repeat constructor.
    - intros [w x]. rewrite of_key_elem, values_elem, Hval. case_decide as Hw.
      + subst w. destruct (to_map Pd !! k) as [y|]; cbn.
        * rewrite elem_of_list_singleton. split; [intros E; injection E as <-; done|intros E; injection E as <-; done].
        * rewrite elem_of_nil. done.
      + split; [done|]. destruct (to_map Pd !! k) as [y|]; [|by intros ?%elem_of_nil].
        intros E%elem_of_list_singleton. injection E as -> _. done. }
  destruct (hist_puts_last v (values_sorted (rs_values st)) (st_hist (rs_store st)) (fun k => st_hist s0 !! k)) as (h & Eh & Hl).
  - intros [[w k] x] He%values_elem. rewrite Hval in He. by case_decide.
  - intros k e He. destruct Hfresh as [_ H2]. destruct (st_hist s0 !! k) as [l|] eqn:El; [by eapply H2|by apply elem_of_nil in He].
  - intros k. rewrite Hh. unfold hist_with. destruct (to_map Wr !! k); [by eauto|]. destruct (lo !! k); by eauto.
  - exists h. split; [done|]. intros k. rewrite Hl, Hof, Hh. unfold hist_with.
    assert (to_map (Wr ++ Pd) !! k = match to_map Wr !! k with Some y => Some y | None => to_map Pd !! k end) as ->.
    { unfold to_map. rewrite list_to_map_app, lookup_union. destruct (list_to_map Wr !! k), (list_to_map Pd !! k); done. }
    destruct (to_map Pd !! k) as [x|] eqn:Ex; [|by destruct (to_map Wr !! k)].
    destruct (to_map Wr !! k) as [y|] eqn:Ey; [exfalso|done]. rewrite fmap_app in Hd. apply NoDup_app in Hd as (Hd1 & Hd & Hd2).
    apply to_map_elem in Ex; [|done]. apply to_map_elem in Ey; [|done]. apply (Hd k); apply elem_of_list_fmap; [by exists (k, y)|by exists (k, x)].
Qed.

Lemma write_ok s fz vals h : ok_frozen v fz (st_nodes s) -> hist_puts (values_sorted vals) (st_hist s) = Ok h ->
  write_node_batch s fz vals = Ok (Store (fz ∪ st_nodes s) (st_stale s) h (st_overwrite s)).
Proof.
  intros [Hd _] Eh. unfold write_node_batch. rewrite bool_decide_true by done. rewrite andb_false_r, Eh. done.
Qed.

Lemma RI_accept st Wr Pd h : RI st Wr Pd -> Wr ++ Pd <> [] ->
  hist_puts (values_sorted (rs_values st)) (st_hist (rs_store st)) = Ok h ->
  (forall k, h !! k = hist_with (to_map (Wr ++ Pd)) k) ->
  exists s, write_node_batch (rs_store st) (rs_frozen st) (rs_values st) = Ok s /\
    RI (RState s (rs_ver st) (rs_partial st) ∅ ∅ (rs_prev st) (rs_num st) (rs_root st)) (Wr ++ Pd) [].
Proof.
  intros H Hne Eh Hh'. pose proof H as [Hv Hr Hnum Hp Hd Ht Ho Hst How Hval Hh Hfzn].
  destruct (last (Wr ++ Pd)) as [[k x]|] eqn:El; [|by apply last_None in El]. destruct Ht as [p HP].
  pose proof HP as [P1 P2 P3 P4 P5 P6 P7 P8].
  eexists. split; [by apply write_ok|].
  split; cbn [rs_ver rs_root rs_num rs_prev rs_partial rs_frozen rs_store rs_values st_nodes st_stale st_hist st_overwrite];
    rewrite ?app_nil_r; try done.
  - by rewrite El.
  - rewrite El. exists p. split; try done.
    + intros q. rewrite map_empty_union. apply P7.
    + split; [apply map_disjoint_empty_l|by intros ??].
  - intros u q Hu. rewrite <-Ho by done. apply lookup_union_r. destruct P8 as [_ P8].
    destruct (rs_frozen st !! (u, q)) as [nd|] eqn:E; [|done]. by apply P8 in E.
  - intros w k'. by case_decide.
Qed.

Lemma add_chunk_ok st Wr Pd c right : RI st Wr Pd -> wf_chunk c ->
  exists st' e Wr' Pd' l, add_chunk sha hv st c right = RDone st' e /\ RI st' Wr' Pd' /\
    increasing_part (last_key (Wr ++ Pd)) c l /\ Wr' ++ Pd' = (Wr ++ Pd) ++ l /\
    (e = None <-> c <> [] /\ l = c /\ exists st1, add_pairs sha hv st c = Ok (st1, true) /\ rs_verify sha st1 right = Ok tt) /\
    (e = None -> Pd' = []) /\
    (c <> [] -> l = c -> exists st1, add_pairs sha hv st c = Ok (st1, true) /\ RI st1 Wr (Pd ++ c)).
Proof.
  intros H Hc. destruct (add_pairs_ok c st Wr Pd H Hc) as (st1 & l & b & E1 & Hl & H1 & Hb).
  unfold add_chunk. destruct c as [|kx c].
  { exists st, (Some EmptyChunk), Wr, Pd, []. rewrite app_nil_r. split_and!; try done; [constructor|].
    split; [done|]. intros [? _]. done. }
  set (c1 := kx :: c) in *.
  assert (c1 <> [] -> l = c1 -> exists st1, add_pairs sha hv st c1 = Ok (st1, true) /\ RI st1 Wr (Pd ++ c1)) as Hext.
  { intros _ Elc. destruct Hb as [_ Hb]. specialize (Hb Elc). subst b. rewrite Elc in H1. by exists st1. }
  rewrite E1 in Hext |- *.
  destruct b.
  - destruct Hb as [Hb _]. specialize (Hb eq_refl). subst l.
    assert (Wr ++ Pd ++ c1 <> []) as Hne by (destruct Wr, Pd; done).
    pose proof (ri_tree _ _ _ H1) as Ht. pose proof (ri_prev _ _ _ H1) as Hp.
    destruct (last (Wr ++ Pd ++ c1)) as [[k x]|] eqn:El; [|by apply last_None in El]. destruct Ht as [p HP].
    destruct (verify_total sha v st1 _ k p (hv x) right HP Hp) as [EV|[e EV]]; rewrite EV.
    + destruct (RI_hist_ok _ _ _ H1) as (h & Eh & Hh). destruct (RI_accept _ _ _ h H1 Hne Eh Hh) as (s & Es & H2). rewrite Es.
      exists (RState s (rs_ver st1) (rs_partial st1) ∅ ∅ (rs_prev st1) (rs_num st1) (rs_root st1)), None, (Wr ++ Pd ++ c1), [], c1.
      split_and!; try done.
      * by rewrite app_nil_r, app_assoc.
      * split; [|done]. intros _. split_and!; try done. by exists st1.
    + exists st1, (Some e), Wr, (Pd ++ c1), c1. split_and!; try done.
      * by rewrite app_assoc.
      * split; [done|]. intros (_ & _ & st2 & E2 & EV2). injection E2 as <-. congruence.
  - exists st1, (Some KeysNotIncreasing), Wr, (Pd ++ l), l. split_and!; try done.
    + by rewrite app_assoc.
    + split; [done|]. intros (_ & _ & st2 & E2 & EV2). done.
Qed.

(** ** Several calls *)
Lemma feed_ok cs : forall st Wr Pd, RI st Wr Pd -> Forall (fun c : sent => wf_chunk (fst c)) cs ->
  forall past, received past (Wr ++ Pd) ->
  exists st' Wr' Pd', feed sha hv st cs = Some st' /\ RI st' Wr' Pd' /\ received (past ++ map fst cs) (Wr' ++ Pd').
Proof.
  induction cs as [|[c right] cs IH]; intros st Wr Pd H Hc past Hp.
  { exists st, Wr, Pd. cbn [map]. by rewrite app_nil_r. }
  apply Forall_cons in Hc as [Hc Hcs]. cbn [fst] in Hc.
  destruct (add_chunk_ok st Wr Pd c right H Hc) as (st1 & e & Wr1 & Pd1 & l & E & H1 & Hl & Eq & _).
  cbn [feed]. rewrite E. destruct (IH st1 Wr1 Pd1 H1 Hcs (past ++ [c])) as (st2 & Wr2 & Pd2 & E2 & H2 & Hr2).
  { rewrite Eq. by constructor. }
  exists st2, Wr2, Pd2. split_and!; [done..|]. cbn [map fst]. by rewrite <-app_assoc in Hr2.
Qed.
End Run.

Lemma RI_new sha hv s0 v root : fresh s0 v -> RI sha hv s0 v root ∅ (new_overwrite s0 v root) [] [].
Proof.
  intros Hfresh. destruct Hfresh as [H1 H2]. split; cbn; try done.
  - constructor.
  - split_and!; try done. intros q. apply eq_None_not_Some. intros [nd Hn]. by apply H1 in Hn.
  - intros w k. by case_decide.
Qed.
