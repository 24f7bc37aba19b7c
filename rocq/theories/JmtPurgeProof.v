(** Writing on a store that has lost nodes: when it succeeds, it writes what it
    writes on the full store. *)
From Verif Require Import Base JmtNibModel JmtSpec JmtModel JmtCacheProof.
Local Open Scope N_scope.

Definition rmap {A B} (f : A -> B) (x : res jerr A) : res jerr B := rbind x (fun a => Ok (f a)).
Lemma rbind_inv {A B} (x : res jerr A) (f : A -> res jerr B) b :
  rbind x f = Ok b -> exists a, x = Ok a /\ f a = Ok b.
Proof. destruct x as [a| | |]; cbn [rbind]; [|discriminate..]. eauto. Qed.

Section Lift.
Context (sha hv : bytes -> bytes) (s0 : store).

(** The cache over the full store. *)
Definition lift (tc : cache) : cache :=
  Cache (tc_root tc) (tc_next tc) (tc_nodes tc) (tc_values tc) (tc_new_leaves tc) (tc_stale tc) (tc_stale_leaves tc)
    (fz_nodes tc) (fz_values tc) (fz_stale tc) (fz_stats tc) (fz_roots tc) s0.

Lemma lift_put tc nk nd : tc_put (lift tc) nk nd = rmap lift (tc_put tc nk nd).
Proof. unfold tc_put. cbn [lift tc_nodes]. by destruct (tc_nodes tc !! nk). Qed.
Lemma lift_delete tc nk b : tc_delete (lift tc) nk b = rmap lift (tc_delete tc nk b).
Proof.
  unfold tc_delete. cbn [lift tc_nodes tc_stale tc_new_leaves]. destruct (tc_nodes tc !! nk).
  - by destruct (b && _).
  - by destruct (decide _).
Qed.
Lemma lift_create_leaf nk a b vh tc :
  create_leaf nk a b vh (lift tc) = rmap (fun '(nk, nd, tc) => (nk, nd, lift tc)) (create_leaf nk a b vh tc).
Proof.
  unfold create_leaf. destruct (length _ =? 32)%nat; [|done]. rewrite lift_put. unfold rmap.
  by destruct (tc_put tc nk _).
Qed.
Lemma lift_chain n v : forall p nk nd tc,
  chain sha n v p nk nd (lift tc) = rmap (fun '(nk, nd, tc) => (nk, nd, lift tc)) (chain sha n v p nk nd tc).
Proof.
  induction n as [|n IH]; intros p nk nd tc; cbn [chain]; [done|]. destruct (unsnoc p) as [[p' i]|]; [|done].
  destruct (inode_hash sha nd) as [h| | |]; cbn [rbind rmap]; [|done..].
  destruct (inode_new _) as [nd'| | |]; cbn [rbind rmap]; [|done..]. rewrite lift_put. unfold rmap.
  destruct (tc_put tc _ _) as [tc1| | |]; cbn [rbind]; [|done..]. apply IH.
Qed.
Definition lift2 (x : put_result * cache) : put_result * cache := (fst x, lift (snd x)).
Lemma lift_at_leaf nk k0 vh0 v visited rest value tc :
  insert_at_leaf sha nk k0 vh0 v visited rest value (lift tc) =
  rmap lift2 (insert_at_leaf sha nk k0 vh0 v visited rest value tc).
Proof.
  unfold insert_at_leaf. destruct (skip_common visited (nibs k0)) as [[? vl] el]. destruct vl; [|done].
  destruct (skip_common rest el) as [[nc nl] eb]. destruct nl as [|ni nl].
  - destruct eb; [|done]. rewrite lift_delete. unfold rmap. destruct (tc_delete tc nk true) as [tc1| | |]; cbn [rbind]; [|done..].
    destruct value as [vh|]; [|done]. rewrite lift_create_leaf. unfold rmap.
    by destruct (create_leaf _ _ _ _ tc1) as [[[? ?] ?]| | |].
  - destruct value as [vh|]; [|done]. rewrite lift_delete. unfold rmap.
    destruct (tc_delete tc nk true) as [tc1| | |]; cbn [rbind]; [|done..]. destruct eb as [|ei eb]; [done|].
    destruct (decide (ei = ni)); [done|]. rewrite lift_put. unfold rmap.
    destruct (tc_put tc1 _ _) as [tc2| | |]; cbn [rbind]; [|done..]. rewrite lift_create_leaf. unfold rmap.
    destruct (create_leaf _ _ _ _ tc2) as [[[? nnd] tc3]| | |]; cbn [rbind]; [|done..].
    destruct (node_hash sha nnd) as [h| | |]; cbn [rbind]; [|done..].
    destruct (inode_new _) as [nd| | |]; cbn [rbind]; [|done..]. rewrite lift_put. unfold rmap.
    destruct (tc_put tc3 _ _) as [tc4| | |]; cbn [rbind]; [|done..]. rewrite lift_chain. unfold rmap.
    by destruct (chain sha _ _ _ _ _ tc4) as [[[? ?] ?]| | |].
Qed.

(** A node read on the smaller store is read on the full one. *)
Definition below (tc : cache) : Prop := forall nk nd, st_nodes (tc_store tc) !! nk = Some nd -> st_nodes s0 !! nk = Some nd.
Lemma lift_get_option tc nk nd : below tc -> tc_get_option tc nk = Some nd -> tc_get_option (lift tc) nk = Some nd.
Proof.
  intros Hb. unfold tc_get_option. cbn [lift tc_nodes fz_nodes tc_store].
  destruct (tc_nodes tc !! nk); [done|]. destruct (fz_nodes tc !! nk); [done|]. apply Hb.
Qed.
Lemma lift_get tc nk nd : below tc -> tc_get tc nk = Ok nd -> tc_get (lift tc) nk = Ok nd.
Proof.
  intros Hb. unfold tc_get. destruct (tc_get_option tc nk) as [nd'|] eqn:E; [|discriminate]. intros [= ->].
  by rewrite (lift_get_option _ _ _ Hb E).
Qed.

(** The parts of a cache the arguments need: the store stays, and so do the root,
    the next version and the stale records of earlier versions. *)
Definition keeps (tc tc' : cache) : Prop := tc_store tc' = tc_store tc /\ tc_root tc' = tc_root tc /\
  fz_stale tc' = fz_stale tc /\ tc_next tc' = tc_next tc.
Lemma put_keeps tc nk nd tc' : tc_put tc nk nd = Ok tc' -> keeps tc tc'.
Proof. unfold tc_put. destruct (tc_nodes tc !! nk); [discriminate|]. by intros [= <-]. Qed.
Lemma delete_keeps tc nk b tc' : tc_delete tc nk b = Ok tc' -> keeps tc tc'.
Proof.
  unfold tc_delete. destruct (tc_nodes tc !! nk).
  - destruct (b && _); [discriminate|]. by intros [= <-].
  - destruct (decide _); [discriminate|]. by intros [= <-].
Qed.
Lemma keeps_trans a b c : keeps a b -> keeps b c -> keeps a c.
Proof. intros (? & ? & ? & ?) (? & ? & ? & ?). split_and!; congruence. Qed.
Lemma below_keeps tc tc' : keeps tc tc' -> below tc -> below tc'.
Proof. intros [E _] H. unfold below. by rewrite E. Qed.
Lemma create_leaf_keeps nk a b vh tc nk' nd tc' : create_leaf nk a b vh tc = Ok (nk', nd, tc') -> keeps tc tc' /\ nk' = nk.
Proof.
  unfold create_leaf. destruct (length _ =? 32)%nat; [|discriminate].
  intros (tc1 & E & [= <- <- <-])%rbind_inv. split; [by eapply put_keeps|done].
Qed.
Lemma chain_keeps n v : forall p nk nd tc nk' nd' tc', fst nk = v ->
  chain sha n v p nk nd tc = Ok (nk', nd', tc') -> keeps tc tc' /\ fst nk' = v.
Proof.
  induction n as [|n IH]; intros p nk nd tc nk' nd' tc' Hv; cbn [chain]; [by intros [= <- <- <-]|].
  destruct (unsnoc p) as [[p' i]|]; [|discriminate].
  intros (h & _ & (nd1 & _ & (tc1 & E & H)%rbind_inv)%rbind_inv)%rbind_inv.
  apply IH in H as [H ?]; [|done]. split; [|done]. eapply keeps_trans; [by eapply put_keeps|done].
Qed.
(** A result names a node of the version written. *)
Definition at_version (v : N) (r : put_result) : Prop := match r with Updated nk _ => fst nk = v | _ => True end.
Lemma at_leaf_keeps nk k0 vh0 v visited rest value tc r tc' :
  insert_at_leaf sha nk k0 vh0 v visited rest value tc = Ok (r, tc') -> keeps tc tc' /\ at_version v r.
Proof.
  unfold insert_at_leaf. destruct (skip_common visited (nibs k0)) as [[? vl] el]. destruct vl; [|discriminate].
  destruct (skip_common rest el) as [[nc nl] eb]. destruct nl as [|ni nl].
  - destruct eb; [|discriminate]. intros (tc1 & E1 & E2)%rbind_inv. apply delete_keeps in E1.
    destruct value as [vh|]; [|injection E2 as <- <-; done].
    apply rbind_inv in E2 as ([[? ?] ?] & E2 & [= <- <-]). apply create_leaf_keeps in E2 as [E2 ->].
    split; [by eapply keeps_trans|done].
  - destruct value as [vh|]; [|by intros [= <- <-]]. intros (tc1 & E1 & E2)%rbind_inv. apply delete_keeps in E1.
    destruct eb as [|ei eb]; [discriminate|]. destruct (decide (ei = ni)); [discriminate|].
    apply rbind_inv in E2 as (tc2 & E3 & E2). apply put_keeps in E3.
    apply rbind_inv in E2 as ([[? nnd] tc3] & E4 & E2). apply create_leaf_keeps in E4 as [E4 _].
    apply rbind_inv in E2 as (h & _ & E2). apply rbind_inv in E2 as (nd & _ & E2).
    apply rbind_inv in E2 as (tc4 & E5 & E2). apply put_keeps in E5.
    apply rbind_inv in E2 as ([[? ?] ?] & E6 & [= <- <-]). apply chain_keeps in E6 as [E6 ?]; [|done].
    split; [|done]. repeat (eapply keeps_trans; [eassumption|]). done.
Qed.
Lemma lift_finish nk n i v r tc r' tc' : below tc -> finish_internal sha nk n i v r tc = Ok (r', tc') ->
  finish_internal sha nk n i v r (lift tc) = Ok (r', lift tc') /\ keeps tc tc' /\ at_version v r'.
Proof.
  intros Hb. unfold finish_internal.
  assert (forall cs, rbind (tc_delete tc nk false) (fun tc =>
      let store_internal :=
        rbind (inode_new cs) (fun nd =>
        rbind (tc_put tc (v, snd nk) (NInternal nd)) (fun tc =>
        Ok (Updated (v, snd nk) (NInternal nd), tc))) in
      match children_sorted cs with
      | [] => Ok (Removed, tc)
      | [(j, c)] =>
          if child_is_leaf c then
            let ck := child_key nk (c_ver c) j in
            rbind (tc_get tc ck) (fun child_nd =>
            rbind (tc_delete tc ck true) (fun tc =>
            rbind (tc_put tc (v, snd nk) child_nd) (fun tc =>
            Ok (Updated (v, snd nk) child_nd, tc))))
          else store_internal
      | _ => store_internal
      end) = Ok (r', tc') ->
    rbind (tc_delete (lift tc) nk false) (fun tc =>
      let store_internal :=
        rbind (inode_new cs) (fun nd =>
        rbind (tc_put tc (v, snd nk) (NInternal nd)) (fun tc =>
        Ok (Updated (v, snd nk) (NInternal nd), tc))) in
      match children_sorted cs with
      | [] => Ok (Removed, tc)
      | [(j, c)] =>
          if child_is_leaf c then
            let ck := child_key nk (c_ver c) j in
            rbind (tc_get tc ck) (fun child_nd =>
            rbind (tc_delete tc ck true) (fun tc =>
            rbind (tc_put tc (v, snd nk) child_nd) (fun tc =>
            Ok (Updated (v, snd nk) child_nd, tc))))
          else store_internal
      | _ => store_internal
      end) = Ok (r', lift tc') /\ keeps tc tc' /\ at_version v r') as H.
  { intros cs (tc1 & E1 & E2)%rbind_inv. rewrite lift_delete, E1. cbn [rmap rbind]. cbv zeta in *.
    pose proof (delete_keeps _ _ _ _ E1) as K1.
    assert (rbind (inode_new cs) (fun nd =>
        rbind (tc_put tc1 (v, snd nk) (NInternal nd)) (fun tc =>
        Ok (Updated (v, snd nk) (NInternal nd), tc))) = Ok (r', tc') ->
      rbind (inode_new cs) (fun nd =>
        rbind (tc_put (lift tc1) (v, snd nk) (NInternal nd)) (fun tc =>
        Ok (Updated (v, snd nk) (NInternal nd), tc))) = Ok (r', lift tc') /\ keeps tc tc' /\ at_version v r') as Hs.
    { intros (nd & En & (tc2 & E3 & [= <- <-])%rbind_inv)%rbind_inv. rewrite En. cbn [rbind].
      rewrite lift_put, E3. cbn [rmap rbind]. split; [done|]. split; [|done].
      eapply keeps_trans; [exact K1|by eapply put_keeps]. }
    destruct (children_sorted cs) as [|[j c] [|? ?]]; [injection E2 as <- <-; done| |by apply Hs].
    destruct (child_is_leaf c); [|by apply Hs]. apply rbind_inv in E2 as (cn & Eg & E2).
    rewrite (lift_get _ _ _ (below_keeps _ _ K1 Hb) Eg). cbn [rbind].
    apply rbind_inv in E2 as (tc2 & E3 & E2). rewrite lift_delete, E3. cbn [rmap rbind].
    apply rbind_inv in E2 as (tc3 & E4 & [= <- <-]). rewrite lift_put, E4. cbn [rmap rbind].
    split; [done|]. split; [|done]. eapply keeps_trans; [exact K1|].
    eapply keeps_trans; [by eapply delete_keeps|by eapply put_keeps]. }
  destruct r as [nk' nd| |]; [| |by intros [= <- <-]].
  - intros (cs & Ec & E)%rbind_inv. rewrite Ec. cbn [rbind]. by apply H.
  - cbn [rbind]. apply H.
Qed.
(** Where a missing node may be read: the root, which the full store lacks as
    well. *)
Definition safe_root (tc : cache) (nk : nkey) : Prop :=
  st_nodes (tc_store tc) !! nk = None -> st_nodes s0 !! nk = None.
Lemma lift_get_none tc nk : safe_root tc nk -> tc_get_option tc nk = None -> tc_get_option (lift tc) nk = None.
Proof.
  intros Hs. unfold tc_get_option. cbn [lift tc_nodes fz_nodes tc_store].
  destruct (tc_nodes tc !! nk); [done|]. destruct (fz_nodes tc !! nk); [done|]. apply Hs.
Qed.
Lemma lift_insert value v : forall rest nk visited tc r tc', below tc -> (snd nk = [] -> safe_root tc nk) ->
  insert_at sha rest nk v visited value tc = Ok (r, tc') ->
  insert_at sha rest nk v visited value (lift tc) = Ok (r, lift tc') /\ keeps tc tc' /\ at_version v r.
Proof.
  assert (forall rest nk visited tc r tc', snd nk = [] -> forall found,
    rbind (if (fst nk =? v) && found then tc_delete tc nk false else Ok tc) (fun tc =>
          match value with
          | Some vh =>
              rbind (create_leaf (v, []) visited rest vh tc) (fun '(nk', nd, tc) =>
              Ok (Updated nk' nd, tc))
          | None => Ok (NotChanged, tc)
          end) = Ok (r, tc') ->
    rbind (if (fst nk =? v) && found then tc_delete (lift tc) nk false else Ok (lift tc)) (fun tc =>
          match value with
          | Some vh =>
              rbind (create_leaf (v, []) visited rest vh tc) (fun '(nk', nd, tc) =>
              Ok (Updated nk' nd, tc))
          | None => Ok (NotChanged, tc)
          end) = Ok (r, lift tc') /\ keeps tc tc' /\ at_version v r) as Hnull.
  { intros rest nk visited tc r tc' _ found (tc1 & E1 & E2)%rbind_inv.
    assert ((if (fst nk =? v) && found then tc_delete (lift tc) nk false else Ok (lift tc)) = Ok (lift tc1) /\ keeps tc tc1) as [-> K].
    { destruct (_ && _); [|by injection E1 as <-]. rewrite lift_delete, E1. split; [done|by eapply delete_keeps]. }
    cbn [rbind]. destruct value as [vh|]; [|injection E2 as <- <-; done].
    apply rbind_inv in E2 as ([[? ?] ?] & E2 & [= <- <-]). rewrite lift_create_leaf, E2. cbn [rmap rbind].
    apply create_leaf_keeps in E2 as [E2 ->]. split; [done|]. split; [by eapply keeps_trans|done]. }
  induction rest as [|i rest IH]; intros nk visited tc r tc' Hb Hs E; cbn [insert_at] in *;
    destruct (tc_get_option tc nk) as [nd|] eqn:Eg.
  1,3: rewrite (lift_get_option _ _ _ Hb Eg).
  3,4: destruct (snd nk) eqn:En; [|discriminate]; rewrite (lift_get_none _ _ (Hs eq_refl) Eg); by eapply Hnull.
  - destruct nd as [|k0 vh0|n]; [destruct (snd nk) eqn:En; [by eapply Hnull|discriminate]| |discriminate].
    rewrite lift_at_leaf, E. pose proof (at_leaf_keeps _ _ _ _ _ _ _ _ _ _ E). done.
  - destruct nd as [|k0 vh0|n]; [destruct (snd nk) eqn:En; [by eapply Hnull|discriminate]| |].
    { rewrite lift_at_leaf, E. pose proof (at_leaf_keeps _ _ _ _ _ _ _ _ _ _ E). done. }
    apply rbind_inv in E as ([r1 tc1] & E1 & E2).
    assert (match in_children n !! i with
            | Some c => insert_at sha rest (child_key nk (c_ver c) i) v (visited ++ [i]) value (lift tc)
            | None => match value with
                      | Some vh => rbind (create_leaf (child_key nk v i) (visited ++ [i]) rest vh (lift tc))
                                     (fun '(nk', nd, tc) => Ok (Updated nk' nd, tc))
                      | None => Ok (NotChanged, lift tc)
                      end
            end = Ok (r1, lift tc1) /\ keeps tc tc1) as [-> K].
    { destruct (in_children n !! i) as [c|].
      - apply IH in E1 as (-> & K & _); [done|done|].
        intros Ek. unfold child_key in Ek. cbn [snd] in Ek. apply app_eq_nil in Ek as [_ Ek]. discriminate Ek.
      - destruct value as [vh|]; [|by injection E1 as <- <-].
        apply rbind_inv in E1 as ([[? ?] ?] & E1 & [= <- <-]). rewrite lift_create_leaf, E1. cbn [rmap rbind].
        apply create_leaf_keeps in E1 as [E1 _]. done. }
    cbn [rbind]. destruct (lift_finish _ _ _ _ _ _ _ _ (below_keeps _ _ K Hb) E2) as (-> & K2 & Hr).
    split; [done|]. split; [by eapply keeps_trans|done].
Qed.

(** A root that is safe to miss. *)
Definition ready (first : N) (tc : cache) : Prop :=
  below tc /\ safe_root tc (tc_root tc) /\ forall nk, first <= fst nk -> safe_root tc nk.
Lemma lift_put_key first k value v tc tc' : first <= v -> ready first tc -> put sha k value v tc = Ok tc' ->
  put sha k value v (lift tc) = Ok (lift tc') /\ ready first tc'.
Proof.
  intros Hv (Hb & Hr & Hf) E. unfold put in *. apply rbind_inv in E as ([r tc1] & E1 & E2).
  cbn [lift tc_root]. destruct (lift_insert _ _ _ _ _ _ _ _ Hb ltac:(done) E1) as (-> & K & Ha). cbn [rbind].
  assert (ready first tc1) as R1.
  { split; [by apply (below_keeps tc)|]. destruct K as (K1 & K2 & _). unfold safe_root. rewrite K1, K2. done. }
  destruct r as [nk nd| |]; cbn [at_version] in Ha.
  - injection E2 as <-. split; [done|]. destruct R1 as (R1 & R2 & R3). split; [done|]. split; [|done].
    cbn [tc_set_root tc_root]. apply R3. lia.
  - change (tc_set_root (lift tc1) (v, [])) with (lift (tc_set_root tc1 (v, []))). rewrite lift_put, E2. split; [done|].
    apply put_keeps in E2 as (P1 & P2 & _). cbn [tc_set_root tc_store tc_root] in P1, P2. destruct R1 as (R1 & R2 & R3).
    unfold ready, below, safe_root in *. rewrite P1, P2. split; [done|]. split; [|done]. apply R3. cbn. lia.
  - by injection E2 as <-.
Qed.
Lemma lift_put_set first v kvs : forall tc tc', first <= v -> ready first tc -> put_set sha hv v kvs tc = Ok tc' ->
  put_set sha hv v kvs (lift tc) = Ok (lift tc') /\ ready first tc'.
Proof.
  induction kvs as [|[k x] kvs IH]; intros tc tc' Hv Hr E; cbn [put_set] in *; [by injection E as <-|].
  apply rbind_inv in E as (tc1 & E1 & E2). unfold put_one in *.
  change (tc_put_value (lift tc) v k x) with (lift (tc_put_value tc v k x)).
  destruct (lift_put_key first _ _ _ (tc_put_value tc v k x) _ Hv Hr E1) as [-> R1]. cbn [rbind]. by apply IH.
Qed.
Lemma lift_freeze first tc tc' : ready first tc -> tc_freeze sha tc = Ok tc' ->
  tc_freeze sha (lift tc) = Ok (lift tc') /\ ready first tc'.
Proof.
  intros (Hb & Hr & Hf) E. unfold tc_freeze in *. apply rbind_inv in E as ([nd tc1] & E1 & E).
  assert (match tc_get_option (lift tc) (tc_root (lift tc)) with
          | Some nd => Ok (nd, lift tc)
          | None => rbind (tc_put (lift tc) (tc_root (lift tc)) NNull) (fun tc => Ok (NNull, tc))
          end = Ok (nd, lift tc1) /\ keeps tc tc1) as [-> K1].
  { cbn [lift tc_root]. destruct (tc_get_option tc (tc_root tc)) as [nd'|] eqn:Eg.
    - rewrite (lift_get_option _ _ _ Hb Eg). by injection E1 as -> <-.
    - rewrite (lift_get_none _ _ Hr Eg). apply rbind_inv in E1 as (tc2 & E1 & [= <- <-]).
      fold (lift tc). rewrite lift_put, E1. split; [done|by eapply put_keeps]. }
  cbn [rbind]. apply rbind_inv in E as (h & -> & E). cbn [rbind]. apply rbind_inv in E as (tc2 & E2 & E).
  assert ((if (0 <? tc_next (lift tc1)) && bool_decide (tc_nodes (lift tc1) = ∅) && bool_decide (tc_stale (lift tc1) = ∅)
         then rbind (tc_get (lift tc1) (tc_root (lift tc1))) (fun nd =>
                tc_put (lift tc1) (tc_next (lift tc1), snd (tc_root (lift tc1))) nd)
         else Ok (lift tc1)) = Ok (lift tc2) /\ keeps tc1 tc2) as [-> K2].
  { change (tc_next (lift tc1)) with (tc_next tc1). change (tc_nodes (lift tc1)) with (tc_nodes tc1).
    change (tc_stale (lift tc1)) with (tc_stale tc1). change (tc_root (lift tc1)) with (tc_root tc1).
    destruct (_ && _ && _); [|by injection E2 as <-]. apply rbind_inv in E2 as (nd' & Eg & E2).
    rewrite (lift_get _ _ _ (below_keeps _ _ K1 Hb) Eg). cbn [rbind]. rewrite lift_put, E2.
    split; [done|by eapply put_keeps]. }
  cbn [rbind]. change (tc_next (lift tc2)) with (tc_next tc2). destruct (tc_next tc2 =? u64_max); [discriminate|].
  injection E as <-. split; [done|]. destruct K1 as (A1 & A2 & _), K2 as (B1 & B2 & _).
  unfold ready, below, safe_root in *. cbn [tc_store tc_root]. rewrite B1, B2, A1, A2. done.
Qed.
Lemma lift_sets first sets : forall v tc tc', first <= v -> ready first tc -> put_sets sha hv v sets tc = Ok tc' ->
  put_sets sha hv v sets (lift tc) = Ok (lift tc').
Proof.
  induction sets as [|kvs sets IH]; intros v tc tc' Hv Hr E; cbn [put_sets] in *; [by injection E as <-|].
  destruct (u64_max <? v); [discriminate|]. apply rbind_inv in E as (tc1 & E1 & E).
  apply rbind_inv in E as (tc2 & E2 & E). destruct (lift_put_set first v kvs _ _ Hv Hr E1) as [-> R1]. cbn [rbind].
  destruct (lift_freeze first _ _ R1 E2) as [-> R2]. cbn [rbind]. apply IH; [lia|done|done].
Qed.
End Lift.

(** An empty set makes no stale record. *)
Lemma put_frame sha k value v tc tc' : put sha k value v tc = Ok tc' -> fz_stale tc' = fz_stale tc /\ tc_next tc' = tc_next tc.
Proof.
  intros ([r tc1] & E1 & E2)%rbind_inv.
  destruct (lift_insert sha (tc_store tc) _ _ _ _ _ _ _ _ (fun _ _ H => H) (fun _ H => H) E1) as (_ & (_ & _ & K3 & K4) & _).
  destruct r as [nk nd| |].
  - by injection E2 as <-.
  - apply put_keeps in E2 as (_ & _ & P3 & P4). cbn [tc_set_root fz_stale tc_next] in P3, P4. by rewrite P3, P4.
  - by injection E2 as <-.
Qed.
Lemma put_set_frame sha hv v kvs : forall tc tc', put_set sha hv v kvs tc = Ok tc' ->
  fz_stale tc' = fz_stale tc /\ tc_next tc' = tc_next tc.
Proof.
  induction kvs as [|[k x] kvs IH]; intros tc tc' E; cbn [put_set] in *; [by injection E as <-|].
  apply rbind_inv in E as (tc1 & E1 & E2). unfold put_one in E1. apply put_frame in E1 as [A B].
  apply IH in E2 as [C D]. by rewrite C, D, A, B.
Qed.
Lemma freeze_frame sha tc tc' : tc_freeze sha tc = Ok tc' -> tc_next tc' = tc_next tc + 1 /\ tc_stale tc' = ∅ /\
  fz_stale tc' = set_map (fun nk => (tc_next tc, nk)) (tc_stale tc) ∪ fz_stale tc.
Proof.
  intros ([nd tc1] & E1 & (h & _ & (tc2 & E2 & E)%rbind_inv)%rbind_inv)%rbind_inv.
  assert (forall a nk x b, tc_put a nk x = Ok b -> tc_next b = tc_next a /\ tc_stale b = tc_stale a /\ fz_stale b = fz_stale a) as Hp.
  { intros a nk x b. unfold tc_put. destruct (tc_nodes a !! nk); [discriminate|]. by intros [= <-]. }
  assert (tc_next tc1 = tc_next tc /\ tc_stale tc1 = tc_stale tc /\ fz_stale tc1 = fz_stale tc) as (A1 & A2 & A3).
  { destruct (tc_get_option tc (tc_root tc)); [by injection E1 as _ <-|].
    apply rbind_inv in E1 as (tc3 & E1 & [= _ <-]). by eapply Hp. }
  assert (tc_next tc2 = tc_next tc1 /\ tc_stale tc2 = tc_stale tc1 /\ fz_stale tc2 = fz_stale tc1) as (B1 & B2 & B3).
  { destruct (_ && _ && _); [|by injection E2 as <-]. apply rbind_inv in E2 as (nd' & _ & E2). by eapply Hp. }
  destruct (tc_next tc2 =? u64_max); [discriminate|]. injection E as <-. cbn [tc_next tc_stale fz_stale].
  by rewrite B1, B2, B3, A1, A2, A3.
Qed.
Lemma sets_stale sha hv sets : forall v tc tc', tc_next tc = v -> tc_stale tc = ∅ -> put_sets sha hv v sets tc = Ok tc' ->
  forall t nk, (t, nk) ∈ fz_stale tc' -> (t, nk) ∈ fz_stale tc \/
    exists i ws, sets !! i = Some ws /\ ws <> [] /\ t = v + N.of_nat i.
Proof.
  induction sets as [|kvs sets IH]; intros v tc tc' Hv Hs E t nk Hin; cbn [put_sets] in *; [left; by injection E as <-|].
  destruct (u64_max <? v); [discriminate|]. apply rbind_inv in E as (tc1 & E1 & E). apply rbind_inv in E as (tc2 & E2 & E).
  pose proof (put_set_frame _ _ _ _ _ _ E1) as [A1 A2]. apply freeze_frame in E2 as (B1 & B2 & B3).
  destruct (IH (v + 1) tc2 tc' ltac:(rewrite B1, A2, Hv; done) B2 E t nk Hin) as [H|(i & ws & H1 & H2 & H3)].
  - rewrite B3 in H. apply elem_of_union in H as [H|H]; [|left; by rewrite <- A1].
    apply elem_of_map in H as (nk' & [= -> <-] & H). destruct kvs as [|kv kvs].
    + cbn [put_set] in E1. injection E1 as <-. rewrite Hs in H. by apply elem_of_empty in H.
    + right. exists 0%nat, (kv :: kvs). split; [done|]. split; [done|]. rewrite A2, Hv. lia.
  - right. exists (S i), ws. split; [done|]. split; [done|]. lia.
Qed.
Lemma batch_stale sha hv s sets first r b : put_value_sets sha hv s sets first = Ok (r, b) ->
  forall t nk, (t, nk) ∈ b_stale b -> exists i ws, sets !! i = Some ws /\ ws <> [] /\ t = first + N.of_nat i.
Proof.
  unfold put_value_sets. intros (tc & E & [= _ <-])%rbind_inv t nk Hin. cbn [b_stale] in Hin.
  assert (tc_next (cache_new s first) = first /\ tc_stale (cache_new s first) = ∅ /\ fz_stale (cache_new s first) = ∅) as (A & B & C).
  { unfold cache_new. destruct (first =? 0); [destruct (st_nodes s !! _)|]; done. }
  destruct (sets_stale sha hv sets first _ _ A B E t nk Hin) as [H|H]; [|done]. rewrite C in H. by apply elem_of_empty in H.
Qed.

(** So the batches are the same. *)
Lemma same_batch sha hv s s0 sets first r :
  (forall nk nd, st_nodes s !! nk = Some nd -> st_nodes s0 !! nk = Some nd) ->
  (forall nk nd, st_nodes s0 !! nk = Some nd -> fst nk < first) ->
  (0 < first -> is_Some (st_nodes s !! (first - 1, []))) ->
  put_value_sets sha hv s sets first = Ok r -> put_value_sets sha hv s0 sets first = Ok r.
Proof.
  intros Hsub Hlt Hroot E. unfold put_value_sets in *. apply rbind_inv in E as (tc & E & [= <-]).
  assert (cache_new s0 first = lift s0 (cache_new s first)) as ->.
  { unfold cache_new. destruct (first =? 0) eqn:Ef; [|done]. apply N.eqb_eq in Ef.
    destruct (st_nodes s !! (pre_genesis, [])) as [nd|] eqn:E1.
    - apply Hsub, Hlt in E1. cbn in E1. lia.
    - destruct (st_nodes s0 !! (pre_genesis, [])) as [nd|] eqn:E2; [apply Hlt in E2; cbn in E2; lia|done]. }
  assert (tc_store (cache_new s first) = s) as Es by (unfold cache_new; destruct (first =? 0); [destruct (st_nodes s !! (pre_genesis, []))|]; reflexivity).
  rewrite (lift_sets sha hv s0 first sets first _ tc); [done|lia| |done].
  assert (forall nk, first <= fst nk -> st_nodes s0 !! nk = None) as Hn.
  { intros nk Hnk. destruct (st_nodes s0 !! nk) as [nd|] eqn:E1; [|done]. apply Hlt in E1. lia. }
  split; [|split].
  - intros nk nd. rewrite Es. apply Hsub.
  - unfold safe_root. rewrite Es. unfold cache_new. destruct (first =? 0) eqn:Ef.
    + apply N.eqb_eq in Ef. intros _. destruct (st_nodes s !! _); cbn; apply Hn; cbn; lia.
    + apply N.eqb_neq in Ef. cbn. destruct (Hroot ltac:(lia)) as [nd ->]. done.
  - intros nk Hnk _. by apply Hn.
Qed.
