(** Short steps from the invariants to the properties of JmtProps.v. *)
From Verif Require Import Base JmtNibModel JmtNibProof JmtSpec JmtTraceSpec JmtModel JmtHashProof JmtAbsProof JmtCacheProof
  JmtInsertProof JmtPutProof JmtHistProof JmtRunSpec JmtValueProof JmtRunProof JmtReadProof JmtProofProof JmtMoreProof.
Local Open Scope N_scope.

Section P.
Context (sha hv : bytes -> bytes).

Lemma reached_inv ops s : reached sha hv ops s -> SInv sha hv s (history ops) (low ops).
Proof. intros [Hw E]. by apply run_inv. Qed.

Lemma obs_ok ops s v k : reached sha hv ops s -> low ops <= v < versions ops -> length k = 32%nat ->
  obs sha s v k =
    (Ok (smt_root sha hv (contents_at (history ops) v)), Ok (Some (N.of_nat (size (contents_at (history ops) v)))),
     value_at k (history ops) v,
     Ok (contents_at (history ops) v !! k, made_proof sha hv k (contents_at (history ops) v))).
Proof.
  intros HR Hv Hk. pose proof (reached_inv _ _ HR) as HS. unfold obs, versions in *.
  rewrite (root_ok sha hv s _ _ v HS Hv), (leaf_count_ok sha hv s _ _ v HS Hv), (trie_get_ok sha hv s _ _ k v HS),
    (read_ok sha hv s _ _ k v HS Hv Hk). reflexivity.
Qed.

Lemma low_from_ge ops : forall n lo, lo <= low_from n lo ops.
Proof.
  induction ops as [|o ops IH]; intros n lo; cbn [low_from]; [lia|].
  etransitivity; [|apply IH]. destruct o; cbn [op_low]; lia.
Qed.
Lemma low_from_app a b : forall n lo,
  low_from n lo (a ++ b) = low_from (n + N.of_nat (length (history a))) (low_from n lo a) b.
Proof.
  induction a as [|o a IH]; intros n lo; cbn [app low_from history flat_map]; [f_equal; cbn; lia|].
  rewrite IH. rewrite app_length. f_equal. fold (history a). lia.
Qed.
Lemma low_app a b : low (a ++ b) = low_from (versions a) (low a) b.
Proof. unfold low. rewrite low_from_app. f_equal. Qed.
Lemma low_app_ge a b : low a <= low (a ++ b).
Proof. rewrite low_app. apply low_from_ge. Qed.
Lemma low_puts sets n lo : low_from n lo (map (fun ws => OpPut [ws]) sets) = lo.
Proof. revert n. induction sets as [|ws sets IH]; intros n; [done|]. cbn [map low_from op_low]. apply IH. Qed.
Lemma history_app a b : history (a ++ b) = history a ++ history b.
Proof. unfold history. by rewrite flat_map_app. Qed.
Lemma history_puts sets : history (map (fun ws => OpPut [ws]) sets) = sets.
Proof. induction sets as [|ws sets IH]; [done|]. unfold history in *. cbn [map flat_map op_sets app]. by rewrite IH. Qed.
Lemma history_put sets : history [OpPut sets] = sets.
Proof. unfold history. cbn. apply app_nil_r. Qed.
Lemma history_purge least : history [OpPurge least] = [].
Proof. done. Qed.

Lemma run_from_app a b : forall s n,
  run_from sha hv s n (a ++ b) = rbind (run_from sha hv s n a) (fun s' => run_from sha hv s' (n + N.of_nat (length (history a))) b).
Proof.
  induction a as [|o a IH]; intros s n; cbn [app run_from rbind history flat_map]; [f_equal; cbn; lia|].
  destruct (run_op sha hv s n o); cbn [rbind]; try done. rewrite IH. rewrite app_length. fold (history a).
  by replace (n + N.of_nat (length (op_sets o)) + N.of_nat (length (history a)))
    with (n + N.of_nat (length (op_sets o) + length (history a))) by lia.
Qed.
Lemma reached_put ops s sets roots b s' : reached sha hv ops s -> wf_sets sets ->
  versions ops + N.of_nat (length sets) <= u64_max ->
  put_value_sets sha hv s sets (versions ops) = Ok (roots, b) -> write_batch s b = Ok s' ->
  reached sha hv (ops ++ [OpPut sets]) s'.
Proof.
  intros [[Hw Hm] E] Hs Hl E1 E2. unfold versions in *. split.
  - split; rewrite history_app, history_put; [by apply Forall_app|]. rewrite app_length. lia.
  - unfold run in *. rewrite run_from_app, E. cbn [rbind run_from run_op]. rewrite N.add_0_l, E1. cbn [rbind]. rewrite E2. done.
Qed.
Lemma reached_purge ops s least s' : reached sha hv ops s -> purge s least = Ok s' ->
  reached sha hv (ops ++ [OpPurge least]) s'.
Proof.
  intros [[Hw Hm] E] E1. split.
  - split; rewrite history_app, history_purge, app_nil_r; done.
  - unfold run in *. rewrite run_from_app, E. cbn [rbind run_from run_op]. rewrite E1. done.
Qed.

Lemma low_le ops s : reached sha hv ops s -> low ops <= versions ops.
Proof.
  intros HR. pose proof (reached_inv _ _ HR) as HS. unfold versions.
  destruct (decide (N.of_nat (length (history ops)) = 0)) as [e0|n0].
  - pose proof (si_lo0 _ _ _ _ _ HS e0). lia.
  - pose proof (si_lo _ _ _ _ _ HS ltac:(lia)). lia.
Qed.

(** Observations of two executions agree wherever the contents do. *)
Lemma obs_same ops ops' s s' v v' k : reached sha hv ops s -> reached sha hv ops' s' ->
  low ops <= v < versions ops -> low ops' <= v' < versions ops' -> length k = 32%nat ->
  contents_at (history ops) v = contents_at (history ops') v' ->
  obs sha s v k = obs sha s' v' k.
Proof.
  intros HR HR' Hv Hv' Hk E. rewrite (obs_ok _ _ _ _ HR Hv Hk), (obs_ok _ _ _ _ HR' Hv' Hk), E.
  by rewrite <-!contents_value, E.
Qed.

Lemma contents_wf hist v k x : wf_sets hist -> contents_at hist v !! k = Some x -> length k = 32%nat.
Proof.
  intros Hw. rewrite contents_value. unfold value_at.
  assert (forall y, last_write k (take (S (N.to_nat v)) hist) = Some y -> length k = 32%nat) as H.
  { intros y. assert (wf_sets (take (S (N.to_nat v)) hist)) as Ht by (by apply Forall_take).
    induction Ht as [|ws sets Hws Ht IH]; [done|]. cbn [last_write]. destruct (last_write k sets); [by auto|]. clear IH.
    induction Hws as [|[k' x'] ws Hk' Hws IH]; [done|]. cbn [last_write_in].
    destruct (last_write_in k ws); [by auto|]. case_decide; [|done]. intros _. subst. done. }
  destruct (last_write k _) as [y|]; [intros _; by eapply H|done].
Qed.

Lemma keep_last_elem ws k x : (k, x) ∈ keep_last ws <-> exists a b, ws = a ++ (k, x) :: b /\ k ∉ map fst b.
Proof.
  induction ws as [|w ws IH]; cbn [keep_last].
  - split; [by intros ?%elem_of_nil|]. intros (a & b & E & _). by destruct a.
  - assert ((exists a b, w :: ws = a ++ (k, x) :: b /\ k ∉ map fst b) <->
      (w = (k, x) /\ k ∉ map fst ws) \/ exists a b, ws = a ++ (k, x) :: b /\ k ∉ map fst b) as ->.
    { split.
      - intros ([|w' a] & b & E & Hb); injection E as -> ->; [by left|right; by exists a, b].
      - intros [[-> Hn]|(a & b & -> & Hb)]; [by exists [], ws|by exists (w :: a), b]. }
    case_decide as Hd.
    + rewrite IH. split; [by right|]. intros [[-> Hn]|H]; [done|done].
    + rewrite elem_of_cons, IH. split; (intros [H|H]; [left|by right]).
      * subst w. done.
      * by destruct H.
Qed.
Lemma entries_snoc k ws : forall sets v, entries k v (sets ++ [ws]) = entries k v sets ++ entries k (v + N.of_nat (length sets)) [ws].
Proof.
  induction sets as [|a sets IH]; intros v; cbn [app entries length]; [by replace (v + N.of_nat 0) with v by lia|].
  rewrite IH, (assoc_L (++)).
  by replace (v + 1 + N.of_nat (length sets)) with (v + N.of_nat (S (length sets))) by lia.
Qed.
Lemma entries_keep_last k sets ws v : entries k v (sets ++ [keep_last ws]) = entries k v (sets ++ [ws]).
Proof. rewrite !entries_snoc. cbn [entries]. by rewrite keep_last_in. Qed.

Lemma key_list (m : gmap bytes bytes) :
  exists ks : list bytes, length ks = size m /\ NoDup ks /\ forall k, k ∈ ks <-> is_Some (m !! k).
Proof.
  exists ((map_to_list m).*1). split; [by rewrite fmap_length|]. split; [apply NoDup_fst_map_to_list|].
  intros k. rewrite elem_of_list_fmap. split.
  - intros ([k' x] & -> & H%elem_of_map_to_list). by exists x.
  - intros [x H]. exists (k, x). split; [done|]. by apply elem_of_map_to_list.
Qed.
Lemma fold_inv_ok p root k x : (length (p_siblings p) <= 256)%nat ->
  verify sha hv p root k x = Ok tt ->
  fold_siblings sha (proof_leaf_hash sha p) (p_siblings p) (drop (256 - length (p_siblings p)) (rev (iter_bits k))) = root.
Proof.
  intros Hl. unfold verify. rewrite (proj2 (Nat.ltb_ge _ _)) by done.
  match goal with |- rbind ?a _ = _ -> _ => destruct a as [[]| | |] end; cbn [rbind]; try done.
  case_decide; done.
Qed.
End P.
