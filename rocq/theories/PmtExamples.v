(** A concrete history with the real hash, used as the non-trivial case beside
    the theorems about the Patricia trie. *)
From Verif Require Import Base PmtNibblesModel RlpModel PmtModel PmtRunSpec KeccakModel.

(** Decidable forms of the side conditions. *)
Definition inj_onb (f : bytes -> bytes) (l : list bytes) : bool :=
  let fl := map (fun x => (x, f x)) l in
  forallb (fun a => forallb (fun b => negb (bool_decide (a.2 = b.2)) || bool_decide (a.1 = b.1)) fl) fl.
Lemma inj_onb_spec f l : inj_onb f l = true -> inj_on f l.
Proof.
  unfold inj_onb. intros H x y Hx Hy E. rewrite forallb_forall in H.
  apply elem_of_list_In in Hx, Hy. apply (in_map (fun x => (x, f x))) in Hx, Hy.
  specialize (H _ Hx). rewrite forallb_forall in H. specialize (H _ Hy). cbn in H.
  apply orb_true_iff in H as [H|H]; [|by apply bool_decide_eq_true in H].
  apply negb_true_iff, bool_decide_eq_false in H. congruence.
Qed.

Definition shortb (b : bytes) : bool := (N.of_nat (length b) <? 2 ^ 58)%N.
Definition op_shortb (o : op) : bool :=
  match o with
  | OAct _ a =>
      match a with
      | AInsert k v => shortb k && shortb v
      | ARemove k | AGet k | AContains k | AProof k => shortb k
      | ACommit => true
      end
  | OOpen _ => true
  end.
Lemma op_shortb_spec ops : forallb op_shortb ops = true -> Forall op_short ops.
Proof.
  intros H. apply Forall_forall. intros o Ho. rewrite forallb_forall in H.
  apply elem_of_list_In in Ho. specialize (H _ Ho).
  assert (Hs : forall b, shortb b = true -> short b) by (intros b Hb; by apply N.ltb_lt).
  destruct o as [i [k v|k|k|k| |k]|j]; cbn in *; auto. apply andb_prop in H as [? ?]. auto.
Qed.

Definition v40 (n : N) : bytes := hexs (replicate 40 n).
Definition k1 : bytes := hexs [1; 2; 3]%N.
Definition k2 : bytes := hexs [1; 2; 200]%N.
Definition k3 : bytes := hexs [1]%N.
Definition k4 : bytes := hexs [0x74; 0x65; 0x73; 0x74]%N.

(** Three keys, one a prefix of the others; commit; a view on the committed
    root; a removal, an overwrite and a second commit behind its back. *)
Definition ex_ops : list op :=
  [OAct 0 (AInsert k1 (v40 5)); OAct 0 (AInsert k2 (v40 6)); OAct 0 (AInsert k3 (hexs [9]%N));
   OAct 0 (AGet k2); OAct 0 ACommit; OOpen 0; OAct 0 (ARemove k2); OAct 0 (AInsert k1 (v40 7));
   OAct 0 (AContains k2); OAct 0 ACommit; OAct 1 (AGet k2); OAct 0 (AProof k1); OAct 0 (AGet k1)].
Definition ex_world : world := (run keccak256 0 (world0 keccak256) ex_ops).2.
Definition ex_spec : spec := srun spec0 ex_ops.
Definition ex_view : trie := default (new_trie keccak256) (w_views ex_world !! 0).

Lemma ex_reaches : reaches keccak256 0 ex_ops ex_world ex_spec.
Proof.
  unfold reaches, ex_world, ex_spec. split; [apply eq_refl|]. split; [apply eq_refl|]. split; [apply op_shortb_spec; vm_compute; reflexivity|].
  apply inj_onb_spec. vm_compute. reflexivity.
Qed.
Lemma ex_view_ok : w_views ex_world !! 0 = Some ex_view.
Proof. vm_compute. reflexivity. Qed.
Lemma ex_contents : s_views ex_spec !! 0 = Some {[k1 := v40 7; k3 := hexs [9]%N]}.
Proof. apply (bool_decide_unpack _). vm_compute. exact I. Qed.
Lemma ex_commit_ok : commit_collision_free keccak256 ex_world ex_view.
Proof. apply inj_onb_spec. vm_compute; reflexivity. Qed.

Definition tameb_step (s : spec) (o : op) : bool :=
  match o with
  | OAct i (ARemove k) =>
      match s_views s !! i with
      | Some m =>
          (match m !! k with Some _ => false | None => true end) ||
          forallb (fun kv : bytes * bytes => bool_decide (take (length k) kv.1 <> k \/ kv.1 = k)) (map_to_list m) ||
          existsb (fun kv : bytes * bytes => existsb (fun kv' : bytes * bytes =>
            match drop (length k) kv.1, drop (length k) kv'.1 with
            | a :: _, b :: _ => bool_decide (take (length k) kv.1 = k /\ take (length k) kv'.1 = k /\ bval a / 16 <> bval b / 16)
            | _, _ => false
            end) (map_to_list m)) (map_to_list m)
      | None => true
      end
  | _ => true
  end.
Fixpoint tameb (s : spec) (ops : list op) : bool :=
  match ops with [] => true | o :: ops' => tameb_step s o && tameb (sstep s o) ops' end.
Lemma tameb_spec s ops : tameb s ops = true -> tame s ops.
Proof.
  revert s. induction ops as [|o ops IH]; intros s H; [done|]. cbn in H. apply andb_prop in H as [H1 H2].
  split; [|by apply IH]. destruct o as [i [k v|k|k|k| |k]|j]; try done. cbn in *.
  intros m Hm [v Hv]. rewrite Hm, Hv in H1. cbn [orb] in H1. apply orb_prop in H1 as [H1|H1].
  - left. intros k' [v' Hv'] [[z ->] Hne]. rewrite forallb_forall in H1.
    specialize (H1 (k ++ z, v')). cbn in H1. rewrite take_app in H1.
    apply elem_of_map_to_list, elem_of_list_In in Hv'. specialize (H1 Hv'). apply bool_decide_eq_true in H1.
    destruct H1 as [H1|H1]; [done|]. by apply Hne.
  - right. apply existsb_exists in H1 as ([l1 v1] & Hl1 & H1). apply existsb_exists in H1 as ([l2 v2] & Hl2 & H1).
    apply elem_of_list_In, elem_of_map_to_list in Hl1. apply elem_of_list_In, elem_of_map_to_list in Hl2. cbn [fst] in H1.
    destruct (drop (length k) l1) as [|a x] eqn:E1; [done|]. destruct (drop (length k) l2) as [|b y] eqn:E2; [done|].
    apply bool_decide_eq_true in H1 as (T1 & T2 & Hne). exists a, b, x, y.
    assert (forall l c z, take (length k) l = k -> drop (length k) l = c :: z -> k ++ c :: z = l) as E.
    { intros l c z Et Ed. rewrite <- Ed, <- Et at 1. apply take_drop. }
    rewrite (E l1 a x T1 E1), (E l2 b y T2 E2). eauto.
Qed.
Lemma ex_tame : tame spec0 ex_ops.
Proof. apply tameb_spec. vm_compute; reflexivity. Qed.
