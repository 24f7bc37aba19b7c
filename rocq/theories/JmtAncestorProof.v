(** The ancestors of a stored node. *)
From Verif Require Import Base JmtNibModel JmtNibProof JmtSpec JmtTraceSpec JmtNibSpec JmtModel JmtHashProof JmtAbsProof JmtCacheProof
  JmtInsertProof JmtPutProof JmtHistProof JmtRunSpec JmtValueProof JmtRunProof JmtReadProof JmtProofProof JmtPropProof JmtRestoreModel.
Local Open Scope N_scope.

Section Ancestors.
Context (sha hv : bytes -> bytes) (cs : N -> gmap bytes bytes) (wr : N -> bytes -> Prop).
Context (S : gmap nkey node) (R : gset (N * nkey)) (n lo : N) (vs : N -> path -> N).
Hypothesis H : HInv sha cs wr S R n lo vs.
Notation live_at := (live_at cs vs).
Notation node_of := (node_of sha).

(** A node is at least as new as the ones below it. *)
Lemma ver_ups u q r : lo <= u < n -> q <> [] -> live [] (cs u) (q ++ r) -> vs u (q ++ r) <= vs u q /\ live [] (cs u) q.
Proof.
  revert q. induction r as [|i r IH]; intros q Hu Hq Hl; [rewrite app_nil_r in *; split; [lia|done]|].
  rewrite cons_middle, app_assoc in Hl |- *. destruct (IH (q ++ [i]) Hu ltac:(by destruct q) Hl) as [Hle Hli].
  pose proof (hi_mono _ _ _ _ _ _ _ _ H u q i Hu Hq Hli). split; [lia|]. by apply (live_up _ _ i).
Qed.
(** A stored node belongs to the tree of its version. *)
Lemma stored_live u q nd : lo <= u -> q <> [] -> S !! (u, q) = Some nd -> live_at u (u, q) /\ u < n.
Proof.
  intros Hu Hq Hn. pose proof (hi_fresh _ _ _ _ _ _ _ _ H _ _ Hn) as Hun. cbn [fst] in Hun. split; [|done].
  destruct (hi_comp _ _ _ _ _ _ _ _ H _ _ Hn Hq) as [[H0 Hl]|[t Ht]].
  - apply (hi_born _ _ _ _ _ _ _ _ H (n - 1)); [lia|lia|done|cbn; lia].
  - pose proof (hi_rec _ _ _ _ _ _ _ _ H t _ Ht) as (A & B & _). cbn [fst] in A. pose proof (hi_lo _ _ _ _ _ _ _ _ H t _ Ht) as C.
    apply (hi_born _ _ _ _ _ _ _ _ H (t - 1)); [lia|lia|by apply (hi_was _ _ _ _ _ _ _ _ H)|cbn; lia].
Qed.
Lemma ancestors u p q nd : lo <= u -> p `prefix_of` q -> S !! (u, q) = Some nd -> is_Some (S !! (u, p)).
Proof.
  intros Hu [r ->] Hn. destruct (decide (p = [])) as [->|Hp].
  { pose proof (hi_fresh _ _ _ _ _ _ _ _ H _ _ Hn) as Hun. cbn [fst] in Hun.
    exists (node_of (cs u) (vs u) []). apply (h_root _ _ _ _ _ (hi_holds _ _ _ _ _ _ _ _ H u ltac:(lia))). }
  destruct (stored_live u (p ++ r) nd Hu ltac:(by destruct p) Hn) as [(_ & Hl & Ev) Hun]. cbn [fst snd] in Hl, Ev.
  destruct (ver_ups u p r ltac:(lia) Hp Hl) as [Hle Hlp]. pose proof (hi_holds _ _ _ _ _ _ _ _ H u ltac:(lia)) as HH.
  pose proof (h_le _ _ _ _ _ HH p Hp Hlp) as Hle2. assert (vs u p = u) as E by lia.
  exists (node_of (cs u) (vs u) p). rewrite <-E at 1. apply (h_live _ _ _ _ _ HH p Hp Hlp).
Qed.
End Ancestors.

(** [climb] reaches the root when the ancestors are stored. *)
Lemma climb_panics s u rp : (forall p, p `prefix_of` rev rp -> is_Some (st_nodes s !! (u, p))) -> climb s u rp = Panic.
Proof.
  induction rp as [|i rp IH]; intros Hs; cbn [climb]; (destruct (Hs (rev (A := nib) _) ltac:(reflexivity)) as [nd ->]); [done|].
  apply IH. intros p Hp. apply Hs. cbn [rev]. by apply prefix_app_r.
Qed.
