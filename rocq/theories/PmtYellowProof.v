(** The canonical trie of some bindings encodes as the Yellow Paper says. *)
From Verif Require Import Base PmtNibblesModel RlpModel PmtModel PmtRunSpec PmtNibblesProof RlpProof PmtSpec
  PmtEncProof PmtLookupProof PmtYellowSpec.
Open Scope res_scope.

Lemma nibbles_unpack k : nibbles k = unpack k.
Proof. induction k; cbn; [done|]. f_equal. f_equal. done. Qed.

Lemma u8_byte_of_nat n b : u8 n = Ok b -> byte_of_nat n = b.
Proof. unfold u8, byte_of_nat. destruct (Byte.of_nat n); congruence. Qed.

Lemma pack_pairs h r : pack h = Ok r -> pairs h = r.
Proof.
  revert r. assert (H : forall n h, length h <= n -> forall r, pack h = Ok r -> pairs h = r); [|by apply (H (length h))].
  clear h. intros n. induction n as [|n IH]; intros [|a [|b h]] Hl r H; cbn [pack pairs length] in *; try lia; try congruence.
  destruct (u8 (a * 16 + b)) as [y| | |] eqn:Eu; cbn [rbind] in H; try done.
  destruct (pack h) as [r'| | |] eqn:Ep; cbn [rbind] in H; try done.
  injection H as <-. f_equal; [|apply IH; [lia|done]]. apply u8_byte_of_nat. rewrite <- Eu. f_equal. lia.
Qed.

Lemma hp_leaf b : nibs b -> hp (b ++ [16]) = hex_prefix b true.
Proof.
  intros Hn. destruct (hp_ok _ (valid_leaf _ Hn)) as (He & _). revert He. generalize (hp (b ++ [16])). intros y He.
  unfold encode_compact in He. rewrite is_leaf_app in He. cbn [rbind Nat.eqb] in He.
  rewrite app_length in He. replace (length b + length [16] - 1) with (length b) in He by (cbn; lia).
  rewrite take_app in He. unfold hex_prefix. destruct (Nat.odd (length b)) eqn:Ho.
  - destruct b as [|x b]; [done|]. destruct (u8 (16 + x + 32)) as [v| | |] eqn:Eu; try done. cbn [rbind] in He.
    destruct (pack b) as [r| | |] eqn:Ep; try done. cbn [rbind] in He. injection He as <-.
    symmetry. f_equal; [|by apply pack_pairs]. apply u8_byte_of_nat. rewrite <- Eu. f_equal. lia.
  - destruct (u8 32) as [v| | |] eqn:Eu; try done. cbn [rbind] in He.
    destruct (pack b) as [r| | |] eqn:Ep; try done. cbn [rbind] in He. injection He as <-.
    assert (byte_of_nat (16 * 2) = v) by (apply u8_byte_of_nat; exact Eu).
    symmetry. destruct b; f_equal; auto; by apply pack_pairs.
Qed.
Lemma hp_ext b : nibs b -> b <> [] -> hp b = hex_prefix b false.
Proof.
  intros Hn Hne. destruct (hp_ok _ (valid_ext _ Hn Hne)) as (He & _). revert He. generalize (hp b). intros y He.
  unfold encode_compact in He. rewrite is_leaf_nibs in He by done. cbn [rbind] in He.
  unfold hex_prefix. destruct (Nat.odd (length b)) eqn:Ho.
  - destruct b as [|x b]; [done|]. destruct (u8 (16 + x + 0)) as [v| | |] eqn:Eu; try done. cbn [rbind] in He.
    destruct (pack b) as [r| | |] eqn:Ep; try done. cbn [rbind] in He. injection He as <-.
    symmetry. f_equal; [|by apply pack_pairs]. apply u8_byte_of_nat. rewrite <- Eu. f_equal. lia.
  - destruct (u8 0) as [v| | |] eqn:Eu; try done. cbn [rbind] in He.
    destruct (pack b) as [r| | |] eqn:Ep; try done. cbn [rbind] in He. injection He as <-.
    assert (byte_of_nat (16 * 0) = v) by (apply u8_byte_of_nat; exact Eu).
    symmetry. destruct b; f_equal; auto; by apply pack_pairs.
Qed.

(** Shared prefixes. *)
Lemma shared2_app a p q : shared2 (a ++ p) (a ++ q) = length a + shared2 p q.
Proof. induction a as [|x a IH]; cbn; [done|]. by rewrite Nat.eqb_refl, IH. Qed.
Lemma shared2_le p q : shared2 p q <= length p.
Proof. revert q. induction p as [|x p IH]; intros [|y q]; cbn; try lia. destruct (x =? y); [specialize (IH q)|]; lia. Qed.
Lemma shared2_take p q n : n <= shared2 p q -> take n p = take n q.
Proof.
  revert q n. induction p as [|x p IH]; intros [|y q] n H; cbn in H; [by replace n with 0 by lia..|].
  destruct n as [|n]; [done|]. destruct (Nat.eqb_spec x y); [|lia]. subst. cbn. f_equal. apply IH. lia.
Qed.

Lemma shared_spec (I : binding) J n : n <= shared (I :: J) <->
  n <= length I.1 /\ Forall (fun I' : binding => n <= shared2 I.1 I'.1) J.
Proof.
  cbn [shared]. induction J as [|I' J IH]; cbn [fold_right]; [|rewrite Forall_cons].
  - split; [intros; split; [done|constructor]|by intros [? _]].
  - set (y := fold_right _ _ _) in *. rewrite Nat.min_glb_iff. tauto.
Qed.

(** All paths of [J] start with [p], and two of them part right after it. *)
Lemma shared_exact (J : list binding) p (q1 q2 : nibble_path) v1 v2 :
  Forall (fun I : binding => exists q, I.1 = p ++ q) J -> (p ++ q1, v1) ∈ J -> (p ++ q2, v2) ∈ J ->
  shared2 q1 q2 = 0 -> q1 <> q2 -> shared J = length p.
Proof.
  intros Hall H1 H2 Hs Hne. destruct J as [|I J]; [by apply elem_of_nil in H1|].
  inversion Hall as [|? ? [q0 E0] HJ]; subst.
  apply Nat.le_antisymm.
  - destruct (le_lt_dec (shared (I :: J)) (length p)) as [|Hlt]; [done|exfalso].
    assert (Hsh : S (length p) <= shared (I :: J)) by lia. apply shared_spec in Hsh as [Hl Hf].
    assert (Htk : forall I', I' ∈ I :: J -> take (S (length p)) I'.1 = take (S (length p)) I.1).
    { intros I' [->|Hin]%elem_of_cons; [done|]. rewrite Forall_forall in Hf. specialize (Hf _ Hin).
      symmetry. by apply shared2_take. }
    pose proof (Htk _ H1) as T1. pose proof (Htk _ H2) as T2. cbn [fst] in T1, T2.
    rewrite E0 in T1, T2, Hl. rewrite app_length in Hl.
    assert (Ht : forall q : nibble_path, take (S (length p)) (p ++ q) = p ++ take 1 q).
    { intros q. rewrite take_app_ge by lia. do 2 f_equal. lia. }
    rewrite !Ht in T1, T2. apply app_inv_head in T1, T2.
    destruct q0 as [|x q0]; [cbn in Hl; lia|]. destruct q1 as [|x1 q1], q2 as [|x2 q2]; try done.
    cbn in T1, T2. injection T1 as ->. injection T2 as ->. cbn in Hs. by rewrite Nat.eqb_refl in Hs.
  - apply shared_spec. split; [rewrite E0, app_length; lia|].
    eapply Forall_impl; [exact HJ|]. intros I' [q' E']. rewrite E0, E', shared2_app. lia.
Qed.

(** [J] lists the contents of [t]. *)
Definition lists (t : node) (J : list binding) : Prop :=
  NoDup (map fst J) /\ forall q v, (q, v) ∈ J <-> nibs q /\ lk t (q ++ [16]) = Some v.

Lemma lists_two t (J : list binding) q1 q2 v1 v2 : lists t J -> (q1, v1) ∈ J -> (q2, v2) ∈ J -> q1 <> q2 ->
  exists I I' J', J = I :: I' :: J'.
Proof.
  intros _ H1 H2 Hne. destruct J as [|I [|I' J]]; [by apply elem_of_nil in H1| |eauto].
  apply elem_of_list_singleton in H1, H2. congruence.
Qed.

Lemma nodup_fst_inj {A B} (J : list (A * B)) a b b' : NoDup (map fst J) -> (a, b) ∈ J -> (a, b') ∈ J -> b = b'.
Proof.
  induction J as [|[x y] J IH]; cbn; intros Hn H1 H2; [by apply elem_of_nil in H1|].
  inversion Hn as [|? ? Hx Hn']; subst.
  assert (Hfst : forall a b, (a, b) ∈ J -> a ∈ map fst J).
  { intros a0 b0 H. apply elem_of_list_In, in_map_iff. exists (a0, b0). split; [done|by apply elem_of_list_In]. }
  apply elem_of_cons in H1 as [E1|H1]; apply elem_of_cons in H2 as [E2|H2]; [congruence|..|eauto].
  - exfalso. injection E1 as -> ->. eauto.
  - exfalso. injection E2 as -> ->. eauto.
Qed.

Lemma in_below x (J : list binding) p v : (p, v) ∈ below x J <-> (x :: p, v) ∈ J.
Proof.
  unfold below. rewrite elem_of_list_In, in_concat. split.
  - intros (l & Hl & Hin). apply in_map_iff in Hl as ([q w] & <- & HJ). cbn [fst snd] in Hin.
    destruct q as [|y q]; [done|]. destruct (Nat.eqb_spec y x) as [->|]; [|done].
    destruct Hin as [[= -> ->]|[]]. by apply elem_of_list_In.
  - intros HJ. exists [(p, v)]. split; [|by left]. apply in_map_iff. exists (x :: p, v). cbn.
    rewrite Nat.eqb_refl. split; [done|by apply elem_of_list_In].
Qed.

Lemma nodup_below x (J : list binding) : NoDup (map fst J) -> NoDup (map fst (below x J)).
Proof.
  induction J as [|[q w] J IH]; cbn; intros Hn; [constructor|].
  inversion Hn as [|? ? Hx Hn']; subst. specialize (IH Hn').
  destruct q as [|y q]; [exact IH|]. destruct (Nat.eqb_spec y x) as [->|]; [|exact IH].
  cbn. constructor; [|exact IH]. intros Hin. apply Hx.
  apply elem_of_list_In, in_map_iff in Hin as ([q' w'] & E & Hin). cbn in E. subst q'.
  apply elem_of_list_In, in_below in Hin.
  apply elem_of_list_In, in_map_iff. exists (x :: q, w'). split; [done|by apply elem_of_list_In].
Qed.

Lemma here_spec (J : list binding) : NoDup (map fst J) ->
  (forall v, ([], v) ∈ J -> here J = v) /\ ((forall v, ([], v) ∉ J) -> here J = []).
Proof.
  assert (Hc : forall q w J, here ((q, w) :: J) = match q with [] => w | _ => [] end ++ here J) by done.
  induction J as [|[q w] J IH]; cbn [map fst]; intros Hn.
  - split; [intros v H; by apply elem_of_nil in H|done].
  - inversion Hn as [|? ? Hx Hn']; subst. destruct (IH Hn') as [IH1 IH2]. split.
    + intros v [E|Hin]%elem_of_cons; rewrite Hc.
      * injection E as <- <-. rewrite IH2; [apply app_nil_r|]. intros v' Hin. apply Hx.
        apply elem_of_list_In, in_map_iff. exists ([], v'). split; [done|by apply elem_of_list_In].
      * destruct q; [|by apply IH1]. exfalso. apply Hx.
        apply elem_of_list_In, in_map_iff. exists ([], v). split; [done|by apply elem_of_list_In].
    + intros Hno. rewrite Hc. destruct q as [|y q]; [by destruct (Hno w); left|]. apply IH2.
      intros v Hin. apply (Hno v). by right.
Qed.

Section hash.
  Context (keccak : bytes -> bytes).
  Notation enc := (enc keccak).
  Notation yellow := (yellow keccak).

  Lemma embed_ref e : embed keccak e = ref keccak e.
  Proof. done. Qed.

  Lemma yellow_enc V L t J fuel : wf true V L t -> lists t J -> 0 < fuel ->
    Forall (fun I : binding => length I.1 < fuel) J -> yellow fuel J = enc t.
  Proof.
    revert L J fuel. induction t as [|k w|p s IH|ts w IH|h] using node_ind';
      intros L J fuel Hw [Hnd HJ] Hf0 Hf; (destruct fuel as [|fuel]; [lia|]);
      inversion Hw as [?|? b ? Hb HbL Hv0 HvV|L0 ? ? Hp1 Hp2 Hp3 Hp4|L0 ? ? Hlen16 Hall Hv1 Hv2 Hc2]; subst.
    - destruct J as [|[q v] J]; [done|]. exfalso.
      destruct (HJ q v) as [H _]. destruct H as [_ H]; [by left|done].
    - assert (HJ' : forall q v, (q, v) ∈ J <-> q = b /\ v = w).
      { intros q v. rewrite HJ, lk_leaf. case_decide as E.
        - apply app_inv_tail in E as ->. split; [by intros [_ [= ->]]|]. by intros [_ ->].
        - split; [by intros [_ ?]|]. intros [-> ->]. done. }
      assert (J = [(b, w)]) as ->.
      { destruct J as [|[q v] J]; [exfalso; eapply elem_of_nil; exact (proj2 (HJ' b w) (conj eq_refl eq_refl))|].
        destruct (proj1 (HJ' q v)) as [-> ->]; [by left|]. destruct J as [|[q v] J]; [done|].
        destruct (proj1 (HJ' q v)) as [-> ->]; [right; by left|]. cbn in Hnd. inversion Hnd as [|? ? Hx _]; subst.
        exfalso. apply Hx. by left. }
      cbn [PmtYellowSpec.yellow PmtSpec.enc]. by rewrite hp_leaf.
    - destruct s as [| | |ts v|]; try done.
      destruct (wf_branch_two _ _ _ _ Hp4) as (x & y & q1 & q2 & Hxy & Hx & Hy & Hlx & Hly).
      destruct Hx as (b1 & Hb1 & E1), Hy as (b2 & Hb2 & E2). rewrite E1 in Hlx. rewrite E2 in Hly.
      destruct (lk (NBranch ts v) (b1 ++ [16])) as [v1|] eqn:Ev1; [|done].
      destruct (lk (NBranch ts v) (b2 ++ [16])) as [v2|] eqn:Ev2; [|done].
      assert (Hi : forall b v', nibs b -> lk (NBranch ts v) (b ++ [16]) = Some v' -> (p ++ b, v') ∈ J).
      { intros b v' Hb Hl. apply HJ. split; [by apply Forall_app|]. by rewrite <- app_assoc, lk_ext_app. }
      assert (Hpre : forall q v', (q, v') ∈ J -> exists q', q = p ++ q' /\ nibs q' /\ lk (NBranch ts v) (q' ++ [16]) = Some v').
      { intros q v' H. apply HJ in H as [Hn Hl].
        destruct (lk_ext_some p (NBranch ts v) (q ++ [16])) as (p' & E & Hl'); [congruence|].
        rewrite E, lk_ext_app in Hl.
        assert (tpath p') as (b' & Hb' & ->).
        { apply (tpath_app p); [done|]. rewrite <- E. by apply tpath_nibs. }
        rewrite app_assoc in E. apply app_inv_tail in E as ->. eauto. }
      assert (Hb12 : shared2 b1 b2 = 0 /\ b1 <> b2).
      { split; [|intros ->; congruence]. destruct b1 as [|z1 b1], b2 as [|z2 b2]; cbn; try done.
        injection E1 as <- _. injection E2 as <- _. by rewrite (proj2 (Nat.eqb_neq _ _) Hxy). }
      destruct Hb12 as [Hs12 Hb12].
      assert (Hsh : shared J = length p).
      { eapply (shared_exact J p b1 b2 v1 v2); auto. apply Forall_forall. intros [q v'] Hin.
        destruct (Hpre q v' Hin) as (q' & -> & _). by exists q'. }
      destruct (lists_two _ J (p ++ b1) (p ++ b2) v1 v2 (conj Hnd HJ)) as ([q0 w0] & [q0' w0'] & J' & EJ); auto.
      { intros E. by apply app_inv_head in E. }
      cbn [PmtYellowSpec.yellow]. rewrite EJ. rewrite <- EJ, Hsh.
      destruct (Nat.eqb_spec (length p) 0) as [E|_]; [by destruct p|].
      cbn [PmtSpec.enc]. rewrite hp_ext by done. rewrite embed_ref.
      destruct (Hpre q0 w0) as (q' & -> & _); [rewrite EJ; by left|]. rewrite take_app.
      rewrite (IH L0); [done|done| |..].
      + assert (Hmem : forall q v', (q, v') ∈ map (fun I : binding => (drop (length p) I.1, I.2)) J <-> (p ++ q, v') ∈ J).
        { intros q v'. rewrite elem_of_list_In, in_map_iff. split.
          - intros ([q3 v3] & [= <- <-] & Hin). apply elem_of_list_In in Hin.
            destruct (Hpre q3 v3 Hin) as (q4 & -> & _). by rewrite drop_app.
          - intros Hin. exists (p ++ q, v'). cbn. rewrite drop_app. split; [done|by apply elem_of_list_In]. }
        split.
        * rewrite map_map. cbn [fst]. clear -Hnd Hpre. induction J as [|[q v'] J IHJ]; cbn in *; [constructor|].
          inversion Hnd as [|? ? Hx Hnd']; subst. constructor.
          -- intros Hin. apply elem_of_list_In, in_map_iff in Hin as ([q3 v3] & E & Hin). cbn in E.
             apply elem_of_list_In in Hin.
             destruct (Hpre q v') as (q4 & -> & _); [by left|]. destruct (Hpre q3 v3) as (q5 & -> & _); [by right|].
             rewrite !drop_app in E. subst. apply Hx. apply elem_of_list_In, in_map_iff.
             exists (p ++ q4, v3). split; [done|by apply elem_of_list_In].
          -- apply IHJ; [done|]. intros q0 v0 Hin. apply (Hpre q0 v0). by right.
        * intros q v'. rewrite Hmem, HJ. rewrite <- app_assoc, lk_ext_app. unfold nibs. rewrite Forall_app. tauto.
      + rewrite Forall_forall in Hf. specialize (Hf (p ++ b1, v1) (Hi _ _ Hb1 Ev1)). cbn in Hf.
        rewrite app_length in Hf. destruct p; [done|]. cbn in Hf. lia.
      + apply Forall_forall. intros I Hin. apply elem_of_list_In, in_map_iff in Hin as ([q3 v3] & <- & Hin).
        apply elem_of_list_In in Hin. rewrite Forall_forall in Hf. specialize (Hf _ Hin). cbn [fst] in *.
        destruct (Hpre q3 v3 Hin) as (q4 & -> & _). rewrite app_length in Hf. rewrite drop_length, app_length.
        destruct p; [done|]. cbn [length] in *. lia.
    - destruct (wf_branch_two _ _ _ _ Hw) as (x & y & q1 & q2 & Hxy & Hx & Hy & Hlx & Hly).
      destruct Hx as (b1 & Hb1 & E1), Hy as (b2 & Hb2 & E2). rewrite E1 in Hlx. rewrite E2 in Hly.
      destruct (lk (NBranch ts w) (b1 ++ [16])) as [v1|] eqn:Ev1; [|done].
      destruct (lk (NBranch ts w) (b2 ++ [16])) as [v2|] eqn:Ev2; [|done].
      assert (H1 : (b1, v1) ∈ J) by (by apply HJ). assert (H2 : (b2, v2) ∈ J) by (by apply HJ).
      assert (Hb12 : shared2 b1 b2 = 0 /\ b1 <> b2).
      { split; [|intros ->; congruence]. destruct b1 as [|z1 b1], b2 as [|z2 b2]; cbn; try done.
        injection E1 as <- _. injection E2 as <- _. by rewrite (proj2 (Nat.eqb_neq _ _) Hxy). }
      destruct Hb12 as [Hs12 Hb12].
      assert (Hsh : shared J = 0).
      { eapply (shared_exact J [] b1 b2 v1 v2); auto. apply Forall_forall. intros [q v'] _. by exists q. }
      destruct (lists_two _ J b1 b2 v1 v2 (conj Hnd HJ)) as ([q0 w0] & [q0' w0'] & J' & EJ); auto.
      cbn [PmtYellowSpec.yellow]. rewrite EJ. rewrite <- EJ, Hsh. cbn [Nat.eqb PmtSpec.enc].
      assert (Hfuel : 0 < fuel).
      { rewrite Forall_forall in Hf. pose proof (Hf _ H1). pose proof (Hf _ H2). cbn in *.
        destruct b1, b2; cbn in *; try lia. done. }
      f_equal. f_equal.
      + rewrite <- Hlen16.
        assert (Hch : forall i t, ts !! i = Some t -> yellow fuel (below i J) = enc t).
        { intros i t Ht. rewrite Forall_lookup in IH, Hall.
          assert (Hi16 : i < 16) by (rewrite <- Hlen16; by eapply lookup_lt_Some).
          apply (IH i t Ht L0); [by eauto| |done|].
          - split; [by apply nodup_below|]. intros q v. rewrite in_below, HJ. cbn [app].
            rewrite lk_branch, Ht. destruct (Nat.eqb_spec i 16); [lia|].
            split; [intros [Hn ?]; by inversion Hn|]. intros [Hn ?]. split; [by constructor|done].
          - apply Forall_forall. intros [q v] Hin. apply in_below in Hin. rewrite Forall_forall in Hf.
            specialize (Hf _ Hin). cbn in *. lia. }
        clear -Hch. assert (Hgen : forall (ts' : list node) off,
          (forall i t, ts' !! i = Some t -> yellow fuel (below (off + i) J) = enc t) ->
          map (fun x => embed keccak (yellow fuel (below x J))) (seq off (length ts')) =
          map (fun c => ref keccak (enc c)) ts').
        { clear Hch. intros ts'. induction ts' as [|t ts' IHt]; intros off Hch; [done|]. cbn [length seq map]. f_equal.
          - rewrite embed_ref. f_equal. specialize (Hch 0 t eq_refl). by rewrite Nat.add_0_r in Hch.
          - apply IHt. intros i t' Ht'. rewrite <- (Hch (S i) t' Ht'). do 2 f_equal. lia. }
        by apply (Hgen ts 0).
      + f_equal. destruct (here_spec J Hnd) as [Hh1 Hh2]. destruct w as [w|].
        * rewrite (Hh1 w); [done|]. apply HJ. split; [constructor|]. apply lk_branch_end.
        * rewrite Hh2; [done|]. intros v Hin. apply HJ in Hin as [_ Hl]. cbn [app] in Hl.
          by rewrite lk_branch_end in Hl.
  Qed.
End hash.
