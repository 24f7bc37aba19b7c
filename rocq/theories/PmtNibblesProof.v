(** Lemmas about the nibble codec (pmt/src/nibbles.rs). *)
From Verif Require Import Base PmtNibblesModel.

Lemma hi_lt b : hi b < 16.
Proof. destruct b; vm_compute; lia. Qed.
Lemma lo_lt b : lo b < 16.
Proof. destruct b; vm_compute; lia. Qed.
Lemma u8_hi_lo b : u8 (hi b * 16 + lo b) = Ok b.
Proof. destruct b; vm_compute; reflexivity. Qed.
Lemma hi_lo_inj b c : hi b = hi c -> lo b = lo c -> b = c.
Proof.
  intros H1 H2. pose proof (u8_hi_lo b) as Hb. rewrite H1, H2, u8_hi_lo in Hb. congruence.
Qed.

Lemma u8_pair a b : a < 16 -> b < 16 -> exists x, u8 (a * 16 + b) = Ok x /\ hi x = a /\ lo x = b.
Proof.
  intros Ha Hb.
  assert (H : forallb (fun a => forallb (fun b =>
      match u8 (a * 16 + b) with Ok x => (hi x =? a) && (lo x =? b) | _ => false end)
      (seq 0 16)) (seq 0 16) = true) by (vm_compute; reflexivity).
  rewrite forallb_forall in H. specialize (H a). rewrite forallb_forall in H.
  assert (Ha' : In a (seq 0 16)) by (apply in_seq; lia).
  assert (Hb' : In b (seq 0 16)) by (apply in_seq; lia).
  specialize (H Ha' b Hb').
  destruct (u8 (a * 16 + b)) as [x| | |]; try discriminate.
  exists x. apply andb_prop in H as [H1 H2].
  apply Nat.eqb_eq in H1, H2. auto.
Qed.

(** All symbols are real nibbles. *)
Definition nibs (h : hex) : Prop := Forall (fun x => x < 16) h.

Lemma unpack_nibs raw : nibs (unpack raw).
Proof.
  unfold nibs. induction raw; simpl; [constructor|].
  constructor; [apply hi_lt|]. constructor; [apply lo_lt|done].
Qed.
Lemma unpack_length raw : length (unpack raw) = 2 * length raw.
Proof. induction raw; simpl; lia. Qed.
Lemma unpack_app a b : unpack (a ++ b) = unpack a ++ unpack b.
Proof. induction a; simpl; congruence. Qed.
Lemma unpack_inj a b : unpack a = unpack b -> a = b.
Proof.
  revert b. induction a as [|x a IH]; intros [|y b]; simpl; try discriminate; auto.
  intros [= H1 H2 H3]. f_equal; auto using hi_lo_inj.
Qed.

Lemma pack_unpack raw : pack (unpack raw) = Ok raw.
Proof.
  induction raw as [|b raw IH]; simpl; auto.
  rewrite u8_hi_lo. simpl. rewrite IH. reflexivity.
Qed.

Lemma even_ind {A} (P : list A -> Prop) :
  P [] -> (forall a b l, P l -> P (a :: b :: l)) ->
  forall l, Nat.even (length l) = true -> P l.
Proof.
  intros H0 H2 l.
  assert (Hn : forall n l, length l <= n -> Nat.even (length l) = true -> P l).
  { induction n as [|n IH]; intros [|a [|b l']] Hl He; simpl in *; try lia; try discriminate; auto.
    apply H2. apply IH; auto; lia. }
  eauto.
Qed.

Lemma pack_even h : nibs h -> Nat.even (length h) = true ->
  exists r, pack h = Ok r /\ unpack r = h.
Proof.
  intros Hn He. revert Hn.
  apply (even_ind (fun h => nibs h -> exists r, pack h = Ok r /\ unpack r = h)); auto.
  - intros _. exists []. auto.
  - intros a b l IH Hn. inversion Hn as [|? ? Ha Hn']; subst. inversion Hn' as [|? ? Hb Hl]; subst.
    destruct (u8_pair a b Ha Hb) as (x & Hx & Hhi & Hlo).
    destruct (IH Hl) as (r & Hr & Hu).
    exists (x :: r). cbn [pack]. rewrite Hx. cbn [rbind]. rewrite Hr. cbn [rbind unpack].
    rewrite Hhi, Hlo, Hu. auto.
Qed.

(** A path that may end in the terminator and has no other. *)
Definition valid_path (h : hex) : Prop :=
  exists b, nibs b /\ (h = b ++ [16] \/ (h = b /\ b <> [])).

Lemma is_leaf_app b x : is_leaf (b ++ [x]) = Ok (x =? 16).
Proof. unfold is_leaf. rewrite last_snoc. reflexivity. Qed.

Lemma is_leaf_nibs b : nibs b -> b <> [] -> is_leaf b = Ok false.
Proof.
  intros Hn Hb. destruct b as [|x b' _] using rev_ind; [done|].
  rewrite is_leaf_app. apply Forall_app in Hn as [_ Hx]. inversion Hx; subst.
  f_equal. apply Nat.eqb_neq. lia.
Qed.

Lemma u8_flag a f : a < 16 -> f = 0 \/ f = 32 ->
  exists x, u8 (16 + a + f) = Ok x /\ hi x = (if f =? 0 then 1 else 3) /\ lo x = a.
Proof.
  intros Ha [-> | ->].
  - destruct (u8_pair 1 a) as (x & ? & ? & ?); try lia. exists x.
    replace (16 + a + 0) with (1 * 16 + a) by lia. auto.
  - destruct (u8_pair 3 a) as (x & ? & ? & ?); try lia. exists x.
    replace (16 + a + 32) with (3 * 16 + a) by lia. auto.
Qed.

Lemma compact_roundtrip h : valid_path h ->
  exists c, encode_compact h = Ok c /\ from_compact c = Ok h /\ length c <= length h + 1 /\ c <> [].
Proof.
  intros (b & Hn & Hb).
  assert (Hlen : forall r (l : hex), unpack r = l -> length r <= length l).
  { intros r l <-. rewrite unpack_length. lia. }
  destruct Hb as [-> | [-> Hne]].
  - unfold encode_compact. rewrite is_leaf_app. cbn [rbind Nat.eqb].
    rewrite app_length. replace (length b + length [16] - 1) with (length b) by (cbn; lia).
    rewrite take_app.
    destruct (Nat.odd (length b)) eqn:Ho.
    + destruct b as [|x b]; [discriminate|].
      inversion Hn as [|? ? Hx Hn']; subst.
      destruct (u8_flag x 32 Hx) as (v & Hv & Hvh & Hvl); [auto|].
      replace (u8 (16 + x + 32)) with (u8 (16 + x + 32)) by reflexivity.
      rewrite Hv. cbn [rbind].
      destruct (pack_even b Hn') as (r & Hr & Hu).
      { cbn [length] in Ho. rewrite Nat.odd_succ in Ho. exact Ho. }
      rewrite Hr. cbn [rbind]. eexists. split; [reflexivity|].
      cbn [from_compact]. rewrite Hvh, Hvl. cbn. rewrite Hu. repeat split; try done.
      specialize (Hlen r b Hu). lia.
    + rewrite <- Nat.negb_even in Ho. apply negb_false_iff in Ho.
      destruct (pack_even b Hn Ho) as (r & Hr & Hu).
      replace (u8 32) with (@Ok terr byte Byte.x20) by reflexivity. cbn [rbind].
      rewrite Hr. cbn [rbind]. eexists. split; [reflexivity|].
      cbn [from_compact]. change (hi Byte.x20) with 2. cbn. rewrite Hu. repeat split; try done.
      specialize (Hlen r b Hu). lia.
  - unfold encode_compact. rewrite (is_leaf_nibs b Hn Hne). cbn [rbind].
    destruct (Nat.odd (length b)) eqn:Ho.
    + destruct b as [|x b]; [discriminate|].
      inversion Hn as [|? ? Hx Hn']; subst.
      destruct (u8_flag x 0 Hx) as (v & Hv & Hvh & Hvl); [auto|].
      rewrite Hv. cbn [rbind].
      destruct (pack_even b Hn') as (r & Hr & Hu).
      { cbn [length] in Ho. rewrite Nat.odd_succ in Ho. exact Ho. }
      rewrite Hr. cbn [rbind]. eexists. split; [reflexivity|].
      cbn [from_compact]. rewrite Hvh, Hvl. cbn. rewrite Hu. repeat split; try done.
      specialize (Hlen r b Hu). lia.
    + rewrite <- Nat.negb_even in Ho. apply negb_false_iff in Ho.
      destruct (pack_even b Hn Ho) as (r & Hr & Hu).
      replace (u8 0) with (@Ok terr byte Byte.x00) by reflexivity. cbn [rbind].
      rewrite Hr. cbn [rbind]. eexists. split; [reflexivity|].
      cbn [from_compact]. change (hi Byte.x00) with 0. cbn. rewrite Hu. repeat split; try done.
      specialize (Hlen r b Hu). lia.
Qed.

Lemma from_raw_encode_raw raw leaf :
  raw <> [] \/ leaf = true -> encode_raw_nibbles (from_raw raw leaf) = Ok (raw, leaf).
Proof.
  intros H. unfold encode_raw_nibbles, from_raw.
  destruct leaf.
  - rewrite is_leaf_app. cbn [rbind Nat.eqb].
    rewrite app_length. replace (length (unpack raw) + length [16] - 1) with (length (unpack raw)) by (cbn; lia).
    rewrite take_app, pack_unpack. reflexivity.
  - rewrite app_nil_r. rewrite is_leaf_nibs; [|apply unpack_nibs|].
    + cbn [rbind]. rewrite pack_unpack. reflexivity.
    + destruct H; [|discriminate]. destruct raw; [done|]. discriminate.
Qed.

(** Two terminated paths, one a prefix of the other, are equal. *)
Lemma terminated_prefix_free a b c : nibs a -> nibs b -> a ++ [16] ++ c = b ++ [16] -> a = b /\ c = [].
Proof.
  revert b. induction a as [|x a IH]; intros [|y b] Ha Hb; cbn.
  - intros [= ->]. auto.
  - intros [= <- ?]. inversion Hb; subst. lia.
  - intros [= -> ?]. destruct a; discriminate.
  - intros [= -> H]. inversion Ha; inversion Hb; subst.
    destruct (IH b) as [-> ->]; auto.
Qed.

Lemma from_raw_prefix_free a b c :
  from_raw a true ++ c = from_raw b true -> a = b /\ c = [].
Proof.
  unfold from_raw. rewrite <- app_assoc. intros H.
  apply terminated_prefix_free in H as [H ->]; try apply unpack_nibs.
  auto using unpack_inj.
Qed.

Lemma common_prefix_le_l a b : common_prefix a b <= length a.
Proof. revert b; induction a as [|x a IH]; intros [|y b]; cbn; try lia. destruct (x =? y); [specialize (IH b)|]; lia. Qed.
Lemma common_prefix_le_r a b : common_prefix a b <= length b.
Proof. revert b; induction a as [|x a IH]; intros [|y b]; cbn; try lia. destruct (x =? y); [specialize (IH b)|]; lia. Qed.

Lemma common_prefix_take a b : take (common_prefix a b) a = take (common_prefix a b) b.
Proof.
  revert b; induction a as [|x a IH]; intros [|y b]; cbn; auto.
  destruct (Nat.eqb_spec x y); cbn; subst; f_equal; auto.
Qed.

Lemma common_prefix_spec a b :
  exists p a' b', a = p ++ a' /\ b = p ++ b' /\ common_prefix a b = length p /\
    match a', b' with x :: _, y :: _ => x <> y | _, _ => True end.
Proof.
  revert b; induction a as [|x a IH]; intros [|y b]; cbn.
  - exists [], [], []. auto.
  - exists [], [], (y :: b). auto.
  - exists [], (x :: a), []. auto.
  - destruct (Nat.eqb_spec x y) as [->|Hne].
    + destruct (IH b) as (p & a' & b' & -> & -> & -> & H). exists (y :: p), a', b'. auto.
    + exists [], (x :: a), (y :: b). auto.
Qed.

Lemma slice_ok h s e : s <= e -> e <= length h -> slice h s e = Ok (take (e - s) (drop s h)).
Proof. intros. unfold slice. destruct (Nat.leb_spec s e), (Nat.leb_spec e (length h)); try lia. reflexivity. Qed.
Lemma offset_ok h i : i <= length h -> offset h i = Ok (drop i h).
Proof.
  intros. unfold offset. rewrite slice_ok by lia. f_equal. apply take_ge.
  rewrite drop_length. lia.
Qed.
Lemma offset_app a b : offset (a ++ b) (length a) = Ok b.
Proof. rewrite offset_ok by (rewrite app_length; lia). by rewrite drop_app. Qed.
