(** Lemmas about the RLP model: every encoded item is read back. *)
From Verif Require Import Base PmtNibblesModel RlpModel.
Open Scope res_scope.
Ltac Zify.zify_post_hook ::= Z.div_mod_to_equations.

Lemma byte_of_to_N n : (n < 256)%N -> Byte.to_N (byte_of n) = n.
Proof.
  intros H. unfold byte_of. rewrite N.mod_small by done.
  destruct (Byte.of_N n) eqn:E.
  - by apply Byte.to_of_N in E.
  - apply Byte.of_N_None_iff in E. lia.
Qed.
Lemma byte_of_mod n : Byte.to_N (byte_of n) = (n mod 256)%N.
Proof.
  assert (H : (n mod 256 < 256)%N) by (apply N.mod_lt; done).
  rewrite <- (byte_of_to_N (n mod 256) H). unfold byte_of.
  rewrite N.mod_mod by done. reflexivity.
Qed.
Lemma bval_N b : bval b = N.to_nat (Byte.to_N b).
Proof. unfold bval. destruct b; reflexivity. Qed.
Lemma bval_byte_of n : (n < 256)%N -> bval (byte_of n) = N.to_nat n.
Proof. intros. rewrite bval_N, byte_of_to_N; done. Qed.
Lemma bval_lt b : bval b < 256.
Proof. destruct b; vm_compute; lia. Qed.

Lemma be_value_snoc l b : be_value (l ++ [b]) = (be_value l * 256 + Byte.to_N b)%N.
Proof. unfold be_value. rewrite fold_left_app. reflexivity. Qed.

Lemma be_bytes_value k n : (n < 256 ^ N.of_nat k)%N -> be_value (be_bytes k n) = n.
Proof.
  revert n. induction k as [|k IH]; intros n Hn.
  - cbn in *. lia.
  - cbn [be_bytes]. destruct (N.eqb_spec n 0) as [->|Hz]; [reflexivity|].
    rewrite be_value_snoc, IH, byte_of_mod.
    + pose proof (N.div_mod n 256). lia.
    + rewrite Nat2N.inj_succ, N.pow_succ_r' in Hn.
      apply N.div_lt_upper_bound; lia.
Qed.
Lemma be_bytes_length k n : length (be_bytes k n) <= k.
Proof.
  revert n. induction k as [|k IH]; intros n; cbn [be_bytes]; [cbn; lia|].
  destruct (n =? 0)%N; [cbn; lia|]. rewrite app_length. specialize (IH (n / 256)%N). cbn [length]. lia.
Qed.
Lemma be_bytes_head k n : (n < 256 ^ N.of_nat k)%N -> n <> 0%N ->
  exists b l, be_bytes k n = b :: l /\ bval b <> 0.
Proof.
  revert n. induction k as [|k IH]; intros n Hn Hz.
  - cbn in Hn. lia.
  - cbn [be_bytes]. destruct (N.eqb_spec n 0) as [->|_]; [done|].
    destruct (N.eq_dec (n / 256) 0) as [E|E].
    + rewrite E. destruct k; cbn [be_bytes N.eqb app].
      * exists (byte_of n), []. split; [done|].
        assert (n < 256)%N by (apply N.div_small_iff in E; lia).
        rewrite bval_byte_of by lia. lia.
      * exists (byte_of n), []. split; [done|].
        assert (n < 256)%N by (apply N.div_small_iff in E; lia).
        rewrite bval_byte_of by lia. lia.
    + destruct (IH (n / 256)%N) as (b & l & -> & Hb); auto.
      * rewrite Nat2N.inj_succ, N.pow_succ_r' in Hn.
        apply N.div_lt_upper_bound; lia.
      * exists b, (l ++ [byte_of n]). auto.
Qed.

(** [x] is one complete RLP item with the given payload: reading it from the
    front of any buffer finds it, whatever follows. *)
Definition item (x payload : bytes) : Prop :=
  exists h, length x = h + length payload /\ drop h x = payload /\
    forall rest, payload_info (x ++ rest) = Ok (h, length payload).

Definition small (n : nat) : Prop := (N.of_nat n < 2 ^ 64)%N.

Lemma long_header_info base (n : nat) tag payload rest :
  small n -> 55 < n -> length payload = n ->
  tag = byte_of base ->
  long_info (tag :: be_bytes 8 (N.of_nat n) ++ payload ++ rest)
    (length (be_bytes 8 (N.of_nat n))) =
  Ok (1 + length (be_bytes 8 (N.of_nat n)), n).
Proof.
  intros Hs Hn Hp _. unfold small in Hs.
  assert (Hlt : (N.of_nat n < 256 ^ N.of_nat 8)%N) by exact Hs.
  destruct (be_bytes_head 8 (N.of_nat n) Hlt) as (b & l' & Hl & Hb); [lia|].
  pose proof (be_bytes_value 8 _ Hlt) as Hv.
  generalize dependent (be_bytes 8 (N.of_nat n)). intros l -> Hv.
  unfold long_info. cbn [lookup list_lookup app].
  destruct (Nat.eqb_spec (bval b) 0) as [|_]; [done|].
  cbn [length]. rewrite !app_length.
  match goal with |- context [?a <? ?b] => destruct (Nat.ltb_spec a b) end; [lia|].
  cbn [skipn]. rewrite app_comm_cons.
  change (S (length l')) with (length (b :: l')). rewrite take_app, Hv.
  destruct (N.leb_spec (N.of_nat n) 55) as [|_]; [lia|].
  match goal with |- context [(?a <? ?b)%N] => destruct (N.ltb_spec a b) end; [lia|].
  rewrite Nat2N.id. reflexivity.
Qed.

Lemma header_item_long base n payload :
  small n -> 55 < n -> length payload = n -> base = 128%N \/ base = 192%N ->
  item (rlp_header base n ++ payload) payload.
Proof.
  intros Hs Hn Hp Hbase. unfold rlp_header.
  destruct (Nat.leb_spec n 55) as [|_]; [lia|].
  set (l := be_bytes 8 (N.of_nat n)).
  assert (Hlen : length l <= 8) by apply be_bytes_length.
  assert (Hlen1 : 1 <= length l).
  { destruct (be_bytes_head 8 (N.of_nat n)) as (b & l' & Hl & _); [exact Hs|lia|].
    unfold l. rewrite Hl. cbn. lia. }
  exists (1 + length l). split_and!.
  - cbn. rewrite app_length. lia.
  - cbn. by rewrite drop_app.
  - intros rest.
    change ((byte_of (base + 55 + N.of_nat (length l)) :: l) ++ payload)
      with (byte_of (base + 55 + N.of_nat (length l)) :: (l ++ payload)).
    cbn [app payload_info]. rewrite <- app_assoc.
    pose proof (long_header_info (base + 55 + N.of_nat (length l)) n _ payload rest Hs Hn Hp eq_refl) as Hi.
    fold l in Hi.
    assert (Hb : bval (byte_of (base + 55 + N.of_nat (length l))) = N.to_nat base + 55 + length l).
    { rewrite bval_byte_of; lia. }
    rewrite Hb. destruct Hbase as [-> | ->].
    + destruct (Nat.ltb_spec (N.to_nat 128 + 55 + length l) 128) as [|_]; [lia|].
      destruct (Nat.leb_spec (N.to_nat 128 + 55 + length l) 183) as [|_]; [lia|].
      destruct (Nat.leb_spec (N.to_nat 128 + 55 + length l) 191) as [_|]; [|lia].
      replace (N.to_nat 128 + 55 + length l - 183) with (length l) by lia.
      rewrite Hi. cbn [rbind length]. rewrite !app_length.
      match goal with |- context [?a <=? ?b] => destruct (Nat.leb_spec a b) end; [|lia].
      rewrite Hp. reflexivity.
    + destruct (Nat.ltb_spec (N.to_nat 192 + 55 + length l) 128) as [|_]; [lia|].
      destruct (Nat.leb_spec (N.to_nat 192 + 55 + length l) 183) as [|_]; [lia|].
      destruct (Nat.leb_spec (N.to_nat 192 + 55 + length l) 191) as [|_]; [lia|].
      destruct (Nat.leb_spec (N.to_nat 192 + 55 + length l) 247) as [|_]; [lia|].
      replace (N.to_nat 192 + 55 + length l - 247) with (length l) by lia.
      rewrite Hi. cbn [rbind length]. rewrite !app_length.
      match goal with |- context [?a <=? ?b] => destruct (Nat.leb_spec a b) end; [|lia].
      rewrite Hp. reflexivity.
Qed.

Lemma header_item_short base n payload :
  n <= 55 -> length payload = n -> base = 128%N \/ base = 192%N ->
  item (rlp_header base n ++ payload) payload.
Proof.
  intros Hn Hp Hbase. unfold rlp_header.
  destruct (Nat.leb_spec n 55) as [_|]; [|lia].
  exists 1. split_and!; [done|done|].
  intros rest. cbn [app payload_info].
  assert (Hb : bval (byte_of (base + N.of_nat n)) = N.to_nat base + n).
  { rewrite bval_byte_of; lia. }
  rewrite Hb. destruct Hbase as [-> | ->].
  - destruct (Nat.ltb_spec (N.to_nat 128 + n) 128) as [|_]; [lia|].
    destruct (Nat.leb_spec (N.to_nat 128 + n) 183) as [_|]; [|lia].
    cbn [rbind length]. rewrite app_length.
    match goal with |- context [?a <=? ?b] => destruct (Nat.leb_spec a b) end; [|lia].
    repeat f_equal; lia.
  - destruct (Nat.ltb_spec (N.to_nat 192 + n) 128) as [|_]; [lia|].
    destruct (Nat.leb_spec (N.to_nat 192 + n) 183) as [|_]; [lia|].
    destruct (Nat.leb_spec (N.to_nat 192 + n) 191) as [|_]; [lia|].
    destruct (Nat.leb_spec (N.to_nat 192 + n) 247) as [_|]; [|lia].
    cbn [rbind length]. rewrite app_length.
    match goal with |- context [?a <=? ?b] => destruct (Nat.leb_spec a b) end; [|lia].
    repeat f_equal; lia.
Qed.

Lemma header_item base payload :
  small (length payload) -> base = 128%N \/ base = 192%N ->
  item (rlp_header base (length payload) ++ payload) payload.
Proof.
  intros Hs Hb. destruct (Nat.le_gt_cases (length payload) 55).
  - by apply header_item_short.
  - by apply header_item_long.
Qed.

Lemma rlp_str_item s : small (length s) -> item (rlp_str s) s.
Proof.
  intros Hs. destruct s as [|b [|c s]]; cbn [rlp_str].
  - apply header_item; auto.
  - destruct (Nat.ltb_spec (bval b) 128) as [Hb|].
    + exists 0. split_and!; [done|done|]. intros rest. cbn [app payload_info].
      destruct (Nat.ltb_spec (bval b) 128); [|lia]. cbn [rbind length].
      match goal with |- context [?a <=? ?b] => destruct (Nat.leb_spec a b) end; [done|lia].
    + apply (header_item 128 [b]); auto.
  - apply header_item; auto.
Qed.

Lemma rlp_list_item items :
  small (length (concat items)) -> item (rlp_list items) (concat items).
Proof. intros. apply header_item; auto. Qed.

Lemma rlp_header_head base n : (base = 128 \/ base = 192)%N ->
  small n ->
  exists b l, rlp_header base n = b :: l /\ N.to_nat base <= bval b < N.to_nat base + 64 /\
    (bval b = N.to_nat base -> n = 0).
Proof.
  intros Hb Hs. unfold rlp_header. destruct (Nat.leb_spec n 55).
  - eexists _, _. split; [reflexivity|]. rewrite bval_byte_of; lia.
  - pose proof (be_bytes_length 8 (N.of_nat n)).
    destruct (be_bytes_head 8 (N.of_nat n)) as (b & l' & Hl & _); [exact Hs|lia|].
    eexists _, _. split; [reflexivity|]. rewrite bval_byte_of; [|lia].
    rewrite Hl in *. cbn [length] in *. lia.
Qed.

Lemma item_pos x p : item x p -> (x <> []).
Proof.
  intros (h & Hl & _ & Hi) ->. specialize (Hi []). discriminate.
Qed.

Lemma item_data x p rest : item x p -> rlp_data (x ++ rest) = Ok p.
Proof.
  intros (h & Hl & Hd & Hi). unfold rlp_data. rewrite Hi. cbn [rbind].
  rewrite skipn_app, Hd. replace (h - length x) with 0 by lia. by rewrite take_app.
Qed.
Lemma item_data' x p : item x p -> rlp_data x = Ok p.
Proof. intros. rewrite <- (app_nil_r x). by apply item_data. Qed.

Lemma nth_item_concat items i x :
  Forall (fun y => exists p, item y p) items -> items !! i = Some x ->
  nth_item (concat items) i = Ok x.
Proof.
  revert i. induction items as [|y items IH]; intros i Hf Hi; [done|].
  inversion Hf as [|? ? [p Hp] Hf']; subst.
  destruct Hp as (h & Hl & Hd & Hpi).
  destruct i as [|i]; cbn in Hi.
  - injection Hi as ->. cbn [concat nth_item]. rewrite Hpi. cbn [rbind].
    rewrite <- Hl, take_app. reflexivity.
  - cbn [concat nth_item]. rewrite Hpi. cbn [rbind]. rewrite <- Hl, drop_app. auto.
Qed.

Lemma count_items_concat items fuel :
  Forall (fun y => exists p, item y p) items -> length (concat items) < fuel ->
  count_items fuel (concat items) = length items.
Proof.
  revert fuel. induction items as [|y items IH]; intros fuel Hf Hl; destruct fuel as [|fuel]; try (cbn in Hl; lia).
  - reflexivity.
  - inversion Hf as [|? ? [p Hp] Hf']; subst. pose proof (item_pos _ _ Hp) as Hy.
    destruct Hp as (h & Hll & Hd & Hpi).
    cbn [concat count_items]. rewrite Hpi, <- Hll, drop_app. cbn [length]. f_equal.
    apply IH; auto. cbn [concat] in Hl. rewrite app_length in Hl.
    destruct y; [done|]. cbn in Hl. lia.
Qed.

Lemma payload_of_item x p h v : item x p -> payload_info x = Ok (h, v) -> take v (drop h x) = p.
Proof.
  intros (h' & Hl & Hd & Hi) H. specialize (Hi []). rewrite app_nil_r in Hi.
  rewrite Hi in H. injection H as <- <-. rewrite Hd. by apply take_ge.
Qed.

Section lists.
  Context (items : list bytes).
  Hypothesis Hitems : Forall (fun y => exists p, item y p) items.
  Hypothesis Hsmall : small (length (concat items)).

  Lemma rlp_list_is_list : rlp_is_list (rlp_list items) = true /\ rlp_is_data (rlp_list items) = false.
  Proof.
    unfold rlp_list.
    destruct (rlp_header_head 192 (length (concat items))) as (b & l & -> & Hb & _); auto.
    cbn [app rlp_is_list rlp_is_data]. split; [apply Nat.leb_le|apply Nat.ltb_ge]; lia.
  Qed.

  Lemma rlp_list_at i x : items !! i = Some x -> rlp_at (rlp_list items) i = Ok x.
  Proof.
    intros Hx. unfold rlp_at. destruct rlp_list_is_list as [-> _].
    pose proof (rlp_list_item items Hsmall) as Hit.
    destruct Hit as (h & Hl & Hd & Hi). specialize (Hi []). rewrite app_nil_r in Hi.
    rewrite Hi. cbn [rbind]. rewrite Hd. rewrite take_ge by lia. by apply nth_item_concat.
  Qed.

  Lemma rlp_list_count : rlp_item_count (rlp_list items) = length items.
  Proof.
    pose proof (rlp_list_item items Hsmall) as Hit.
    destruct Hit as (h & Hl & Hd & Hi). specialize (Hi []). rewrite app_nil_r in Hi.
    unfold rlp_item_count. rewrite Hi, Hd, take_ge by lia.
    apply count_items_concat; auto.
    enough (0 < h) by lia.
    destruct (Nat.eq_dec h 0) as [->|]; [|lia].
    unfold rlp_list in Hl. rewrite app_length in Hl.
    destruct (rlp_header_head 192 (length (concat items))) as (b & l & E & _); auto.
    rewrite E in Hl. cbn in Hl. lia.
  Qed.

  Lemma rlp_list_prototype : rlp_prototype (rlp_list items) = PList (length items).
  Proof.
    unfold rlp_prototype. destruct rlp_list_is_list as [-> ->]. by rewrite rlp_list_count.
  Qed.
End lists.

Lemma rlp_str_head s : small (length s) ->
  exists b l, rlp_str s = b :: l /\ bval b < 192 /\ (bval b = 128 -> s = []).
Proof.
  intros Hs. destruct s as [|b [|c s]]; cbn [rlp_str].
  - exists Byte.x80, []. repeat split; [vm_compute; lia].
  - destruct (Nat.ltb_spec (bval b) 128).
    + exists b, []. repeat split; lia.
    + exists Byte.x81, [b]. repeat split; vm_compute; [lia|discriminate].
  - destruct (rlp_header_head 128 (length (b :: c :: s))) as (x & l & -> & Hx & Hz); auto.
    exists x, (l ++ b :: c :: s). repeat split; [lia|]. intros E. specialize (Hz E). discriminate.
Qed.

Lemma rlp_str_is_data s : small (length s) -> rlp_is_data (rlp_str s) = true.
Proof.
  intros Hs. destruct (rlp_str_head s Hs) as (b & l & -> & Hb & _). cbn [rlp_is_data]. apply Nat.ltb_lt. lia.
Qed.

Lemma rlp_str_size s : small (length s) -> rlp_size (rlp_str s) = length s.
Proof.
  intros Hs. unfold rlp_size. rewrite rlp_str_is_data by done.
  destruct (rlp_str_item s Hs) as (h & _ & _ & Hi). specialize (Hi []). rewrite app_nil_r in Hi.
  by rewrite Hi.
Qed.

Lemma rlp_str_prototype s : small (length s) -> rlp_prototype (rlp_str s) = PData (length s).
Proof.
  intros Hs. unfold rlp_prototype. rewrite rlp_str_is_data, rlp_str_size by done. reflexivity.
Qed.

Lemma rlp_str_not_empty s : small (length s) -> s <> [] -> rlp_is_empty (rlp_str s) = false.
Proof.
  intros Hs Hne. destruct (rlp_str_head s Hs) as (b & l & -> & Hb & Hz). cbn [rlp_is_empty].
  apply orb_false_iff. split; apply Nat.eqb_neq; [lia|]. intros E. auto.
Qed.

Lemma rlp_header_length base n : length (rlp_header base n) <= 9.
Proof.
  unfold rlp_header. destruct (n <=? 55); cbn [length]; [lia|]. pose proof (be_bytes_length 8 (N.of_nat n)). lia.
Qed.
Lemma rlp_str_length s : length (rlp_str s) <= length s + 9.
Proof.
  assert (H : length (rlp_header 128 (length s) ++ s) <= length s + 9).
  { rewrite app_length. pose proof (rlp_header_length 128 (length s)). lia. }
  destruct s as [|b [|c s]]; unfold rlp_str; try done.
  destruct (bval b <? 128); [cbn; lia|done].
Qed.
