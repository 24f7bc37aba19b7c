(** Lemmas on the byte form: writers and readers are inverse to each other. *)
From Verif Require Import Base JmtNibModel JmtModel JmtChildrenModel JmtBorshModel JmtBorshSpec.
Local Open Scope N_scope.

(** [e] and [d] are inverse between the values in [P] and the bytes [d] accepts. *)
Definition codec {A} (P : A -> Prop) (e : A -> bytes) (d : dec A) : Prop :=
  (forall x rest, P x -> d (e x ++ rest) = Some (x, rest)) /\
  (forall bs x rest, d bs = Some (x, rest) -> P x /\ bs = e x ++ rest).

Lemma dbind_ok {A B} P (e : A -> bytes) d (f : A -> dec B) x rest : codec P e d -> P x -> dbind d f (e x ++ rest) = f x rest.
Proof. intros [H _] Hx. unfold dbind. by rewrite H. Qed.
Lemma dbind_inv {A B} P (e : A -> bytes) (d : dec A) (f : A -> dec B) bs y rest : codec P e d -> dbind d f bs = Some (y, rest) ->
  exists a r, P a /\ bs = e a ++ r /\ f a r = Some (y, rest).
Proof.
  intros [_ H] E. unfold dbind in E. destruct (d bs) as [[a r]|] eqn:Ed; [|done]. apply H in Ed as [Ha ->]. by exists a, r.
Qed.

Lemma to_N_lt b : Byte.to_N b < 256.
Proof. by destruct b. Qed.
Lemma byte_of_to_N b : byte_of (Byte.to_N b) = b.
Proof. unfold byte_of. by rewrite Byte.of_to_N. Qed.
Lemma to_N_byte_of x : x < 256 -> Byte.to_N (byte_of x) = x.
Proof.
  intros H. unfold byte_of. destruct (Byte.of_N x) as [b|] eqn:E; [by apply Byte.to_of_N_iff in E|].
  apply Byte.of_N_None_iff in E. lia.
Qed.
Lemma codec_le n : codec (fun x => x < 256 ^ N.of_nat n) (enc_le n) (dec_le n).
Proof.
  induction n as [|n IH]; split.
  - intros x rest Hx. cbn in *. unfold dret. do 2 f_equal. lia.
  - intros bs x rest. cbn [dec_le]. unfold dret. intros [= <- <-]. split; [cbn; lia|done].
  - intros x rest Hx. cbn [enc_le dec_le app].
    assert (256 ^ N.of_nat (S n) = 256 * 256 ^ N.of_nat n) as E
      by (replace (N.of_nat (S n)) with (N.succ (N.of_nat n)) by lia; apply N.pow_succ_r; lia).
    rewrite (dbind_ok _ _ _ _ _ _ IH) by (apply N.div_lt_upper_bound; lia).
    unfold dret. do 2 f_equal. rewrite to_N_byte_of by (apply N.mod_lt; lia).
    pose proof (N.div_mod x 256 ltac:(lia)). lia.
  - intros bs x rest H. cbn [dec_le] in H. destruct bs as [|b bs]; [done|].
    destruct (dbind_inv _ _ _ _ _ _ _ IH H) as (a & r & Ha & -> & H2). assert (x = Byte.to_N b + 256 * a /\ rest = r) as [-> ->] by (unfold dret in H2; injection H2; intros; split; congruence).
    pose proof (to_N_lt b) as Hb.
    assert (256 ^ N.of_nat (S n) = 256 * 256 ^ N.of_nat n) as E
      by (replace (N.of_nat (S n)) with (N.succ (N.of_nat n)) by lia; apply N.pow_succ_r; lia).
    split; [nia|]. cbn [enc_le app].
    replace (Byte.to_N b + 256 * a) with (a * 256 + Byte.to_N b) by lia.
    assert ((a * 256 + Byte.to_N b) mod 256 = Byte.to_N b) as -> by (rewrite N.add_comm, N.mod_add by lia; by apply N.mod_small).
    assert ((a * 256 + Byte.to_N b) / 256 = a) as -> by (rewrite N.div_add_l, N.div_small by lia; lia).
    by rewrite byte_of_to_N.
Qed.

Lemma codec_ext {A} (P Q : A -> Prop) e d : (forall x, P x <-> Q x) -> codec P e d -> codec Q e d.
Proof. intros H [H1 H2]. split; [intros x rest Hx; apply H1; by apply H|]. intros bs x rest E. destruct (H2 _ _ _ E). split; [by apply H|done]. Qed.
Lemma codec_u8 : codec (fun x => x < 256) enc_u8 dec_u8.
Proof. exact (codec_le 1). Qed.
Lemma codec_u32 : codec (fun x => x < 2 ^ 32) enc_u32 dec_u32.
Proof. exact (codec_le 4). Qed.
Lemma codec_u64 : codec u64 enc_u64 dec_u64.
Proof. exact (codec_le 8). Qed.
Lemma codec_usize : codec (fun n => u64 (N.of_nat n)) enc_usize dec_usize.
Proof.
  split.
  - intros n rest Hn. unfold dec_usize, enc_usize. rewrite (dbind_ok _ _ _ _ _ _ codec_u64 Hn). unfold dret. by rewrite Nat2N.id.
  - intros bs n rest H. apply (dbind_inv _ _ _ _ _ _ _ codec_u64) in H as (a & r & Ha & -> & [= <- <-]).
    unfold enc_usize. by rewrite N2Nat.id.
Qed.
Lemma tag_ok {B} (f : N -> dec B) x rest : x < 256 -> dbind dec_u8 f (enc_u8 x ++ rest) = f x rest.
Proof. intros H. by apply (dbind_ok _ _ _ _ _ _ codec_u8). Qed.
Lemma tag_inv {B} (f : N -> dec B) bs y rest : dbind dec_u8 f bs = Some (y, rest) ->
  exists x r, bs = enc_u8 x ++ r /\ f x r = Some (y, rest).
Proof. intros H. apply (dbind_inv _ _ _ _ _ _ _ codec_u8) in H as (x & r & _ & H1 & H2). by exists x, r. Qed.
Lemma codec_bool : codec (fun _ => True) enc_bool dec_bool.
Proof.
  split.
  - intros [] rest _; unfold dec_bool, enc_bool; by rewrite tag_ok.
  - intros bs b rest H. unfold dec_bool in H. apply tag_inv in H as (x & r & -> & H).
    destruct x as [|[x|x|]]; try discriminate H; injection H as <- <-; done.
Qed.
Lemma codec_option {A} P (e : A -> bytes) d : codec P e d -> codec (opt P) (enc_option e) (dec_option d).
Proof.
  intros Hc. split.
  - intros [x|] rest Hx; unfold dec_option, enc_option; rewrite <-?app_assoc, tag_ok by done; [|done].
    by rewrite (dbind_ok _ _ _ _ _ _ Hc Hx).
  - intros bs o rest H. unfold dec_option in H. apply tag_inv in H as (x & r & -> & H).
    destruct x as [|[x|x|]]; try discriminate H; [by injection H as <- <-|].
    apply (dbind_inv _ _ _ _ _ _ _ Hc) in H as (a & r' & Ha & -> & [= <- <-]). cbn [enc_option]. by rewrite <-app_assoc.
Qed.
Lemma codec_times {A} P (e : A -> bytes) d n : codec P e d ->
  codec (fun l => length l = n /\ Forall P l) (flat_map e) (dec_times d n).
Proof.
  intros Hc. induction n as [|n IH]; split.
  - intros l rest [Hl _]. by destruct l.
  - intros bs l rest [= <- <-]. done.
  - intros l rest [Hl HF]. destruct l as [|a l]; [done|]. inversion HF; subst. cbn [dec_times flat_map]. rewrite <-app_assoc.
    rewrite (dbind_ok _ _ _ _ _ _ Hc) by done. rewrite (dbind_ok _ _ _ _ _ _ IH); [done|]. split; [|done]. by injection Hl.
  - intros bs l rest H. cbn [dec_times] in H. apply (dbind_inv _ _ _ _ _ _ _ Hc) in H as (a & r & Ha & -> & H).
    apply (dbind_inv _ _ _ _ _ _ _ IH) in H as (l' & r' & [Hl HF] & -> & [= <- <-]). split.
    + split; [cbn [length]; by rewrite Hl|by constructor].
    + cbn [flat_map]. by rewrite <-app_assoc.
Qed.
Lemma codec_vec {A} P (e : A -> bytes) d : codec P e d -> codec (fun l => short l /\ Forall P l) (enc_vec e) (dec_vec d).
Proof.
  intros Hc. split.
  - intros l rest [Hl HF]. unfold dec_vec, enc_vec. rewrite <-app_assoc, (dbind_ok _ _ _ _ _ _ codec_u32 Hl), Nat2N.id.
    by apply (codec_times P e d (length l) Hc).
  - intros bs l rest H. unfold dec_vec in H. apply (dbind_inv _ _ _ _ _ _ _ codec_u32) in H as (n & r & Hn & -> & H).
    apply (codec_times P e d (N.to_nat n) Hc) in H as [[Hl HF] ->]. unfold enc_vec, short. rewrite Hl, N2Nat.id, <-app_assoc. done.
Qed.
Lemma codec_byte : codec (fun _ => True) enc_byte dec_byte.
Proof. split; [done|]. intros [|b bs] x rest; [done|]. by intros [= <- <-]. Qed.
Lemma flat_byte l : flat_map enc_byte l = l.
Proof. induction l as [|b l IH]; [done|]. cbn [flat_map enc_byte app]. by rewrite IH. Qed.
Lemma codec_32 : codec hash32 enc_32 dec_32.
Proof.
  destruct (codec_times _ _ _ 32 codec_byte) as [H1 H2]. split.
  - intros b rest Hb. unfold enc_32, dec_32. rewrite <-(flat_byte b) at 1. apply H1. split; [done|]. by apply Forall_true.
  - intros bs b rest H. apply H2 in H as [[Hl _] ->]. by rewrite flat_byte.
Qed.
Lemma codec_bytes : codec short (enc_vec enc_byte) (dec_vec dec_byte).
Proof.
  eapply codec_ext; [|apply (codec_vec _ _ _ codec_byte)]. intros l. cbn beta. split; [by intros [? _]|]. intros H. split; [done|]. by apply Forall_true.
Qed.

(** Sequencing, for records. *)
Lemma codec_pair {A B} P Q (e : A -> bytes) d (e' : B -> bytes) d' : codec P e d -> codec Q e' d' ->
  codec (fun p => P (fst p) /\ Q (snd p)) (fun p => e (fst p) ++ e' (snd p)) (dbind d (fun a => dbind d' (fun b => dret (a, b)))).
Proof.
  intros H1 H2. split.
  - intros [a b] rest [Ha Hb]. cbn [fst snd] in *. rewrite <-app_assoc, (dbind_ok _ _ _ _ _ _ H1 Ha), (dbind_ok _ _ _ _ _ _ H2 Hb). done.
  - intros bs [a b] rest H. apply (dbind_inv _ _ _ _ _ _ _ H1) in H as (a' & r & Ha & -> & H).
    apply (dbind_inv _ _ _ _ _ _ _ H2) in H as (b' & r' & Hb & -> & [= <- <- <-]). cbn [fst snd]. by rewrite <-app_assoc.
Qed.
Lemma codec_path : codec fits_path enc_path dec_path.
Proof.
  split.
  - intros [n b] rest [Hn Hb]. unfold enc_path, dec_path. cbn [np_num np_bytes] in *.
    by rewrite <-app_assoc, (dbind_ok _ _ _ _ _ _ codec_usize Hn), (dbind_ok _ _ _ _ _ _ codec_bytes Hb).
  - intros bs p rest H. unfold dec_path in H. apply (dbind_inv _ _ _ _ _ _ _ codec_usize) in H as (n & r & Hn & -> & H).
    apply (dbind_inv _ _ _ _ _ _ _ codec_bytes) in H as (b & r' & Hb & -> & [= <- <-]). unfold enc_path. cbn [np_num np_bytes].
    by rewrite <-app_assoc.
Qed.
Lemma codec_key : codec fits_key enc_key dec_key.
Proof. exact (codec_pair _ _ _ _ _ _ codec_u64 codec_path). Qed.
Lemma codec_ntype : codec fits_ntype enc_ntype dec_ntype.
Proof.
  split.
  - intros [| |n] rest Hn; unfold dec_ntype, enc_ntype; rewrite <-?app_assoc, tag_ok by done; [done..|].
    by rewrite (dbind_ok _ _ _ _ _ _ codec_u64 Hn).
  - intros bs t rest H. unfold dec_ntype in H. apply tag_inv in H as (x & r & -> & H).
    destruct x as [|[x|[x|x|]|]]; try discriminate H; [by injection H as <- <-| |by injection H as <- <-].
    apply (dbind_inv _ _ _ _ _ _ _ codec_u64) in H as (n & r' & Hn & -> & [= <- <-]). cbn [enc_ntype]. by rewrite <-app_assoc.
Qed.
Lemma codec_child : codec fits_child enc_child dec_child.
Proof.
  split.
  - intros [h v t] rest (Hh & Hv & Ht). unfold enc_child, dec_child. cbn [c_hash c_ver c_type] in *.
    by rewrite <-!app_assoc, (dbind_ok _ _ _ _ _ _ codec_32 Hh), (dbind_ok _ _ _ _ _ _ codec_u64 Hv), (dbind_ok _ _ _ _ _ _ codec_ntype Ht).
  - intros bs c rest H. unfold dec_child in H. apply (dbind_inv _ _ _ _ _ _ _ codec_32) in H as (h & r & Hh & -> & H).
    apply (dbind_inv _ _ _ _ _ _ _ codec_u64) in H as (v & r1 & Hv & -> & H).
    apply (dbind_inv _ _ _ _ _ _ _ codec_ntype) in H as (t & r2 & Ht & -> & [= <- <-]).
    unfold enc_child, fits_child. cbn [c_hash c_ver c_type]. by rewrite <-!app_assoc.
Qed.
Lemma codec_children : codec fits_children enc_children dec_children.
Proof.
  pose proof (codec_times _ _ _ 16 (codec_option _ _ _ codec_child)) as Hs. split.
  - intros [l n] rest (Hl & HF & Hn). unfold enc_children, dec_children. cbn [ca_slots ca_num] in *.
    by rewrite <-app_assoc, (dbind_ok _ _ _ _ _ _ Hs (conj Hl HF)), (dbind_ok _ _ _ _ _ _ codec_usize Hn).
  - intros bs c rest H. unfold dec_children in H. apply (dbind_inv _ _ _ _ _ _ _ Hs) in H as (l & r & [Hl HF] & -> & H).
    apply (dbind_inv _ _ _ _ _ _ _ codec_usize) in H as (n & r1 & Hn & -> & [= <- <-]).
    unfold enc_children, fits_children. cbn [ca_slots ca_num]. by rewrite <-app_assoc.
Qed.
Lemma codec_inode : codec fits_inode enc_inode dec_inode.
Proof.
  pose proof (codec_option _ _ _ codec_u64) as Ho. split.
  - intros [c n b] rest (Hc & Hn). unfold enc_inode, dec_inode. cbn [bi_children bi_count bi_migration] in *.
    by rewrite <-!app_assoc, (dbind_ok _ _ _ _ _ _ codec_children Hc), (dbind_ok _ _ _ _ _ _ Ho Hn), (dbind_ok _ _ _ _ _ _ codec_bool I).
  - intros bs c rest H. unfold dec_inode in H. apply (dbind_inv _ _ _ _ _ _ _ codec_children) in H as (l & r & Hl & -> & H).
    apply (dbind_inv _ _ _ _ _ _ _ Ho) in H as (n & r1 & Hn & -> & H).
    apply (dbind_inv _ _ _ _ _ _ _ codec_bool) in H as (b & r2 & _ & -> & [= <- <-]).
    unfold enc_inode, fits_inode. cbn [bi_children bi_count bi_migration]. by rewrite <-!app_assoc.
Qed.
Lemma codec_node : codec fits_node enc_node dec_node.
Proof.
  split.
  - intros [|n|k vh] rest Hn; unfold dec_node, enc_node; rewrite <-?app_assoc, tag_ok by done; [done| |].
    + by rewrite (dbind_ok _ _ _ _ _ _ codec_inode Hn).
    + destruct Hn as [Hk Hv]. by rewrite (dbind_ok _ _ _ _ _ _ codec_32 Hk), (dbind_ok _ _ _ _ _ _ codec_32 Hv).
  - intros bs t rest H. unfold dec_node in H. apply tag_inv in H as (x & r & -> & H).
    destruct x as [|[x|[x|x|]|]]; try discriminate H; [by injection H as <- <-| |].
    + apply (dbind_inv _ _ _ _ _ _ _ codec_32) in H as (k & r' & Hk & -> & H).
      apply (dbind_inv _ _ _ _ _ _ _ codec_32) in H as (vh & r1 & Hv & -> & [= <- <-]). cbn [enc_node]. by rewrite <-!app_assoc.
    + apply (dbind_inv _ _ _ _ _ _ _ codec_inode) in H as (n & r' & Hn & -> & [= <- <-]). cbn [enc_node]. by rewrite <-app_assoc.
Qed.
Lemma codec_pair32 : codec (fun l => hash32 (fst l) /\ hash32 (snd l)) enc_pair32 dec_pair32.
Proof. exact (codec_pair _ _ _ _ _ _ codec_32 codec_32). Qed.
Lemma codec_range : codec fits_range enc_range dec_range.
Proof. exact (codec_vec _ _ _ codec_32). Qed.
Lemma codec_proof : codec fits_proof enc_proof dec_proof.
Proof.
  pose proof (codec_option _ _ _ codec_pair32) as Ho. split.
  - intros [l s] rest (Hl & Hs). unfold enc_proof, dec_proof. cbn [p_leaf p_siblings] in *.
    by rewrite <-!app_assoc, (dbind_ok _ _ _ _ _ _ Ho Hl), (dbind_ok _ _ _ _ _ _ codec_range Hs).
  - intros bs c rest H. unfold dec_proof in H. apply (dbind_inv _ _ _ _ _ _ _ Ho) in H as (l & r & Hl & -> & H).
    apply (dbind_inv _ _ _ _ _ _ _ codec_range) in H as (s & r1 & Hs & -> & [= <- <-]).
    unfold enc_proof, fits_proof. cbn [p_leaf p_siblings]. by rewrite <-!app_assoc.
Qed.
Lemma codec_stale : codec fits_stale enc_stale dec_stale.
Proof. exact (codec_pair _ _ _ _ _ _ codec_u64 codec_key). Qed.
Lemma codec_vkey : codec (fun k => u64 (fst k) /\ hash32 (snd k)) enc_vkey dec_vkey.
Proof. exact (codec_pair _ _ _ _ _ _ codec_u64 codec_32). Qed.
Lemma codec_nothing : codec (fun _ => True) enc_nothing dec_nothing.
Proof. split; [by intros []|]. by intros bs [] rest [= ->]. Qed.
Lemma codec_stats : codec fits_stats enc_stats dec_stats.
Proof.
  split.
  - intros [a b c d] rest (Ha & Hb & Hc & Hd). unfold enc_stats, dec_stats. cbn [s_new_nodes s_new_leaves s_stale_nodes s_stale_leaves] in *.
    by rewrite <-!app_assoc, (dbind_ok _ _ _ _ _ _ codec_u64 Ha), (dbind_ok _ _ _ _ _ _ codec_u64 Hb),
      (dbind_ok _ _ _ _ _ _ codec_u64 Hc), (dbind_ok _ _ _ _ _ _ codec_u64 Hd).
  - intros bs s rest H. unfold dec_stats in H. apply (dbind_inv _ _ _ _ _ _ _ codec_u64) in H as (a & r & Ha & -> & H).
    apply (dbind_inv _ _ _ _ _ _ _ codec_u64) in H as (b & r1 & Hb & -> & H).
    apply (dbind_inv _ _ _ _ _ _ _ codec_u64) in H as (c & r2 & Hc & -> & H).
    apply (dbind_inv _ _ _ _ _ _ _ codec_u64) in H as (d & r3 & Hd & -> & [= <- <-]).
    unfold enc_stats, fits_stats. cbn [s_new_nodes s_new_leaves s_stale_nodes s_stale_leaves]. by rewrite <-!app_assoc.
Qed.

(** ** Maps *)
Section Maps.
Context {K V : Type} (cmp : K -> K -> comparison) (lt : K -> K -> Prop).
Hypothesis Hlt : forall a b, cmp a b = Lt <-> lt a b.
Hypothesis Hgt : forall a b, cmp a b = Gt <-> lt b a.
Hypothesis Heq : forall a b, cmp a b = Eq <-> a = b.
Hypothesis Htr : forall a b c, lt a b -> lt b c -> lt a c.

Lemma bt_put_above k (v : V) l : Forall (fun k' => lt k' k) (map fst l) -> bt_put cmp k v l = l ++ [(k, v)].
Proof.
  induction l as [|[k' v'] l IH]; [done|]. cbn [map fst]. intros H. inversion H; subst. cbn [bt_put app].
  rewrite (proj2 (Hgt k k')) by done. by rewrite IH.
Qed.
Lemma bt_from_sorted (l : list (K * V)) : is_map lt l -> bt_from cmp l = l.
Proof.
  unfold bt_from, is_map. assert (forall (l m : list (K * V)), StronglySorted lt (map fst (m ++ l)) ->
    fold_left (fun m kv => bt_put cmp (fst kv) (snd kv) m) l m = m ++ l) as H; [|exact (H l [])].
  clear l. induction l as [|[k v] l IH]; intros m Hs; cbn [fold_left fst snd]; [by rewrite app_nil_r|].
  rewrite bt_put_above.
  - rewrite IH; [by rewrite <-app_assoc|]. by rewrite <-app_assoc.
  - rewrite map_app in Hs. clear IH. induction m as [|[k' v'] m IHm]; [constructor|].
    cbn [map fst app] in Hs. apply StronglySorted_inv in Hs as [Hs Hf]. constructor; [|by apply IHm].
    cbn [fst]. apply Forall_app in Hf as [_ Hf]. by inversion Hf.
Qed.
Lemma bt_put_keys k (v : V) l x : x ∈ map fst (bt_put cmp k v l) -> x = k \/ x ∈ map fst l.
Proof.
  induction l as [|[k' v'] l IH]; cbn [bt_put]; [intros H%elem_of_list_singleton; by left|].
  destruct (cmp k k'); cbn [map fst]; rewrite ?elem_of_cons; [tauto|rewrite ?elem_of_cons; tauto|]. intros [->|H]; [tauto|]. apply IH in H. tauto.
Qed.
Lemma bt_put_sorted k (v : V) l : is_map lt l -> is_map lt (bt_put cmp k v l).
Proof.
  unfold is_map. induction l as [|[k' v'] l IH]; cbn [bt_put map fst]; [intros _; repeat constructor|].
  intros Hs. pose proof Hs as Hs0. apply StronglySorted_inv in Hs as [Hs Hf]. destruct (cmp k k') eqn:E; cbn [map fst]; [done| |].
  - apply Hlt in E. constructor; [done|]. constructor; [done|]. eapply Forall_impl; [exact Hf|]. intros x Hx. by eapply Htr.
  - apply Hgt in E. constructor; [by apply IH|]. apply Forall_forall. intros x Hx. apply bt_put_keys in Hx as [->|Hx]; [done|].
    rewrite Forall_forall in Hf. by apply Hf.
Qed.
Lemma bt_from_is_map (l : list (K * V)) : is_map lt (bt_from cmp l).
Proof.
  unfold bt_from. assert (forall (l m : list (K * V)), is_map lt m -> is_map lt (fold_left (fun m kv => bt_put cmp (fst kv) (snd kv) m) l m)) as H; [|apply H; constructor].
  clear l. induction l as [|kv l IH]; intros m Hm; [done|]. apply IH. by apply bt_put_sorted.
Qed.
Lemma bt_put_Forall (P : K * V -> Prop) k (v : V) l : (forall k v v', P (k, v) -> P (k, v') -> True) ->
  P (k, v) -> Forall P l -> Forall P (bt_put cmp k v l).
Proof.
  intros _ Hk. induction 1 as [|[k' v'] l Hx Hl IH]; cbn [bt_put]; [by repeat constructor|].
  destruct (cmp k k') eqn:E; [|by repeat constructor..]. apply Heq in E as ->. by constructor.
Qed.
Lemma bt_from_Forall (P : K * V -> Prop) l : Forall P l -> Forall P (bt_from cmp l).
Proof.
  unfold bt_from. assert (forall (l m : list (K * V)), Forall P l -> Forall P m -> Forall P (fold_left (fun m kv => bt_put cmp (fst kv) (snd kv) m) l m)) as H;
    [|intros Hl; apply H; [done|constructor]].
  clear l. induction l as [|[k v] l IH]; intros m Hl Hm; [done|]. inversion Hl; subst. apply IH; [done|]. by apply bt_put_Forall.
Qed.
Lemma bt_put_length k (v : V) l : (length (bt_put cmp k v l) <= S (length l))%nat.
Proof. induction l as [|[k' v'] l IH]; cbn [bt_put length]; [lia|]. destruct (cmp k k'); cbn [length]; lia. Qed.
Lemma bt_from_length (l : list (K * V)) : (length (bt_from cmp l) <= length l)%nat.
Proof.
  unfold bt_from. assert (forall (l m : list (K * V)), (length (fold_left (fun m kv => bt_put cmp (fst kv) (snd kv) m) l m) <= length l + length m)%nat) as H.
  { clear l. induction l as [|kv l IH]; intros m; cbn [fold_left length]; [lia|].
    pose proof (bt_put_length (fst kv) (snd kv) m). pose proof (IH (bt_put cmp (fst kv) (snd kv) m)). lia. }
  pose proof (H l []). cbn [length] in *. lia.
Qed.

(** Reading a map gives back what was written, and always gives a map; but not
    only what was written is accepted. *)
Lemma map_reads P Q (ek : K -> bytes) dk (ev : V -> bytes) dv m rest : codec P ek dk -> codec Q ev dv ->
  short m -> is_map lt m -> Forall (fun kv => P (fst kv) /\ Q (snd kv)) m ->
  dec_map cmp dk dv (enc_map ek ev m ++ rest) = Some (m, rest).
Proof.
  intros H1 H2 Hs Hm HF. unfold dec_map, enc_map.
  rewrite (dbind_ok _ _ _ _ _ _ (codec_vec _ _ _ (codec_pair _ _ _ _ _ _ H1 H2)) (conj Hs HF)). unfold dret. by rewrite bt_from_sorted.
Qed.
Lemma map_accepts P Q (ek : K -> bytes) dk (ev : V -> bytes) dv bs m rest : codec P ek dk -> codec Q ev dv ->
  dec_map cmp dk dv bs = Some (m, rest) ->
  short m /\ is_map lt m /\ Forall (fun kv => P (fst kv) /\ Q (snd kv)) m /\
  exists l, m = bt_from cmp l /\ bs = enc_vec (fun kv => ek (fst kv) ++ ev (snd kv)) l ++ rest.
Proof.
  intros H1 H2 H. unfold dec_map in H. apply (dbind_inv _ _ _ _ _ _ _ (codec_vec _ _ _ (codec_pair _ _ _ _ _ _ H1 H2))) in H
    as (l & r & [Hs HF] & -> & [= <- <-]). split_and!.
  - unfold short in *. pose proof (bt_from_length l). lia.
  - apply bt_from_is_map.
  - by apply bt_from_Forall.
  - by exists l.
Qed.
End Maps.

(** ** The orders *)
Lemma bytes_cmp_spec a b : (bytes_cmp a b = Lt <-> lex_lt a b) /\ (bytes_cmp a b = Eq <-> a = b) /\ (bytes_cmp a b = Gt <-> lex_lt b a).
Proof.
  revert b. induction a as [|x a IH]; intros [|y b]; cbn [bytes_cmp lex_lt]; [by split_and!..|].
  destruct (IH b) as (I1 & I2 & I3). destruct (N.compare_spec (Byte.to_N x) (Byte.to_N y)) as [E|E|E].
  - assert (x = y) as -> by (rewrite <-(byte_of_to_N x), E; apply byte_of_to_N).
    rewrite I1, I2, I3. split_and!; split; intros H; [by right| |by f_equal|by injection H|by right|]; destruct H as [H|[_ H]]; try done; lia.
  - split_and!; split; intros H; try done; [by left|injection H as -> ->; lia|].
    destruct H as [H|[-> _]]; lia.
  - split_and!; split; intros H; try done; [|injection H as -> ->; lia|by left].
    destruct H as [H|[-> _]]; lia.
Qed.
Lemma lex_lt_trans a b c : lex_lt a b -> lex_lt b c -> lex_lt a c.
Proof.
  revert b c. induction a as [|x a IH]; intros [|y b] [|z c]; cbn [lex_lt]; try done.
  intros [H1|[-> H1]] [H2|[-> H2]]; [left; lia|by left|by left|right]. split; [done|]. by eapply IH.
Qed.
Definition ordered {K} (cmp : K -> K -> comparison) (lt : K -> K -> Prop) : Prop :=
  (forall a b, (cmp a b = Lt <-> lt a b) /\ (cmp a b = Eq <-> a = b) /\ (cmp a b = Gt <-> lt b a)) /\
  (forall a b c, lt a b -> lt b c -> lt a c).
Lemma ordered_pair {A B} (c1 : A -> A -> comparison) (l1 : A -> A -> Prop) (c2 : B -> B -> comparison) (l2 : B -> B -> Prop) :
  ordered c1 l1 -> ordered c2 l2 ->
  ordered (fun a b => then_cmp (c1 (fst a) (fst b)) (c2 (snd a) (snd b)))
    (fun a b => l1 (fst a) (fst b) \/ (fst a = fst b /\ l2 (snd a) (snd b))).
Proof.
  intros [H1 T1] [H2 T2]. split.
  - intros [a1 a2] [b1 b2]. cbn [fst snd]. destruct (H1 a1 b1) as (L1 & E1 & G1), (H2 a2 b2) as (L2 & E2 & G2).
    destruct (c1 a1 b1) eqn:E; cbn [then_cmp].
    + assert (a1 = b1) as -> by by apply E1. rewrite L2, E2, G2.
      assert (~ l1 b1 b1) as Hn by (intros H; by apply L1 in H).
      split_and!; split; intros H; [by right| |by f_equal|by injection H|by right|]; destruct H as [H|[_ H]]; done.
    + assert (l1 a1 b1) as H by by apply L1. split_and!; split; intros H'; try done; [by left| |].
      * injection H' as -> ->. assert (Lt = Eq) by by apply E1. done.
      * exfalso. destruct H' as [H'|[-> _]]; [apply G1 in H'|assert (Lt = Eq) by (by apply E1)]; done.
    + assert (l1 b1 a1) as H by by apply G1. split_and!; split; intros H'; try done; [| |by left].
      * exfalso. destruct H' as [H'|[-> _]]; [apply L1 in H'|assert (Gt = Eq) by (by apply E1)]; done.
      * injection H' as -> ->. assert (Gt = Eq) by by apply E1. done.
  - intros [a1 a2] [b1 b2] [d1 d2]. cbn [fst snd]. intros [H|[-> H]] [H'|[-> H']]; [left; by eapply T1|by left|by left|right].
    split; [done|]. by eapply T2.
Qed.
Lemma ordered_N : ordered N.compare N.lt.
Proof.
  split; [|intros; lia]. intros a b. rewrite N.compare_lt_iff, N.compare_eq_iff, N.compare_gt_iff. done.
Qed.
Lemma ordered_bytes : ordered bytes_cmp lex_lt.
Proof. split; [exact bytes_cmp_spec|exact lex_lt_trans]. Qed.
Lemma ordered_path : ordered (fun p q => then_cmp (Nat.compare (np_num p) (np_num q)) (bytes_cmp (np_bytes p) (np_bytes q))) path_lt.
Proof.
  assert (ordered Nat.compare lt) as Hn.
  { split; [|intros; lia]. intros a b. rewrite Nat.compare_lt_iff, Nat.compare_eq_iff, Nat.compare_gt_iff. done. }
  destruct (ordered_pair _ _ _ _ Hn ordered_bytes) as [H T]. split.
  - intros [n a] [m b]. destruct (H (n, a) (m, b)) as (H1 & H2 & H3). cbn [fst snd] in *. cbn [np_num np_bytes]. split_and!; [exact H1| |exact H3].
    rewrite H2. split; intros E; by injection E as -> ->.
  - intros [n a] [m b] [k c]. exact (T (n, a) (m, b) (k, c)).
Qed.
Lemma ordered_key : ordered key_cmp key_lt.
Proof. exact (ordered_pair _ _ _ _ ordered_N ordered_path). Qed.
Lemma ordered_vkey : ordered vkey_cmp vkey_lt.
Proof. exact (ordered_pair _ _ _ _ ordered_N ordered_bytes). Qed.
Lemma ordered_stale : ordered stale_cmp stale_lt.
Proof. exact (ordered_pair _ _ _ _ ordered_N ordered_key). Qed.

(** Reading an ordered map. *)
Lemma omap_reads {K V} (cmp : K -> K -> comparison) lt P Q (ek : K -> bytes) dk (ev : V -> bytes) dv m : ordered cmp lt ->
  codec P ek dk -> codec Q ev dv -> short m -> is_map lt m -> Forall (fun kv => P (fst kv) /\ Q (snd kv)) m ->
  forall rest, dec_map cmp dk dv (enc_map ek ev m ++ rest) = Some (m, rest).
Proof.
  intros [H T] H1 H2 Hs Hm HF rest. eapply (map_reads cmp lt); try done. intros a b. apply H.
Qed.
Lemma omap_accepts {K V} (cmp : K -> K -> comparison) lt P Q (ek : K -> bytes) dk (ev : V -> bytes) dv bs m rest : ordered cmp lt ->
  codec P ek dk -> codec Q ev dv -> dec_map cmp dk dv bs = Some (m, rest) ->
  short m /\ is_map lt m /\ Forall (fun kv => P (fst kv) /\ Q (snd kv)) m.
Proof.
  intros [H T] H1 H2 E. destruct (map_accepts (V := V) cmp lt) with (P := P) (Q := Q) (ek := ek) (dk := dk) (ev := ev) (dv := dv) (bs := bs) (m := m) (rest := rest)
    as (A & B & C & _); try done; intros a b; apply H.
Qed.
Lemma dbind_step {A B} (d : dec A) (f : A -> dec B) bs x r : d bs = Some (x, r) -> dbind d f bs = f x r.
Proof. unfold dbind. by intros ->. Qed.
Lemma dbind_split {A B} (d : dec A) (f : A -> dec B) bs y r : dbind d f bs = Some (y, r) -> exists x r1, d bs = Some (x, r1) /\ f x r1 = Some (y, r).
Proof. unfold dbind. destruct (d bs) as [[x r1]|]; [|done]. eauto. Qed.

Lemma batch_reads b rest : fits_batch b -> dec_batch (enc_batch b ++ rest) = Some (b, rest).
Proof.
  intros ((N1 & N2 & N3) & (V1 & V2 & V3) & (S1 & S2 & S3) & (T1 & T2)). destruct b as [ns vs ss ts]. unfold enc_batch, dec_batch.
  cbn [bb_nodes bb_values bb_stale bb_stats] in *. rewrite <-!app_assoc.
  rewrite (dbind_step _ _ _ _ _ (omap_reads key_cmp key_lt _ _ _ _ _ _ ns ordered_key codec_key codec_node N1 N2 N3 _)).
  rewrite (dbind_step _ _ _ _ _ (omap_reads vkey_cmp vkey_lt _ _ _ _ _ _ vs ordered_vkey codec_vkey (codec_option _ _ _ codec_bytes) V1 V2 V3 _)).
  erewrite (dbind_step (dec_map stale_cmp _ _)).
  2: { apply (omap_reads stale_cmp stale_lt fits_stale (fun _ => True)); [exact ordered_stale|exact codec_stale|exact codec_nothing|done|done|].
       eapply Forall_impl; [exact S3|]. done. }
  by rewrite (dbind_ok _ _ _ _ _ _ (codec_vec _ _ _ codec_stats) (conj T1 T2)).
Qed.
Lemma batch_accepts bs b rest : dec_batch bs = Some (b, rest) -> fits_batch b.
Proof.
  intros H. unfold dec_batch in H.
  apply dbind_split in H as (ns & r1 & En & H). apply dbind_split in H as (vs & r2 & Ev & H).
  apply dbind_split in H as (ss & r3 & Es & H). apply dbind_split in H as (ts & r4 & Et & [= <- <-]).
  apply (omap_accepts key_cmp key_lt _ _ _ _ _ _ _ _ _ ordered_key codec_key codec_node) in En as (? & ? & ?).
  apply (omap_accepts vkey_cmp vkey_lt _ _ _ _ _ _ _ _ _ ordered_vkey codec_vkey (codec_option _ _ _ codec_bytes)) in Ev as (? & ? & ?).
  apply (omap_accepts stale_cmp stale_lt _ _ _ _ _ _ _ _ _ ordered_stale codec_stale codec_nothing) in Es as (? & ? & HS).
  apply (codec_vec _ _ _ codec_stats) in Et as [[? ?] _].
  unfold fits_batch. cbn [bb_nodes bb_values bb_stale bb_stats]. split_and!; try done. eapply Forall_impl; [exact HS|]. by intros ? [? _].
Qed.
