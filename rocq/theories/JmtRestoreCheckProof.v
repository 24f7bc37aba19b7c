(** Restoring a tree: the check of a range proof accepts what an honest source
    sends, and, without hash collisions, nothing else. *)
From Verif Require Import Base JmtNibModel JmtSpec JmtTraceSpec JmtNibSpec JmtNibProof JmtNibMoreProof JmtModel JmtHashProof JmtAbsProof
  JmtCacheProof JmtPutProof JmtReadProof JmtProofProof JmtOrderProof JmtRestoreSpec JmtRestoreModel JmtRestoreProof JmtRestoreAddProof JmtRestoreVerifyProof.
Local Open Scope nat_scope.

(** ** The order of keys, by bits *)
Lemma nib_lt_bits a b : (nib_val a < nib_val b)%N -> exists d, d < 4 /\ take d (nib_bits a) = take d (nib_bits b) /\
  nib_bits a !! d = Some false /\ nib_bits b !! d = Some true.
Proof.
  destruct a as [[] [] [] []], b as [[] [] [] []]; cbv; intros H; try discriminate H;
    first [exists 0; split; [lia|]; split; [reflexivity|]; split; reflexivity
          |exists 1; split; [lia|]; split; [reflexivity|]; split; reflexivity
          |exists 2; split; [lia|]; split; [reflexivity|]; split; reflexivity
          |exists 3; split; [lia|]; split; [reflexivity|]; split; reflexivity].
Qed.
Lemma bits_lt l k : length l = 32 -> length k = 32 -> bytes_lt l k ->
  exists i, i < 256 /\ take i (key_bits k) ++ [false] `prefix_of` key_bits l /\ key_bits k !! i = Some true.
Proof.
  intros Hl Hk Hlt. destruct (nibs_diverge l k Hl Hk Hlt) as (q & a & b & r & s & E1 & E2 & Hab).
  destruct (nib_lt_bits a b Hab) as (d & Hd & Ht & Ha & Hb).
  pose proof (path_bits_length q) as Lq. exists (4 * length q + d).
  rewrite !key_bits_nibs, E1, E2, !path_bits_app, !path_bits_cons.
  assert (4 * length q + d < 256) as Hlt'.
  { apply (f_equal length) in E1. rewrite nibs_length, Hl, app_length in E1. cbn [length] in E1. lia. }
  split_and!.
  - done.
  - rewrite take_app_ge, Lq by lia. replace (4 * length q + d - 4 * length q) with d by lia.
    rewrite take_app_le by (rewrite nib_bits_length; lia). rewrite <-Ht, <-app_assoc. apply prefix_app.
    apply prefix_app_r. rewrite <-(take_drop_middle _ _ _ Ha). exists (drop (S d) (nib_bits a)).
    rewrite take_app_le by (rewrite take_length, nib_bits_length; lia). rewrite take_take, Nat.min_id, <-app_assoc. done.
  - rewrite lookup_app_r, Lq by lia. replace (4 * length q + d - 4 * length q) with d by lia.
    rewrite lookup_app_l by (rewrite nib_bits_length; lia). done.
Qed.
Lemma bits_lt_conv l k i : length l = 32 -> length k = 32 ->
  take i (key_bits k) ++ [false] `prefix_of` key_bits l -> key_bits k !! i = Some true -> bytes_lt l k.
Proof.
  intros Hl Hk Hp Hi. assert (i < 256) as Hi256 by (apply lookup_lt_Some in Hi; rewrite key_bits_length in Hi; lia).
  assert (forall x y j j', length x = 32 -> length y = 32 -> j < 256 -> j' < 256 -> j < j' -> 
    take j (key_bits x) ++ [false] `prefix_of` key_bits y -> key_bits x !! j = Some true ->
    take j' (key_bits y) ++ [false] `prefix_of` key_bits x -> False) as Hno.
  { intros x y j j' Hx Hy Hj Hj' Hjj [z Hz] Hb [z' Hz'].
    assert (key_bits y !! j = Some false) as Hyj.
    { rewrite Hz, <-app_assoc, lookup_app_r; rewrite take_length, key_bits_length; [|lia].
      replace (j - j `min` (8 * length x)) with 0 by lia. done. }
    rewrite Hz', <-app_assoc, lookup_app_l, lookup_take in Hb; [congruence|lia|].
    rewrite take_length, key_bits_length. lia. }
  assert (key_bits l !! i = Some false) as Hli.
  { destruct Hp as [z Hz]. rewrite Hz, <-app_assoc, lookup_app_r; rewrite take_length, key_bits_length; [|lia].
    replace (i - i `min` (8 * length k)) with 0 by lia. done. }
  destruct (klt_total l k) as [|[->|Hlt]]; [done|congruence|exfalso].
  destruct (bits_lt k l Hk Hl Hlt) as (i' & Hi' & Hp' & Hb').
  destruct (Nat.lt_trichotomy i i') as [H|[->|H]]; [by eapply (Hno k l i i')|congruence|by eapply (Hno l k i' i)].
Qed.

Section Check.
Context (sha : bytes -> bytes) (v : N).
Notation sm_leaf := (sm_leaf sha).
Notation sm_internal := (sm_internal sha).
Notation hashP := (hashB sm_leaf sm_internal placeholder).
Notation inputs B M := (smt_inputs sha (256 - length B) (length B) (map_to_list (subm B M))).
Notation bpath := (bpath sha).
Notation Pend := (Pend sha v).
Notation noph := (noph sha).
Notation noph_left := (noph_left sha).
Notation lefts := (lefts sha).
Implicit Types (M : pairs) (p q : path) (B C Q K : list bool).

(** ** Hashes determine subtrees *)
Lemma hash_as_input B M : wfm M -> 0 < cnt B M -> exists inp, inp ∈ inputs B M /\ hashP B M = sha inp /\
  ((exists k x, subm B M = {[k := x]} /\ inp = spec_leaf_input k x) \/
   (2 <= cnt B M /\ inp = spec_node_input (hashP (B ++ [false]) M) (hashP (B ++ [true]) M))).
Proof.
  intros Hw H0. destruct (decide (cnt B M = 1)) as [H1|H1].
  - destruct (cnt_1 _ _ H1) as (k & x & E). exists (spec_leaf_input k x). split_and!.
    + rewrite (inputs_single _ _ _ _ _ E). by left.
    + by rewrite (hashB_single _ _ _ _ _ _ _ E), sm_leaf_input.
    + left. by eauto.
  - eexists. split_and!; [|by rewrite hashB_split, sm_internal_input by (done || lia)|right; split; [lia|done]].
    rewrite inputs_split by (done || lia). by left.
Qed.
Lemma inputs_empty B M : cnt B M = 0 -> inputs B M = [].
Proof. intros H%cnt_0. rewrite H, map_to_list_empty. by destruct (_ - _). Qed.
Lemma inputs_snoc B M b x : wfm M -> x ∈ inputs (B ++ [b]) M -> x ∈ inputs B M.
Proof.
  intros Hw Hx. destruct (decide (cnt (B ++ [b]) M = 0)) as [H0|H0]; [by rewrite inputs_empty in Hx; [apply elem_of_nil in Hx|]|].
  pose proof (cnt_mono B (B ++ [b]) M ltac:(by eexists)) as Hm.
  destruct (decide (cnt B M = 1)) as [H1|H1].
  - destruct (cnt_1 _ _ H1) as (k & y & E). destruct (cnt_1 (B ++ [b]) M) as (k' & y' & E'); [lia|].
    assert (subm (B ++ [b]) M !! k' = Some y') as Hk by (by rewrite E', lookup_singleton).
    apply subm_Some in Hk as [Hk Hp]. assert (subm B M !! k' = Some y') as Hk2.
    { apply subm_Some. split; [done|]. etrans; [|exact Hp]. by eexists. }
    rewrite E in Hk2. apply lookup_singleton_Some in Hk2 as [-> ->].
    rewrite (inputs_single _ _ _ _ _ E') in Hx. by rewrite (inputs_single _ _ _ _ _ E).
  - rewrite inputs_split by (done || lia). destruct b; set_solver.
Qed.
Lemma inputs_prefix B C M x : wfm M -> B `prefix_of` C -> x ∈ inputs C M -> x ∈ inputs B M.
Proof.
  intros Hw [D ->]. induction D as [|b D IH] using rev_ind; [by rewrite app_nil_r|].
  intros Hx. apply IH. rewrite app_assoc in Hx. by apply inputs_snoc in Hx.
Qed.
Lemma noph_good B M : wfm M -> Forall (fun x => sha x <> placeholder) (inputs B M) -> noph B M.
Proof.
  intros Hw Hf C HC H0. destruct (hash_as_input C M Hw H0) as (inp & Hin & -> & _).
  rewrite Forall_forall in Hf. apply Hf. by eapply inputs_prefix.
Qed.
Lemma hash_inj M M' : wfm M -> wfm M' -> (forall x, length (sha x) = 32) ->
  forall n B, 256 - length B <= n -> inj_on sha (inputs B M ++ inputs B M') ->
  Forall (fun x => sha x <> placeholder) (inputs B M ++ inputs B M') ->
  hashP B M = hashP B M' -> subm B M = subm B M'.
Proof.
  intros Hw Hw' Hsha n. induction n as [|n IH]; intros B Hn Hinj Hph E.
  all: destruct (decide (cnt B M = 0)) as [H0|H0]; destruct (decide (cnt B M' = 0)) as [H0'|H0'];
    [by rewrite (proj1 (cnt_0 _ _) H0), (proj1 (cnt_0 _ _) H0')|exfalso..|].
  1,4: (rewrite Forall_app in Hph; destruct Hph as [_ Hph]; apply (noph_good B M' Hw' Hph B); [done|lia|]; rewrite <-E; by apply hashB_empty).
  1,3: (rewrite Forall_app in Hph; destruct Hph as [Hph _]; apply (noph_good B M Hw Hph B); [done|lia|]; rewrite E; by apply hashB_empty).
  all: destruct (hash_as_input B M Hw ltac:(lia)) as (i1 & Hi1 & E1 & S1);
       destruct (hash_as_input B M' Hw' ltac:(lia)) as (i2 & Hi2 & E2 & S2);
       rewrite E1, E2 in E; apply Hinj in E; [|by apply elem_of_app; auto..];
       destruct S1 as [(k & x & Es & Ei)|[H2 Ei]]; destruct S2 as [(k' & x' & Es' & Ei')|[H2' Ei']]; rewrite Ei, Ei' in E;
       [|by apply leaf_node_input in E|symmetry in E; by apply leaf_node_input in E|].
  1,3: (assert (subm B M !! k = Some x) as A by (by rewrite Es, lookup_singleton);
        assert (subm B M' !! k' = Some x') as A' by (by rewrite Es', lookup_singleton);
        apply subm_Some in A as [A _]; apply subm_Some in A' as [A' _];
        apply leaf_input_inj in E as [-> ->]; [by rewrite Es, Es'|by rewrite (Hw _ _ A), (Hw' _ _ A')]).
  - exfalso. pose proof (cnt_deep B M Hw ltac:(lia)). lia.
  - assert (length B < 256) as HB.
    { destruct (decide (length B < 256)); [done|]. pose proof (cnt_deep B M Hw ltac:(lia)). lia. }
    apply node_input_inj in E as [Ef Et]; [|by rewrite !hashP_length].
    destruct (subm_split B M Hw HB) as [-> _]. destruct (subm_split B M' Hw' HB) as [-> _].
    assert (forall b, hashP (B ++ [b]) M = hashP (B ++ [b]) M' -> subm (B ++ [b]) M = subm (B ++ [b]) M') as Hb.
    { intros b. apply IH.
      - rewrite app_length. cbn [length]. lia.
      - intros y z Hy Hz. apply Hinj.
        + apply elem_of_app in Hy as [Hy|Hy]; apply inputs_snoc in Hy; set_solver.
        + apply elem_of_app in Hz as [Hz|Hz]; apply inputs_snoc in Hz; set_solver.
      - rewrite Forall_forall in *. intros y Hy. apply Hph. apply elem_of_app in Hy as [Hy|Hy]; apply inputs_snoc in Hy; set_solver. }
    by rewrite (Hb false), (Hb true).
Qed.

(** ** A fold that gives the root has the siblings of the tree *)
Lemma fold_siblings_sound M l sibs : wfm M -> Forall (fun s : bytes => length s = 32) sibs ->
  forall B rest, length sibs <= length rest -> length B + length rest = 256 ->
  good_hash sha (top_inputs sha (leaf_hash_of sha l) sibs rest ++ inputs B M) ->
  fold_top sha (leaf_hash_of sha l) sibs rest = hashP B M ->
  forall i s b, sibs !! i = Some s -> rest !! i = Some b -> s = hashP (B ++ take i rest ++ [negb b]) M.
Proof.
  intros Hw Hs. induction Hs as [|s sibs Hs1 Hs IH]; intros B rest HL HB Hg Hf i s0 b0; [done|].
  destruct rest as [|b rest]; cbn [length] in HL; [lia|]. cbn [length] in HB.
  cbn [fold_top top_inputs] in *. set (rec := fold_top sha (leaf_hash_of sha l) sibs rest) in *.
  set (inp := if b then spec_node_input s rec else spec_node_input rec s) in *.
  assert (sha inp = hashP B M) as Hf' by (rewrite <-Hf; unfold inp; by destruct b).
  destruct Hg as (Hsha & Hinj & Hph). rewrite Forall_forall in Hph.
  assert (inp ∈ (inp :: top_inputs sha (leaf_hash_of sha l) sibs rest) ++ inputs B M) as Hinp by set_solver.
  destruct (decide (cnt B M = 0)) as [H0|H0].
  { exfalso. rewrite hashB_empty in Hf' by done. by apply (Hph inp). }
  destruct (hash_as_input B M Hw ltac:(lia)) as (i2 & Hi2 & E2 & S2). rewrite E2 in Hf'.
  apply Hinj in Hf'; [|done|set_solver].
  destruct S2 as [(k' & x' & Es' & Ei')|[H2' Ei']].
  { exfalso. unfold inp in Hf'. rewrite Ei' in Hf'. destruct b; symmetry in Hf'; by apply leaf_node_input in Hf'. }
  assert (length rec = 32) as Hrl.
  { unfold rec. destruct sibs as [|s' sibs'], rest as [|b' rest']; cbn [fold_top].
    1-3: destruct l as [[lk lv]|]; [apply Hsha|reflexivity]. destruct b'; apply Hsha. }
  assert (s = hashP (B ++ [negb b]) M /\ rec = hashP (B ++ [b]) M) as [Es Er].
  { unfold inp in Hf'. rewrite Ei' in Hf'. destruct b; apply node_input_inj in Hf' as [? ?]; try done; by rewrite hashP_length, ?Hs1, ?Hrl. }
  destruct i as [|i].
  - intros [= <-] [= <-]. exact Es.
  - cbn [lookup list_lookup take]. intros Hi Hb. 
    assert (s0 = hashP ((B ++ [b]) ++ take i rest ++ [negb b0]) M) as Hr; [|by rewrite <-app_assoc in Hr].
    apply (IH (B ++ [b]) rest); [lia| | | |done|done].
    + rewrite app_length. cbn [length]. lia.
    + split_and!; [done|..].
      * intros y z Hy Hz. apply Hinj.
        -- apply elem_of_app in Hy as [Hy|Hy]; [|apply inputs_snoc in Hy]; set_solver.
        -- apply elem_of_app in Hz as [Hz|Hz]; [|apply inputs_snoc in Hz]; set_solver.
      * apply Forall_forall. intros y Hy. apply Hph. apply elem_of_app in Hy as [Hy|Hy]; [|apply inputs_snoc in Hy]; set_solver.
    + done.
Qed.

(** ** Counting bits *)
Lemma zeros_take_mono K m n : m <= n -> zeros (take m K) <= zeros (take n K).
Proof.
  intros H. replace (take m K) with (take m (take n K)) by (rewrite take_take; f_equal; lia).
  rewrite <-(take_drop m (take n K)) at 2. unfold zeros. rewrite filter_app, app_length. lia.
Qed.
Lemma ones_take_mono K m n : m <= n -> ones (take m K) <= ones (take n K).
Proof.
  intros H. replace (take m K) with (take m (take n K)) by (rewrite take_take; f_equal; lia).
  rewrite <-(take_drop m (take n K)) at 2. unfold ones. rewrite filter_app, app_length. lia.
Qed.

(** ** The check does not panic *)
Lemma range_verify_total right root leaf left : length left + length right <= 256 ->
  range_verify sha right root leaf left = Ok tt \/ exists e, range_verify sha right root leaf left = Err e.
Proof.
  intros H. unfold range_verify. destruct (Nat.ltb_spec 256 (length left + length right)); [lia|].
  destruct (range_fold_total sha (drop (256 - (length left + length right)) (rev (iter_bits leaf.1))) (sm_leaf leaf.1 leaf.2) left right)
    as [[x ->]|[e ->]]; cbn [rbind].
  - case_decide; [by left|right; by eexists].
  - right. by eexists.
Qed.
Lemma verify_total st M k p vh right : Pend (rs_partial st) (rs_frozen st) (st_nodes (rs_store st)) M k p ->
  rs_prev st = Some (k, vh) -> rs_verify sha st right = Ok tt \/ exists e, rs_verify sha st right = Err e.
Proof.
  intros HP Hprev. pose proof HP as [Hw (x & Hk) _ _ _ _ _ _]. assert (length k = 32) as Hlen by by eapply Hw.
  destruct (left_siblings_ok sha v M k _ _ _ p HP (key_bits k) 0) as [(l & El & Hl) _]; [done|].
  unfold rs_verify. rewrite Hprev, iter_bits_key, El by done. cbn [rbind].
  fold (zeros (key_bits k)). destruct (Nat.ltb_spec (zeros (key_bits k)) (length right)); [right; by eexists|].
  destruct (trim_total (rev (key_bits k)) (rev l) (zeros (key_bits k)) (length right)) as (l' & -> & Hl').
  { by rewrite rev_length, ones_rev. }
  cbn [rbind]. apply range_verify_total. rewrite rev_length in Hl'. pose proof (ones_zeros (key_bits k)) as Hoz.
  rewrite key_bits_length in Hoz. lia.
Qed.

(** ** The siblings of a present key *)
Lemma bpath_sibs M k x rest : wfm M -> M !! k = Some x -> forall B, length B + length rest = 256 -> key_bits k = B ++ rest ->
  let s := snd (bpath M B rest) in
  fst (bpath M B rest) = Some (k, x) /\ subm (B ++ take (length s) rest) M = {[k := x]} /\
  (forall i, i < length s -> 2 <= cnt (B ++ take i rest) M) /\
  (forall i y b, s !! i = Some y -> rest !! i = Some b -> y = hashP (B ++ take i rest ++ [negb b]) M).
Proof.
  intros Hw Hk. induction rest as [|b rest IH]; intros B HB HK; cbn zeta.
  all: assert (0 < cnt B M) as Hpos by (eapply cnt_pos; [done|]; rewrite HK; by eexists).
  all: destruct (decide (cnt B M = 1)) as [H1|H1].
  1,3: (destruct (cnt_1 _ _ H1) as (k0 & x0 & E); rewrite (bpath_1 _ _ _ _ _ _ E); cbn [fst snd length take];
        assert (subm B M !! k = Some x) as Hs by (apply subm_Some; split; [done|rewrite HK; by eexists]);
        rewrite E in Hs; apply lookup_singleton_Some in Hs as [-> ->]; rewrite app_nil_r;
        split_and!; [done|done|intros; lia|done]).
  - exfalso. cbn in HB. pose proof (cnt_deep B M Hw ltac:(lia)). lia.
  - specialize (IH (B ++ [b])). rewrite app_length in IH. cbn [length] in IH, HB. specialize (IH ltac:(lia)).
    rewrite <-app_assoc in IH. specialize (IH HK). cbn zeta in IH.
    rewrite bpath_2 by lia. destruct (bpath M (B ++ [b]) rest) as [l s]. cbn [fst snd] in *.
    destruct IH as (I1 & I2 & I3 & I4). cbn [length take]. split_and!.
    + done.
    + by rewrite <-app_assoc in I2.
    + intros [|i] Hi; [cbn [take]; rewrite app_nil_r; lia|]. cbn [take]. specialize (I3 i ltac:(lia)). by rewrite <-app_assoc in I3.
    + intros [|i] y b0; cbn [lookup list_lookup take app].
      * intros [= <-] [= <-]. done.
      * intros Hy Hb. specialize (I4 i y b0 Hy Hb). by rewrite <-app_assoc in I4.
Qed.
Lemma lefts_pick M bits : forall B sibs, length sibs <= length bits ->
  (forall i y, sibs !! i = Some y -> bits !! i = Some true -> y = hashP (B ++ take i bits ++ [false]) M) ->
  lefts M B (take (length sibs) bits) = pick true sibs bits.
Proof.
  induction bits as [|b bits IH]; intros B [|s sibs] Hl Hs; cbn [length] in Hl; try lia; [done..|].
  cbn [length take lefts pick]. assert (lefts M (B ++ [b]) (take (length sibs) bits) = pick true sibs bits) as E.
  { apply IH; [lia|]. intros i y Hy Hb. rewrite <-app_assoc. by apply (Hs (S i)). }
  destruct b.
  - rewrite bool_decide_true by done. f_equal; [|done]. symmetry. by apply (Hs 0).
  - by rewrite bool_decide_false by done.
Qed.

(** ** Honest proofs are accepted *)
Section Complete.
Context (M M0 : pairs) (k : bytes).
Hypothesis Hw0 : wfm M0.
Hypothesis Hk32 : length k = 32.
Hypothesis HM : forall l y, M !! l = Some y <-> M0 !! l = Some y /\ key_le l k.
Lemma left_same i C : key_bits k !! i = Some true -> take i (key_bits k) ++ [false] `prefix_of` C -> subm C M = subm C M0.
Proof.
  intros Hi HC. apply subm_ext. intros l Hl. apply option_eq. intros y. rewrite HM. split; [tauto|]. intros Hy. split; [done|].
  right. eapply bits_lt_conv; [by eapply Hw0|done| |done]. by etrans.
Qed.
Lemma noph_left_sub : noph [] M0 -> noph_left M (key_bits k).
Proof.
  intros Hn i Hi C HC. pose proof (left_same i C Hi HC) as E. unfold cnt. rewrite E, (hashB_ext _ _ _ _ _ _ E).
  apply Hn. apply prefix_nil.
Qed.
Lemma verify_complete st p vh : wfm M -> Pend (rs_partial st) (rs_frozen st) (st_nodes (rs_store st)) M k p ->
  rs_prev st = Some (k, vh) -> M !! k = Some vh -> rs_root st = hashP [] M0 -> noph [] M0 ->
  rs_verify sha st (rev (pick false (snd (bpath M0 [] (key_bits k))) (key_bits k))) = Ok tt.
Proof.
  intros Hw HP Hprev Hk Hroot Hn. pose proof (noph_left_sub Hn) as Hnl.
  destruct (left_siblings_ok sha v M k _ _ _ p HP (key_bits k) 0) as [_ Els]; [done|]. specialize (Els Hnl). change (take 0 (key_bits k)) with (@nil bool) in Els.
  set (K := key_bits k) in *. assert (length K = 256) as HK by (unfold K; by rewrite key_bits_length, Hk32).
  set (sibs := snd (bpath M0 [] K)).
  assert (M0 !! k = Some vh) as Hk0 by by apply HM in Hk as [? _].
  destruct (bpath_sibs M0 k vh K Hw0 Hk0 []) as (B1 & B2 & B3 & B4); [cbn [length]; lia|done|].
  fold sibs in B2, B3, B4. cbn [app] in B2, B3, B4.
  pose proof (bpath_len sha M0 [] K) as BL. fold sibs in BL.
  set (D0 := length sibs) in *. set (right := rev (pick false sibs K)).
  assert (length right = zeros (take D0 K)) as HR.
  { unfold right. rewrite rev_length, pick_length by (fold D0; lia). done. }
  assert (zeros (take D0 K) <= zeros K) as HRK.
  { rewrite <-(firstn_all K) at 2. apply zeros_take_mono. lia. }
  unfold rs_verify. rewrite Hprev, iter_bits_key by done. fold K. rewrite Els. cbn [rbind take].
  fold (zeros K). destruct (Nat.ltb_spec (zeros K) (length right)) as [|_]; [lia|].
  destruct (trim_ok sha M K (length right) 256) as (D & ED & D1 & D2 & D3 & D4 & D5); [lia|rewrite take_ge by lia; lia|].
  rewrite (take_ge K 256) in ED by lia. rewrite ED. cbn [rbind]. clear ED Els.
  assert (forall i, K !! i = Some true -> hashP (take i K ++ [false]) M = placeholder <-> cnt (take i K ++ [false]) M0 = 0) as Hph.
  { intros i Hi. rewrite (hashB_ext _ _ _ _ M M0) by by apply (left_same i). apply (noph_iff sha []); [done|]. apply prefix_nil. }
  assert (forall i, D0 <= i -> K !! i = Some true -> cnt (take i K ++ [false]) M0 = 0) as Hdeep.
  { intros i Hi Hb. destruct (decide (cnt (take i K ++ [false]) M0 = 0)) as [|Hne]; [done|exfalso].
    destruct (cnt_pos_inv (take i K ++ [false]) M0) as (l & y & Hl & Hpl); [lia|].
    apply prefix_snoc_lookup in Hpl as [Hpl Hbit].
    assert (subm (take D0 K) M0 !! l = Some y) as Hs.
    { apply subm_Some. split; [done|]. etrans; [|exact Hpl].
      replace (take D0 K) with (take D0 (take i K)) by (rewrite take_take; f_equal; lia).
      exists (drop D0 (take i K)). by rewrite take_drop. }
    rewrite B2 in Hs. apply lookup_singleton_Some in Hs as [<- _]. fold K in Hbit.
    apply lookup_lt_Some in Hb as Hlt. rewrite take_length, Nat.min_l in Hbit by lia. congruence. }
  assert (cnt (take D0 K) M0 = 1) as C1 by by eapply cnt_single.
  assert (D = D0) as ->.
  { destruct (Nat.lt_trichotomy D D0) as [Hlt|[?|Hgt]]; [exfalso|done|exfalso].
    - destruct (lookup_lt_is_Some_2 K (D0 - 1)) as [b Hb]; [lia|].
      assert (take D0 K = take (D0 - 1) K ++ [b]) as Et.
      { rewrite <-(take_S_r _ _ _ Hb). f_equal. lia. }
      destruct b.
      + pose proof (D3 (D0 - 1) ltac:(lia) Hb) as Hz. apply Hph in Hz; [|done].
        pose proof (B3 (D0 - 1) ltac:(lia)) as H2. rewrite cnt_split in H2 by (done || (rewrite take_length; lia)).
        rewrite <-Et in H2. lia.
      + pose proof (D4 (D0 - 1) ltac:(lia) Hb) as Hz. replace (S (D0 - 1)) with D0 in Hz by lia. lia.
    - destruct D5 as [?|[[Hb Hh]|[Hb Hz]]]; [lia| |].
      + apply Hh. apply Hph; [done|]. apply Hdeep; [lia|done].
      + assert (take D K = take (D - 1) K ++ [false]) as Et.
        { rewrite <-(take_S_r _ _ _ Hb). f_equal. lia. }
        rewrite Et, zeros_snoc in Hz. pose proof (zeros_take_mono K D0 (D - 1) ltac:(lia)). lia. }
  assert (lefts M [] (take D0 K) = pick true sibs K) as EL.
  { apply lefts_pick; [fold D0; lia|]. intros i y Hy Hb. rewrite (B4 i y true Hy Hb). cbn [app negb]. symmetry. apply hashB_ext.
    by apply (left_same i). }
  rewrite EL. unfold range_verify.
  assert (length (rev (pick true sibs K)) + length right = D0) as Hsum.
  { rewrite rev_length, pick_length, HR by (fold D0; lia). fold D0. rewrite ones_zeros, take_length. lia. }
  rewrite Hsum. destruct (Nat.ltb_spec 256 D0) as [|_]; [lia|]. cbn [fst snd]. rewrite iter_bits_key by done. fold K.
  rewrite (drop_rev_take K D0 256) by lia.
  rewrite range_fold_ok.
  - cbn [rbind]. unfold right, D0. rewrite merge_pick, fold_siblings_top by (fold D0; lia).
    pose proof (bpath_fold sha M0 [] K Hw0 ltac:(cbn [length]; lia)) as Hf. rewrite B1 in Hf. fold sibs in Hf. cbn [leaf_hash_of] in Hf.
    rewrite Hf, Hroot. by rewrite decide_True.
  - rewrite rev_length, pick_length, ones_rev by (fold D0; lia). done.
  - rewrite HR, zeros_rev. done.
Qed.
End Complete.

(** ** What an accepted proof consists of *)
Lemma merge_rev bits : forall l r, length l = ones bits -> length r = zeros bits ->
  rev (merge bits l r) = merge (rev bits) (rev l) (rev r).
Proof.
  clear sha v. induction bits as [|b bits IH]; intros l r Hl Hr; [done|]. rewrite ones_cons in Hl. rewrite zeros_cons in Hr.
  destruct b; cbn [merge].
  - destruct l as [|s l]; cbn [length] in Hl; [lia|]. cbn [rev]. rewrite IH by lia.
    rewrite <-(merge_snoc _ true); [by rewrite app_nil_r|by rewrite rev_length, ones_rev; lia|by rewrite rev_length, zeros_rev; lia].
  - destruct r as [|s r]; cbn [length] in Hr; [lia|]. cbn [rev]. rewrite IH by lia.
    rewrite <-(merge_snoc _ false); [by rewrite app_nil_r|by rewrite rev_length, ones_rev; lia|by rewrite rev_length, zeros_rev; lia].
Qed.
Lemma merge_elem bits : forall l r x, x ∈ merge bits l r -> x ∈ l \/ x ∈ r.
Proof.
  clear sha v. induction bits as [|[] bits IH]; intros l r x; cbn [merge]; [by intros ?%elem_of_nil|..].
  - destruct l as [|s l]; [by intros ?%elem_of_nil|]. rewrite !elem_of_cons. intros [->|H]; [tauto|]. apply IH in H. tauto.
  - destruct r as [|s r]; [by intros ?%elem_of_nil|]. rewrite !elem_of_cons. intros [->|H]; [tauto|]. apply IH in H. tauto.
Qed.
Lemma lefts_elem M bits : forall B x, x ∈ lefts M B bits -> exists C, x = hashP C M.
Proof.
  induction bits as [|[] bits IH]; intros B x; cbn [JmtRestoreVerifyProof.lefts]; [by intros ?%elem_of_nil|..]; [|by apply IH].
  rewrite elem_of_cons. intros [->|H]; [by eexists|by eapply IH].
Qed.
Lemma merge_lefts M bits : forall B r i, length r = zeros bits -> bits !! i = Some true ->
  merge bits (lefts M B bits) r !! i = Some (hashP (B ++ take i bits ++ [false]) M).
Proof.
  induction bits as [|b bits IH]; intros B r i Hr Hi; [done|]. rewrite zeros_cons in Hr.
  destruct i as [|i]; cbn [lookup list_lookup] in Hi; destruct b; try done; cbn [JmtRestoreVerifyProof.lefts merge take app].
  - cbn [lookup list_lookup]. rewrite IH by (done || lia). by rewrite <-app_assoc.
  - destruct r as [|s r]; cbn [length] in Hr; [lia|]. cbn [lookup list_lookup]. rewrite IH by (done || lia). by rewrite <-app_assoc.
Qed.

(** The siblings as JmtRestoreSpec describes them. *)
Lemma filter_under M B : filter (under_bits B) (map_to_list M) ≡ₚ map_to_list (subm B M).
Proof. exact (map_list_subm B M). Qed.
Lemma subtree_root_hash M B : subtree_root sha (map_to_list M) B = hashP B M.
Proof. unfold subtree_root, hashB. apply (smt_perm (spec_leaf_hash sha) (spec_node_hash sha) spec_empty_hash), filter_under. Qed.
Lemma range_siblings_eq M k x : wfm M -> M !! k = Some x -> greatest M k ->
  forall bits n B R, n <= length bits -> length B + length bits = 256 -> key_bits k = B ++ bits -> length R = zeros (take n bits) ->
  (forall i, n <= i -> bits !! i = Some true -> cnt (B ++ take i bits ++ [false]) M = 0) ->
  (n = 0 \/ (bits !! (n - 1) = Some true /\ cnt (B ++ take (n - 1) bits ++ [false]) M <> 0) \/ bits !! (n - 1) = Some false) ->
  range_siblings sha (map_to_list M) B bits R = merge (take n bits) (lefts M B (take n bits)) R.
Proof.
  intros Hw Hk Hg. assert (length k = 32) as Hk32 by by eapply Hw.
  induction bits as [|b bits IH]; intros n B R Hn HB HK HR Hdeep Hstop.
  - cbn [length] in Hn. assert (n = 0) as -> by lia. cbn [take merge] in *. destruct R; [|done]. cbn [range_siblings].
    destruct (filter _ _) as [|? [|]]; done.
  - cbn [length] in HB, Hn.
    assert (0 < cnt B M) as Hpos by (eapply cnt_pos; [done|]; rewrite HK; by eexists).
    destruct n as [|n].
    + cbn [take merge] in *. destruct R; [|done]. cbn [range_siblings].
      assert (cnt B M = 1) as H1.
      { destruct (decide (cnt B M = 1)) as [|Hne]; [done|exfalso].
        destruct (cnt_ge2_inv B M k) as (l & y & Hlk & Hl & Hpl); [lia|]. assert (length l = 32) as Hl32 by by eapply Hw.
        assert (bytes_lt l k) as Hlt.
        { destruct (klt_total l k) as [?|[?|Hx]]; [done..|]. by apply (Hg l y) in Hx. }
        destruct (bits_lt l k Hl32 Hk32 Hlt) as (i & Hi & Hpi & Hbi).
        assert (length B <= i) as HBi.
        { destruct (decide (length B <= i)) as [|Hno]; [done|exfalso]. destruct Hpl as [z Hz].
          apply prefix_snoc_lookup in Hpi as [_ Hli]. rewrite take_length, key_bits_length, Nat.min_l in Hli by lia.
          rewrite Hz, lookup_app_l in Hli by lia. rewrite HK, lookup_app_l in Hbi by lia. congruence. }
        rewrite HK, lookup_app_r in Hbi by lia. specialize (Hdeep (i - length B) ltac:(lia) Hbi).
        rewrite HK, take_app_ge in Hpi by lia. rewrite <-app_assoc in Hpi.
        pose proof (cnt_pos _ _ _ _ Hl Hpi). lia. }
      pose proof (Permutation_length (filter_under M B)) as HP. change (length (map_to_list (subm B M))) with (cnt B M) in HP.
      rewrite H1 in HP. destruct (filter _ _) as [|? [|]]; try (cbn in HP; lia). done.
    + assert (R = [] -> length (filter (under_bits B) (map_to_list M)) <> 1) as Hno.
      { intros ->. cbn [length] in HR. symmetry in HR. intros H1.
        pose proof (Permutation_length (filter_under M B)) as HP. change (length (map_to_list (subm B M))) with (cnt B M) in HP.
        assert (length (b :: bits) > n) as Hlen by (cbn [length]; lia).
        destruct Hstop as [?|[[Hb Hc]|Hb]]; [lia| |]; rewrite Nat.sub_succ, Nat.sub_0_r in *.
        - destruct (cnt_pos_inv (B ++ take n (b :: bits) ++ [false]) M) as (l & y & Hl & Hpl); [lia|].
          assert (l <> k) as Hlk.
          { intros ->. rewrite HK in Hpl. apply prefix_app_inv in Hpl. apply prefix_snoc_lookup in Hpl as [_ Hx].
            rewrite take_length, Nat.min_l in Hx by lia. congruence. }
          assert (2 <= cnt B M) as H2; [|lia]. eapply (cnt_ge2 B M l k); [done..| |rewrite HK; by eexists].
          etrans; [|exact Hpl]. by eexists.
        - rewrite (take_S_r _ _ _ Hb), zeros_snoc in HR. lia. }
      cbn [take] in HR. rewrite zeros_cons in HR.
      assert (forall R', length R' = zeros (take n bits) -> range_siblings sha (map_to_list M) (B ++ [b]) bits R' =
        merge (take n bits) (lefts M (B ++ [b]) (take n bits)) R') as IH'.
      { intros R' HR'. apply IH; [lia|rewrite app_length; cbn [length]; lia|by rewrite <-app_assoc|done| |].
        - intros i Hi Hb. rewrite <-app_assoc. apply (Hdeep (S i)); [lia|done].
        - destruct Hstop as [?|[[Hb Hc]|Hb]]; [lia| |]; (destruct n as [|n]; [by left|right]); rewrite Nat.sub_succ, Nat.sub_0_r in *;
            cbn [lookup list_lookup take] in *.
          + left. split; [done|]. by rewrite <-app_assoc.
          + right. done. }
      assert (range_siblings sha (map_to_list M) B (b :: bits) R =
        if b then subtree_root sha (map_to_list M) (B ++ [false]) :: range_siblings sha (map_to_list M) (B ++ [true]) bits R
        else match R with [] => [] | s :: R' => s :: range_siblings sha (map_to_list M) (B ++ [false]) bits R' end) as ->.
      { cbn [range_siblings]. destruct R; [|by destruct b]. specialize (Hno eq_refl).
        destruct (filter _ _) as [|? [|]]; [by destruct b|done|by destruct b]. }
      cbn [take JmtRestoreVerifyProof.lefts merge]. destruct b.
      * rewrite subtree_root_hash, IH' by lia. done.
      * destruct R as [|s R]; cbn [length] in HR; [lia|]. rewrite IH' by lia. done.
Qed.

Lemma verify_parts st M k p vh right : Pend (rs_partial st) (rs_frozen st) (st_nodes (rs_store st)) M k p ->
  rs_prev st = Some (k, vh) -> M !! k = Some vh -> noph_left M (key_bits k) -> rs_verify sha st right = Ok tt ->
  exists sibs, sibs = range_siblings sha (map_to_list M) [] (key_bits k) (rev right) /\ length sibs <= 256 /\
    fold_top sha (sm_leaf k vh) sibs (key_bits k) = rs_root st /\
    (forall x, x ∈ sibs -> x ∈ right \/ exists C, x = hashP C M) /\
    (forall i, i < length sibs -> key_bits k !! i = Some true -> sibs !! i = Some (hashP (take i (key_bits k) ++ [false]) M)) /\
    (forall i, length sibs <= i -> key_bits k !! i = Some true -> cnt (take i (key_bits k) ++ [false]) M = 0).
Proof.
  intros HP Hprev Hk Hnl HV. pose proof HP as [Hw _ Hg _ _ _ _ _]. assert (length k = 32) as Hk32 by by eapply Hw.
  destruct (left_siblings_ok sha v M k _ _ _ p HP (key_bits k) 0) as [_ Els]; [done|]. specialize (Els Hnl).
  change (take 0 (key_bits k)) with (@nil bool) in Els.
  set (K := key_bits k) in *. assert (length K = 256) as HK by (unfold K; by rewrite key_bits_length, Hk32).
  unfold rs_verify in HV. rewrite Hprev, iter_bits_key in HV by done. fold K in HV. rewrite Els in HV. cbn [rbind] in HV.
  fold (zeros K) in HV. destruct (Nat.ltb_spec (zeros K) (length right)) as [|Hzr]; [done|].
  destruct (trim_ok sha M K (length right) 256) as (D & ED & D1 & D2 & D3 & D4 & D5); [lia|rewrite take_ge by lia; lia|].
  rewrite (take_ge K 256) in ED by lia. rewrite ED in HV. cbn [rbind] in HV. clear ED Els.
  unfold range_verify in HV. rewrite rev_length, lefts_length in HV.
  destruct (256 <? _); [done|]. cbn [fst snd] in HV. rewrite iter_bits_key in HV by done. fold K in HV.
  set (n := ones (take D K) + length right) in *.
  assert (n <= D) as HnD.
  { unfold n. pose proof (ones_zeros (take D K)) as Ho. rewrite take_length in Ho. lia. }
  rewrite (drop_rev_take K n 256) in HV by lia.
  destruct (range_fold _ _ _ _ _) as [h| | |] eqn:EF; cbn [rbind] in HV; try done. case_decide as Hh; [|done].
  pose proof (range_fold_inv _ _ _ _ _ _ EF) as [Ho Hz]. rewrite ones_rev, rev_length, lefts_length in Ho. rewrite zeros_rev in Hz.
  pose proof (ones_zeros (take n K)) as Hoz. rewrite take_length, Nat.min_l in Hoz by lia.
  assert (length right = zeros (take D K)) as HR.
  { destruct (decide (length right = zeros (take D K))) as [|Hne]; [done|exfalso].
    assert (n < D) as Hlt.
    { unfold n. pose proof (ones_zeros (take D K)) as Ho'. rewrite take_length in Ho'. lia. }
    destruct D5 as [?|[[Hb _]|[Hb Hc]]]; [lia| |lia].
    assert (take D K = take (D - 1) K ++ [true]) as Et.
    { rewrite <-(take_S_r _ _ _ Hb). f_equal. lia. }
    assert (ones (take D K) = ones (take (D - 1) K) + 1) as E1 by by rewrite Et, ones_snoc.
    pose proof (ones_take_mono K n (D - 1) ltac:(lia)). unfold n in *. lia. }
  assert (n = D) as EnD.
  { unfold n. rewrite HR, ones_zeros, take_length. lia. }
  rewrite EnD in *. clear n EnD Ho Hz Hoz HnD.
  assert (length (lefts M [] (take D K)) = ones (take D K)) as HL by apply lefts_length.
  rewrite range_fold_ok in EF; [|by rewrite rev_length, ones_rev|by rewrite zeros_rev].
  injection EF as EF. rewrite <-(rev_involutive right) in EF at 1.
  rewrite <-merge_rev in EF; [|done|by rewrite rev_length].
  set (sibs := merge (take D K) (lefts M [] (take D K)) (rev right)) in *.
  assert (length sibs = D) as HlS.
  { unfold sibs. rewrite merge_length; [rewrite take_length; lia|done|by rewrite rev_length]. }
  assert (forall i, D <= i -> K !! i = Some true -> cnt (take i K ++ [false]) M = 0) as Hdeep.
  { intros i Hi Hb. apply lookup_lt_Some in Hb as Hlt. apply (noph_iff sha (take i K ++ [false])); [by apply Hnl|done|].
    apply D3; [lia|done]. }
  exists sibs. split_and!.
  - symmetry. apply (range_siblings_eq M k vh); [done..|lia|cbn [length]; lia|done|by rewrite rev_length| |].
    + intros i Hi Hb. by apply Hdeep.
    + destruct D5 as [?|[[Hb Hc]|[Hb Hc]]]; [by left|right; left|right; by right]. split; [done|]. cbn [app].
      intros Hz. apply Hc. by apply hashB_empty.
  - lia.
  - rewrite <-Hh, <-EF. rewrite <-fold_siblings_top by lia. by rewrite HlS.
  - intros x Hx. apply merge_elem in Hx as [Hx|Hx]; [right; by eapply lefts_elem|left]. apply elem_of_list_In in Hx. apply elem_of_list_In. by apply in_rev.
  - intros i Hi Hb. unfold sibs. rewrite merge_lefts.
    + cbn [app]. do 3 f_equal. rewrite take_take. f_equal. lia.
    + by rewrite rev_length.
    + rewrite lookup_take by lia. done.
  - intros i Hi. apply Hdeep. lia.
Qed.

Lemma verify_sound st M M0 k p vh right : Pend (rs_partial st) (rs_frozen st) (st_nodes (rs_store st)) M k p ->
  rs_prev st = Some (k, vh) -> M !! k = Some vh -> wfm M0 -> rs_root st = hashP [] M0 ->
  Forall (fun s : bytes => length s = 32) right ->
  good_hash sha (proof_inputs sha (Some (k, vh)) (rev (range_siblings sha (map_to_list M) [] (key_bits k) (rev right))) k
    ++ inputs (@nil bool) M ++ inputs (@nil bool) M0) ->
  rs_verify sha st right = Ok tt ->
  forall l y, M !! l = Some y <-> M0 !! l = Some y /\ key_le l k.
Proof.
  intros HP Hprev Hk Hw0 Hroot Hr32 Hg HV. pose proof HP as [Hw _ Hgr _ _ _ _ _]. assert (length k = 32) as Hk32 by by eapply Hw.
  destruct Hg as (Hsha & Hinj & Hph).
  assert (noph [] M) as Hn.
  { apply noph_good; [done|]. rewrite !Forall_app in Hph. tauto. }
  destruct (verify_parts st M k p vh right HP Hprev Hk) as (sibs & Es & HlS & Hf & Hel & Hlow & Hdeep); [|done|].
  { intros i _ C _. apply Hn. apply prefix_nil. }
  rewrite <-Es in Hinj, Hph. rewrite Hroot in Hf. clear Es HV.
  set (K := key_bits k) in *. assert (length K = 256) as HK by (unfold K; by rewrite key_bits_length, Hk32).
  assert (Forall (fun s : bytes => length s = 32) sibs) as Hs32.
  { apply Forall_forall. intros x Hx. rewrite Forall_forall in Hr32. apply Hel in Hx as [?|[C ->]]; [by apply Hr32|].
    by apply hashP_length. }
  assert (forall x, x ∈ spec_leaf_input k vh :: top_inputs sha (leaf_hash_of sha (Some (k, vh))) sibs K <->
    x ∈ proof_inputs sha (Some (k, vh)) (rev sibs) k) as Hpi.
  { intros x. unfold proof_inputs. fold K. rewrite rev_length, !elem_of_cons.
    pose proof (fold_inputs_top sha sha (leaf_hash_of sha (Some (k, vh))) sibs K ltac:(lia)) as Hperm.
    rewrite <-Hperm. reflexivity. }
  assert (good_hash sha (leaf_inputs (Some (k, vh)) ++ top_inputs sha (leaf_hash_of sha (Some (k, vh))) sibs K ++ inputs (@nil bool) M0)) as Hgood.
  { cbn [leaf_inputs app]. rewrite Forall_forall in Hph. split_and!; [done|..].
    - intros x y Hx Hy. rewrite app_comm_cons in Hx, Hy. apply Hinj; rewrite !elem_of_app, <-Hpi; rewrite elem_of_app in Hx, Hy; tauto.
    - rewrite app_comm_cons. apply Forall_forall. intros x Hx. apply Hph. rewrite !elem_of_app, <-Hpi. rewrite elem_of_app in Hx. tauto. }
  pose proof (fold_sound sha sha M0 (Some (k, vh)) sibs Hw0 Hs32 Hk32 [] K ltac:(lia) ltac:(cbn [length]; lia) Hgood Hf) as Hat.
  unfold at_leaf in Hat. cbn [app] in Hat.
  assert (forall i s b, sibs !! i = Some s -> K !! i = Some b -> s = hashP ([] ++ take i K ++ [negb b]) M0) as Hsib.
  { apply (fold_siblings_sound M0 (Some (k, vh)) sibs Hw0 Hs32 [] K); [lia|cbn [length]; lia| |done].
    destruct Hgood as (_ & G2 & G3). split_and!; [done|..].
    - intros x y Hx Hy. apply G2; by right.
    - cbn [leaf_inputs app] in G3. by apply Forall_cons in G3 as [_ ?]. }
  assert (forall i, K !! i = Some true -> subm (take i K ++ [false]) M = subm (take i K ++ [false]) M0) as Hsub.
  { intros i Hi. destruct (decide (i < length sibs)) as [Hlt|Hge].
    - apply (hash_inj M M0 Hw Hw0 Hsha 256); [lia|..].
      + intros x y Hx Hy. apply Hinj; rewrite !elem_of_app; right.
        * apply elem_of_app in Hx as [Hx|Hx]; [left|right]; (eapply inputs_prefix; [done| |exact Hx]; apply prefix_nil).
        * apply elem_of_app in Hy as [Hy|Hy]; [left|right]; (eapply inputs_prefix; [done| |exact Hy]; apply prefix_nil).
      + rewrite Forall_forall in *. intros x Hx. apply Hph. rewrite !elem_of_app; right.
        apply elem_of_app in Hx as [Hx|Hx]; [left|right]; (eapply inputs_prefix; [done| |exact Hx]; apply prefix_nil).
      + specialize (Hlow i Hlt Hi). by rewrite (Hsib i _ true Hlow Hi).
    - pose proof (Hdeep i ltac:(lia) Hi) as H0. apply cnt_0 in H0. rewrite H0. symmetry. apply cnt_0.
      destruct (decide (cnt (take i K ++ [false]) M0 = 0)) as [|Hne]; [done|exfalso].
      destruct (cnt_pos_inv (take i K ++ [false]) M0) as (l & y & Hl & Hpl); [lia|].
      apply prefix_snoc_lookup in Hpl as [Hpl Hbit].
      assert (subm (take (length sibs) K) M0 !! l = Some y) as Hs.
      { apply subm_Some. split; [done|]. etrans; [|exact Hpl].
        replace (take (length sibs) K) with (take (length sibs) (take i K)) by (rewrite take_take; f_equal; lia).
        exists (drop (length sibs) (take i K)). by rewrite take_drop. }
      rewrite Hat in Hs. apply lookup_singleton_Some in Hs as [<- _]. fold K in Hbit.
      apply lookup_lt_Some in Hi as Hlt. rewrite take_length, Nat.min_l in Hbit by lia. congruence. }
  assert (M0 !! k = Some vh) as Hk0.
  { assert (subm (take (length sibs) K) M0 !! k = Some vh) as Hs by by rewrite Hat, lookup_singleton.
    by apply subm_Some in Hs as [? _]. }
  assert (forall l, bytes_lt l k -> length l = 32 -> M !! l = M0 !! l) as Hlt.
  { intros l Hlk Hl32. destruct (bits_lt l k Hl32 Hk32 Hlk) as (i & Hi & Hpi' & Hb). specialize (Hsub i Hb).
    apply option_eq. intros y. split; intros Hy.
    - assert (subm (take i K ++ [false]) M !! l = Some y) as Hs by by apply subm_Some. rewrite Hsub in Hs. by apply subm_Some in Hs as [? _].
    - assert (subm (take i K ++ [false]) M0 !! l = Some y) as Hs by by apply subm_Some. rewrite <-Hsub in Hs. by apply subm_Some in Hs as [? _]. }
  intros l y. split.
  - intros Hl. assert (length l = 32) as Hl32 by by eapply Hw. destruct (klt_total l k) as [Hx|[->|Hx]].
    + split; [by rewrite <-Hlt|by right].
    + split; [congruence|by left].
    + by apply (Hgr l y) in Hx.
  - intros [Hl [->|Hx]]; [congruence|]. assert (length l = 32) as Hl32 by by eapply Hw0. by rewrite Hlt.
Qed.
End Check.
