(** The serde form: round trip, nesting, and what a history does to views. *)
From Coq Require Import Strings.String Strings.Ascii.
From Verif Require Import Base PmtNibblesModel RlpModel PmtModel PmtRunSpec PmtNibblesProof RlpProof PmtSpec
  PmtEncProof PmtLookupProof PmtOpsProof PmtDeleteProof PmtCommitProof PmtRunProof PmtStepProof PmtPropProof
  PmtSerdeModel PmtSerdeSpec.

(** ** Round trip *)
Lemma hex_value_digit n : n < 16 -> hex_value (hex_digit n) = Some n.
Proof. intros H. do 16 (destruct n as [|n]; [reflexivity|]). lia. Qed.
Lemma hex_round l : Forall (fun x => x < 256) l -> hex_decode (hex_encode l) = Some l.
Proof.
  induction 1 as [|n l Hn _ IH]; [done|]. cbn [hex_encode hex_decode].
  rewrite (hex_value_digit (n / 16)) by (apply Nat.div_lt_upper_bound; lia).
  rewrite (hex_value_digit (n mod 16)) by (apply Nat.mod_upper_bound; lia).
  rewrite IH. do 2 f_equal. rewrite (Nat.div_mod n 16) at 3 by lia. lia.
Qed.
Lemma of_nat_bval b : Byte.of_nat (bval b) = Some b.
Proof. apply Byte.of_to_nat. Qed.
Lemma bval_lt b : bval b < 256.
Proof. unfold bval. pose proof (Byte.to_nat_bounded b). lia. Qed.
Lemma all_of_map {A B} (f : A -> option B) (g : B -> A) l :
  Forall (fun x => f (g x) = Some x) l -> all_of f (map g l) = Some l.
Proof. induction 1 as [|x l Hx _ IH]; [done|]. cbn. by rewrite Hx, IH. Qed.
Lemma hex_bytes_round b : de_hex_bytes (ser_hex_bytes b) = Some b.
Proof.
  unfold de_hex_bytes, ser_hex_bytes, de_hex, ser_hex. rewrite hex_round.
  - apply all_of_map, Forall_forall. intros x _. apply of_nat_bval.
  - apply Forall_forall. intros x Hx. apply elem_of_list_In, in_map_iff in Hx as (y & <- & _). apply bval_lt.
Qed.
Lemma bytes_round b : de_bytes (ser_bytes b) = Some b.
Proof. apply (all_of_map de_byte (fun x => JNum (bval x))), Forall_forall. intros x _. apply of_nat_bval. Qed.
Lemma h256_round h : length h = 32 -> de_h256 (ser_bytes h) = Some h.
Proof. intros H. unfold de_h256. by rewrite bytes_round, H. Qed.
Lemma opt_round (v : option bytes) :
  de_opt_bytes (match v with Some b => ser_bytes b | None => JNull end) = Some v.
Proof.
  destruct v as [b|]; [|done]. unfold de_opt_bytes.
  assert (de_bytes (ser_bytes b) = Some b) as E by apply bytes_round. unfold ser_bytes in *. by rewrite E.
Qed.
Lemma node_round n : typed n -> de_node (ser_node n) = Some n.
Proof.
  induction n as [|k v|p n IH|cs v IH|h] using node_ind'; intros Ht; inversion Ht; subst.
  - done.
  - cbn -[de_hex_bytes ser_hex_bytes]. by rewrite hex_bytes_round, hex_round.
  - cbn. by rewrite IH, hex_round.
  - assert (Hc : de_children de_node (JArr (map ser_node cs)) = Some cs).
    { cbn [de_children]. rewrite all_of_map.
      - by rewrite H1.
      - rewrite Forall_forall in *. auto. }
    pose proof (opt_round v) as Hv. set (j := match v with Some b => ser_bytes b | None => JNull end) in *.
    cbn -[de_children de_opt_bytes]. fold j. by rewrite Hc, Hv.
  - cbn -[de_h256 ser_bytes]. by rewrite h256_round.
Qed.
Lemma trie_round t : typed_trie t -> de_trie (ser_trie t) = Some (Trie (t_root t) (t_root_hash t) ∅ ∅ ∅).
Proof.
  intros [H1 H2]. unfold de_trie, ser_trie. cbn -[de_node ser_node de_h256 ser_bytes].
  by rewrite node_round, h256_round.
Qed.

(** ** Nesting of a committed trie *)
Lemma list_max_le_all {A} (f : A -> nat) l b : Forall (fun x => f x <= b) l -> list_max (map f l) <= b.
Proof. induction 1 as [|x l Hx _ IH]; [cbn; lia|]. change (Nat.max (f x) (list_max (map f l)) <= b). lia. Qed.
Lemma depth_bytes b : depth (ser_bytes b) = 1.
Proof.
  unfold ser_bytes. cbn [depth]. f_equal. induction b as [|x b IH]; [done|].
  change (Nat.max 0 (list_max (map depth (map (fun x => JNum (bval x)) b))) = 0). lia.
Qed.
Lemma depth_hash h : depth (ser_node (NHash h)) = 3.
Proof.
  cbn [ser_node]. pose proof (depth_bytes h) as E. set (j := ser_bytes h) in *. clearbody j.
  cbn. rewrite E. done.
Qed.
Lemma depth_ext p n : depth (ser_node (NExt p n)) = 2 + depth (ser_node n).
Proof. cbn. lia. Qed.
Lemma depth_branch cs v b : Forall (fun c => depth (ser_node c) <= b) cs -> depth (ser_node (NBranch cs v)) <= 3 + b.
Proof.
  intros H. cbn [ser_node].
  assert (H1 : depth (JArr (map ser_node cs)) <= 1 + b).
  { cbn [depth]. rewrite map_map. pose proof (list_max_le_all (fun c => depth (ser_node c)) cs b H). lia. }
  assert (H2 : depth (match v with Some b => ser_bytes b | None => JNull end) <= 1).
  { destruct v; [by rewrite depth_bytes|cbn; lia]. }
  set (j1 := JArr _) in *. set (j2 := match v with Some b => _ | None => _ end) in *. clearbody j1 j2.
  cbn. lia.
Qed.

Lemma rlp_list_sum items : length (concat items) < length (rlp_list items).
Proof.
  unfold rlp_list. rewrite app_length.
  assert (0 < length (rlp_header 192 (length (concat items)))); [|lia].
  unfold rlp_header. case_match; cbn [length]; lia.
Qed.
Lemma concat_len_ge (l : list bytes) x : x ∈ l -> Forall (fun y => 0 < length y) l ->
  length x + length l <= S (length (concat l)).
Proof.
  intros Hx Hl. revert Hx. induction Hl as [|y l Hy Hl IH]; intros Hx; [by apply elem_of_nil in Hx|].
  cbn [concat length]. rewrite app_length. apply elem_of_cons in Hx as [->|Hx].
  - clear IH. assert (length l <= length (concat l)); [|lia].
    induction Hl; cbn [concat length]; [lia|]. rewrite app_length. lia.
  - specialize (IH Hx). lia.
Qed.

Section hash.
  Context (keccak : bytes -> bytes) (Hk : forall x, length (keccak x) = 32).
  Notation enc := (enc keccak).
  Notation collapse := (collapse keccak).
  Notation ref := (ref keccak).
  Notation D n := (depth (ser_node n)).

  Lemma enc_pos c V L t : wf c V L t -> 0 < length (enc t).
  Proof using.
    inversion 1; subst; cbn [PmtSpec.enc]; [cbn; lia|..];
      (eapply Nat.le_lt_trans; [apply Nat.le_0_l|apply rlp_list_sum]).
  Qed.
  Lemma rlp_str_32 h : length h = 32 -> length (rlp_str h) = 33.
  Proof using.
    intros H. unfold rlp_str. do 2 (destruct h as [|? h]; [discriminate H|]). rewrite app_length, H. done.
  Qed.
  Lemma ref_cases e : (length e < 32 /\ ref e = e) \/ (32 <= length e /\ length (ref e) = 33).
  Proof using Hk.
    unfold PmtSpec.ref. destruct (Nat.ltb_spec (length e) 32); [by left|right]. by rewrite rlp_str_32.
  Qed.
  Lemma ref_pos c V L t : wf c V L t -> 0 < length (ref (enc t)).
  Proof using Hk. intros H. pose proof (enc_pos _ _ _ _ H). destruct (ref_cases (enc t)) as [[_ ->]|[_ ->]]; lia. Qed.
  Lemma branch_items c V L ts v x : wf c V L (NBranch ts v) -> x ∈ ts ->
    length (ref (enc x)) + 17 < length (enc (NBranch ts v)) + 1.
  Proof using Hk.
    intros H Hx. inversion H; subst. cbn [PmtSpec.enc].
    set (last := match v with Some v => rlp_str v | None => null_rlp end).
    assert (Hl : 0 < length last).
    { unfold last. destruct v as [b|]; [|cbn; lia]. unfold rlp_str, rlp_header.
      destruct b as [|b1 [|? ?]]; [cbn; lia| |]; repeat (case_match; cbn [length app]; try lia). }
    pose proof (rlp_list_sum (map (fun c => ref (enc c)) ts ++ [last])) as Hsum.
    pose proof (concat_len_ge (map (fun c => ref (enc c)) ts ++ [last]) (ref (enc x))) as Hge.
    rewrite app_length, map_length in Hge. cbn [length] in Hge.
    assert (length (ref (enc x)) + (length ts + 1) <= S (length (concat (map (fun c => ref (enc c)) ts ++ [last])))); [|lia].
    apply Hge.
    - apply elem_of_app. left. by apply elem_of_list_In, (in_map (fun c => ref (enc c))), elem_of_list_In.
    - apply Forall_app. split; [|by repeat constructor]. apply Forall_forall. intros y Hy.
      apply elem_of_list_In, in_map_iff in Hy as (z & <- & Hz). apply elem_of_list_In in Hz.
      rewrite Forall_forall in H3. eapply ref_pos, H3, Hz.
  Qed.
  Lemma branch_len c V L ts v : wf c V L (NBranch ts v) -> 17 < length (enc (NBranch ts v)).
  Proof using Hk.
    intros H. inversion H; subst. destruct ts as [|x ts]; [discriminate|].
    pose proof (branch_items c V (S L0) (x :: ts) v x H ltac:(left)) as Hb.
    assert (0 < length (ref (enc x))) by (inversion H3; subst; eapply ref_pos; eauto). lia.
  Qed.
  Lemma ext_len p s : length (ref (enc s)) < length (enc (NExt p s)).
  Proof using Hk. cbn [PmtSpec.enc].
    set (a := rlp_str (hp p)). set (b := ref (enc s)). pose proof (rlp_list_sum [a; b]) as H.
    cbn [concat] in H. rewrite !app_length in H. lia.
  Qed.
  Lemma tiny_depth c V L t : wf c V L t -> length (enc t) < 16 -> D (collapse t) <= 2.
  Proof using Hk.
    intros Hw Hl. inversion Hw; subst.
    - cbn. lia.
    - cbn. lia.
    - destruct s as [| | |ts v|]; try done. pose proof (ext_len p (NBranch ts v)) as He.
      pose proof (branch_len _ _ _ _ _ H2) as Hb. destruct (ref_cases (enc (NBranch ts v))) as [[_ E]|[_ E]]; rewrite E in He; lia.
    - pose proof (branch_len _ _ _ _ _ Hw). lia.
  Qed.
  Lemma branch_depth c V L ts v : wf c V L (NBranch ts v) -> length (enc (NBranch ts v)) < 32 ->
    D (collapse (NBranch ts v)) <= 5.
  Proof using Hk.
    intros Hw Hl. cbn [PmtSpec.collapse]. apply (depth_branch _ _ 2). apply Forall_forall. intros y Hy.
    apply elem_of_list_In, in_map_iff in Hy as (x & <- & Hx). apply elem_of_list_In in Hx.
    pose proof (branch_items _ _ _ _ _ x Hw Hx) as Hb.
    destruct (ref_cases (enc x)) as [[Hs E]|[_ E]]; rewrite E in Hb; [|lia].
    apply Nat.ltb_lt in Hs. rewrite Hs. inversion Hw; subst. rewrite Forall_forall in H2.
    eapply tiny_depth; [by eapply H2|lia].
  Qed.
  Lemma short_depth c V L t : wf c V L t -> length (enc t) < 32 -> D (collapse t) <= 7.
  Proof using Hk.
    intros Hw Hl. inversion Hw; subst.
    - cbn. lia.
    - cbn. lia.
    - destruct s as [| | |ts v|]; try done. pose proof (ext_len p (NBranch ts v)) as He.
      destruct (ref_cases (enc (NBranch ts v))) as [[Hs E]|[_ E]]; rewrite E in He; [|lia].
      change (collapse (NExt p (NBranch ts v))) with
        (NExt p (if length (enc (NBranch ts v)) <? 32 then collapse (NBranch ts v) else NHash (keccak (enc (NBranch ts v))))).
      rewrite depth_ext. pose proof (branch_depth _ _ _ _ _ H2 Hs) as Hd. apply Nat.ltb_lt in Hs. rewrite Hs. lia.
    - pose proof (branch_depth _ _ _ _ _ Hw Hl). lia.
  Qed.
  Lemma cref_depth c V L t : wf c V L t ->
    D (if length (enc t) <? 32 then collapse t else NHash (keccak (enc t))) <= 7.
  Proof using Hk.
    intros Hw. destruct (Nat.ltb_spec (length (enc t)) 32); [by eapply short_depth|]. rewrite depth_hash. lia.
  Qed.
  Lemma collapse_depth c V L t : wf c V L t -> D (collapse t) <= 10.
  Proof using Hk.
    intros Hw. inversion Hw; subst.
    - cbn. lia.
    - cbn. lia.
    - change (collapse (NExt p s)) with (NExt p (if length (enc s) <? 32 then collapse s else NHash (keccak (enc s)))).
      rewrite depth_ext. pose proof (cref_depth _ _ _ _ H2). lia.
    - change (collapse (NBranch ts v)) with
        (NBranch (map (fun s => if length (enc s) <? 32 then collapse s else NHash (keccak (enc s))) ts) v).
      apply (depth_branch _ _ 7), Forall_forall. intros y Hy.
      apply elem_of_list_In, in_map_iff in Hy as (x & <- & Hx). apply elem_of_list_In in Hx.
      rewrite Forall_forall in H0. by eapply cref_depth, H0.
  Qed.
  Lemma trie_depth t h : depth (ser_trie (Trie t h ∅ ∅ ∅)) = 1 + Nat.max (D t) 1.
  Proof using keccak Hk.
    unfold ser_trie. cbn [t_root t_root_hash]. pose proof (depth_bytes h) as E.
    set (j := ser_bytes h) in *. set (j' := ser_node t). clearbody j j'. cbn. rewrite E. lia.
  Qed.

  (** ** Views of a history *)
  Notation repr := (repr keccak).
  Lemma repr_typed C d n t : repr C d n t -> forall c V L, wf c V L t -> typed n.
  Proof using Hk.
    revert t. induction n as [|k v|p n IH|cs v IH|h] using node_ind'; intros t Hr; inversion Hr; subst; intros c V L Hw.
    - constructor.
    - constructor. inversion Hw; subst. apply Forall_app. split; [|repeat constructor; lia].
      eapply Forall_impl; [eassumption|]. cbn. lia.
    - inversion Hw; subst. constructor; [|by eapply IH]. eapply Forall_impl; [eassumption|]. cbn. lia.
    - inversion Hw; subst. match goal with H : Forall2 _ cs ts |- _ => rename H into HF end. match goal with H : length ts = 16 |- _ => rename H into Hlen end.
      match goal with H : Forall (wf _ _ _) ts |- _ => rename H into Hws end.
      constructor; [by rewrite (Forall2_length _ _ _ HF)|]. apply Forall_forall. intros x Hx.
      apply elem_of_list_lookup in Hx as [i Hi]. destruct (Forall2_lookup_l _ _ _ _ _ HF Hi) as (y & Hy & Hxy).
      rewrite Forall_forall in IH, Hws. eapply IH; [by eapply elem_of_list_lookup_2|exact Hxy|].
      by eapply Hws, elem_of_list_lookup_2.
    - constructor. apply Hk.
  Qed.
  Lemma view_typed c d T v m : view_ok keccak c d T v m -> typed (t_root v).
  Proof using Hk.
    intros (t & [Hr|(-> & _)] & Hw & _); [by eapply repr_typed|]. constructor. apply Hk.
  Qed.

  Lemma insert_hash f d t k x : t_root_hash (insert f d t k x).1 = t_root_hash t.
  Proof using. unfold insert. destruct x; [done|]. destruct (insert_at _ _ _ _ _ _ _ _) as [pk r].
    by destruct (with_key k r).
  Qed.
  Lemma remove_hash f d t k : t_root_hash (remove f d t k).1 = t_root_hash t.
  Proof using. unfold remove. destruct (delete_at _ _ _ _ _ _ _) as [pk r].
    by destruct (with_key k r) as [[? []]| | |].
  Qed.
  Lemma get_proof_hash f d t k : t_root_hash (get_proof keccak f d t k).1 = t_root_hash t.
  Proof using.
    unfold get_proof. destruct (with_key k _); try done. by destruct (encode_all _ _ _) as [[cache gen] r].
  Qed.
  Definition hashes32 (w : world) : Prop := Forall (fun v => length (t_root_hash v) = 32) (w_views w).
  Lemma step_hashes c x w s o : inv keccak c w s -> 
    inj_on keccak (w_trace (step keccak x w o).2) -> hashes32 w ->
    hashes32 (step keccak x w o).2 /\
    (w_roots (step keccak x w o).2 = [] -> w_roots w = [] /\ w_db (step keccak x w o).2 = w_db w).
  Proof using Hk.
    intros [Hl Hd Hv Hr] Hi Hh. unfold hashes32 in *. destruct o as [i a|j]; cbn [step] in *.
    - destruct (w_views w !! i) as [v|] eqn:Ev; [|by split].
      assert (Hlen : length (t_root_hash v) = 32).
      { rewrite Forall_forall in Hh. by eapply Hh, elem_of_list_lookup_2. }
      destruct a as [k val|k|k|k| |k]; cbn [act] in *.
      + pose proof (insert_hash (fuel_for x k) (w_db w) v k val) as E. destruct (insert _ _ _ _ _) as [v' r]. cbn in *.
        split; [|done]. apply Forall_insert; [done|congruence].
      + pose proof (remove_hash (fuel_for x k) (w_db w) v k) as E. destruct (remove _ _ _ _) as [v' r]. cbn in *.
        split; [|done]. apply Forall_insert; [done|congruence].
      + by split.
      + by split.
      + destruct (Forall2_lookup_l _ _ _ _ _ Hv Ev) as (m & Em & Hvm).
        destruct (commit_ok keccak Hk c (w_db w) (w_trace w) v m Hl Hd Hvm)
          as (d' & v' & r & E & _ & _ & _ & _ & _ & (t & -> & -> & _)).
        { destruct (commit _ _ _) as [[??]?]. exact Hi. }
        rewrite E. cbn. split; [|done]. apply Forall_insert; [done|]. apply Hk.
      + pose proof (get_proof_hash (fuel_for x k) (w_db w) v k) as E. destruct (get_proof _ _ _ _ _) as [v' r]. cbn in *.
        split; [|done]. apply Forall_insert; [done|congruence].
    - destruct (w_roots w !! j) as [r|] eqn:Er; [|by split].
      cbn. split; [|done]. apply Forall_app. split; [done|]. constructor; [|constructor]. cbn.
      destruct (Forall2_lookup_l _ _ _ _ _ Hr Er) as (m & Em & t & -> & _). apply Hk.
  Qed.
  Lemma run_hashes c x w s ops : inv keccak c w s -> Forall op_short ops -> (c = true -> tame s ops) ->
    inj_on keccak (w_trace (run keccak x w ops).2) -> hashes32 w ->
    hashes32 (run keccak x w ops).2 /\
    (w_roots (run keccak x w ops).2 = [] -> w_roots w = [] /\ w_db (run keccak x w ops).2 = w_db w).
  Proof using Hk.
    revert w s. induction ops as [|o ops IH]; intros w s Hinv Hs Ht Hi Hh; [done|].
    inversion Hs; subst. cbn [run] in *.
    pose proof (step_inv keccak Hk c x w s o Hinv) as Hst. pose proof (step_hashes c x w s o Hinv) as Hsh.
    destruct (step keccak x w o) as [r w1] eqn:E1.
    pose proof (run_trace keccak x w1 ops) as Hpre.
    assert (Hi1 : inj_on keccak (w_trace w1)).
    { destruct (run keccak x w1 ops) as [rs w2] eqn:E2. cbn in Hi, Hpre |- *.
      eapply inj_on_sub; [|exact Hi]. intros e He. destruct Hpre as [z ->]. apply elem_of_app. by left. }
    destruct (Hst ltac:(done)) as [Hinv1 _]; [intros Hc; by apply Ht|done|].
    destruct (Hsh ltac:(done) ltac:(done)) as [Hh1 Hr1]. cbn in Hinv1, Hh1, Hr1. specialize (IH w1 (sstep s o) Hinv1).
    destruct (run keccak x w1 ops) as [rs w2] eqn:E2.
    destruct IH as [IH1 IH2]; [done| |done|done|].
    - intros Hc. by apply Ht.
    - cbn in *. split; [done|]. intros E. destruct (IH2 E) as [E' ->]. by apply Hr1.
  Qed.
  Lemma reaches_views x ops w s : reaches keccak x ops w s ->
    Forall typed_trie (w_views w) /\ (w_roots w = [] -> w_db w = db_new false).
  Proof using Hk.
    intros Hr. pose proof (reaches_inv keccak Hk false _ _ _ _ Hr ltac:(done)) as Hinv.
    destruct Hr as (<- & <- & Hs & Hi).
    destruct (run_hashes false x (world0 keccak) spec0 ops) as [H1 H2]; try done.
    { apply inv0. } { constructor; [apply Hk|constructor]. }
    split; [|by intros E; destruct (H2 E)].
    apply Forall_forall. intros v Hv. unfold hashes32 in H1. rewrite Forall_forall in H1. split; [|by apply H1].
    apply elem_of_list_lookup in Hv as [i Hv]. destruct (world_spec _ _ _ _ _ _ Hinv Hv) as [m Hm].
    eapply view_typed, inv_view; eauto.
  Qed.
End hash.

(** ** What is accepted *)
Lemma list_max_in {A} (f : A -> nat) l x : x ∈ l -> f x <= list_max (map f l).
Proof.
  induction 1 as [x l|x y l _ IH].
  - change (f x <= Nat.max (f x) (list_max (map f l))). lia.
  - change (f x <= Nat.max (f y) (list_max (map f l))). lia.
Qed.
Lemma all_of_Forall {A B} (f : A -> option B) (Q : B -> Prop) l ys :
  Forall (fun x => forall y, f x = Some y -> Q y) l -> all_of f l = Some ys -> Forall Q ys.
Proof.
  intros H. revert ys. induction H as [|x l Hx _ IH]; intros ys E; cbn in E; [by injection E as <-|].
  destruct (f x) as [y|] eqn:Ef; [|done].
  destruct (all_of f l) as [zs|]; [|done]. injection E as <-. constructor; auto.
Qed.
Lemma field_some {A} name (f : json -> option A) l a : field name f l = Some (Some a) ->
  exists j, (name, j) ∈ l /\ f j = Some a.
Proof.
  induction l as [|[n j] l IH]; intros E; [done|]. cbn in E.
  destruct (String.eqb_spec n name) as [->|Hn].
  - destruct (f j) as [b|] eqn:Ef; [|done]. destruct (field name f l) as [[]|]; try done.
    injection E as <-. exists j. split; [left|done].
  - destruct (IH E) as (j' & Hin & Hf). exists j'. split; [by right|done].
Qed.
(** A struct is built from parts of the document. *)
Lemma struct2_parts {A B} n1 (f : json -> option A) n2 (g : json -> option B) o j a b
    (P : json -> Prop) : struct2 n1 f n2 g o j = Some (a, b) ->
  match j with JArr l => Forall P l | JObj l => Forall (fun e => P e.2) l | _ => True end ->
  (exists x, P x /\ f x = Some a) /\ ((exists y, P y /\ g y = Some b) \/ o = Some b).
Proof.
  intros E HP. destruct j as [| | |l|l|]; try done.
  - destruct l as [|x [|y [|? ?]]]; try done. cbn in E.
    destruct (f x) as [a'|] eqn:E1; [|done]. destruct (g y) as [b'|] eqn:E2; [|done]. injection E as <- <-.
    inversion HP as [|? ? Hx HP']; subst. inversion HP'; subst. split; [by exists x|left; by exists y].
  - cbn [struct2] in E. rewrite Forall_forall in HP.
    destruct (field n1 f l) as [[a'|]|] eqn:E1; [|done..].
    destruct (field_some _ _ _ _ E1) as (x & Hx & Ex). apply HP in Hx. cbn in Hx.
    destruct (field n2 g l) as [[b'|]|] eqn:E2; [| |done].
    + injection E as <- <-. destruct (field_some _ _ _ _ E2) as (y & Hy & Ey). apply HP in Hy. cbn in Hy.
      split; [by exists x|left; by exists y].
    + destruct o as [b'|]; [|done]. injection E as <- <-. split; [by exists x|by right].
Qed.
Lemma hex_value_lt c n : hex_value c = Some n -> n < 16.
Proof.
  unfold hex_value. intros H. destruct (_ && _) eqn:E1; [injection H as <-; apply andb_prop in E1 as [? ?]; lia|].
  destruct ((97 <=? _) && _) eqn:E2; [injection H as <-; apply andb_prop in E2 as [? ?]; lia|].
  destruct ((65 <=? _) && _) eqn:E3; [injection H as <-; apply andb_prop in E3 as [? ?]; lia|done].
Qed.
Lemma hex_decode_lt s : forall l, hex_decode s = Some l -> Forall (fun x => x < 256) l.
Proof.
  assert (H : forall n s, String.length s <= n -> forall l, hex_decode s = Some l -> Forall (fun x => x < 256) l).
  { induction n as [|n IH]; intros s' Hn l E; destruct s' as [|a [|b s']]; cbn in Hn, E; try done; try lia;
      try (injection E as <-; constructor).
    destruct (hex_value a) as [x|] eqn:Ea; [|done]. destruct (hex_value b) as [y|] eqn:Eb; [|done].
    destruct (hex_decode s') as [l'|] eqn:El; [|done]. injection E as <-.
    apply hex_value_lt in Ea, Eb. constructor; [lia|]. eapply IH; [|exact El]. lia. }
  by eapply H.
Qed.
Lemma de_hex_lt j l : de_hex j = Some l -> Forall (fun x => x < 256) l.
Proof. destruct j; try done. apply hex_decode_lt. Qed.
Lemma de_h256_len j h : de_h256 j = Some h -> length h = 32.
Proof.
  unfold de_h256. destruct (de_bytes j) as [b|]; [|done]. destruct (Nat.eqb_spec (length b) 32); [|done]. by intros [= <-].
Qed.

Lemma parts_depth j n : depth j <= n ->
  match j with
  | JArr l => Forall (fun x => depth x < n) l
  | JObj l => Forall (fun e : string * json => depth e.2 < n) l
  | _ => True
  end.
Proof.
  destruct j as [| | |l|l|]; try done; cbn [depth]; intros H; apply Forall_forall; intros x Hx.
  - pose proof (list_max_in depth l x Hx). lia.
  - pose proof (list_max_in (fun e : string * json => depth e.2) l x Hx). cbn in *. lia.
Qed.
Lemma struct1_part {A} n1 (f : json -> option A) j a : struct1 n1 f j = Some a -> exists x, f x = Some a.
Proof.
  destruct j as [| | |l|l|]; try done; cbn [struct1].
  - destruct l as [|x [|? ?]]; try done. eauto.
  - destruct (field n1 f l) as [[b|]|] eqn:E; try done. intros [= <-]. destruct (field_some _ _ _ _ E) as (x & _ & Hx). eauto.
Qed.
Lemma de_node_typed j n : de_node j = Some n -> typed n.
Proof.
  assert (H : forall b j n, depth j < b -> de_node j = Some n -> typed n); [|apply (H (S (depth j))); lia].
  clear. induction b as [|b IH]; intros j n Hb E; [lia|].
  destruct j as [| |s|l|l|]; try done.
  - cbn in E. destruct (String.eqb s "Empty"); [|done]. injection E as <-. constructor.
  - destruct l as [|[tag body] [|? ?]]; try done. cbn [de_node] in E.
    assert (Hd : depth body < b) by (cbn in Hb; lia).
    pose proof (parts_depth body b ltac:(lia)) as Hp.
    destruct (String.eqb tag "Empty"); [destruct body; try done; injection E as <-; constructor|].
    destruct (String.eqb tag "Leaf").
    { destruct (struct2 _ _ _ _ _ _) as [[k v]|] eqn:Es; [|done]. injection E as <-.
      destruct (struct2_parts _ _ _ _ _ _ _ _ _ Es Hp) as [(x & _ & Hx) _]. constructor. by eapply de_hex_lt. }
    destruct (String.eqb tag "Extension").
    { destruct (struct2 _ _ _ _ _ _) as [[k v]|] eqn:Es; [|done]. injection E as <-.
      destruct (struct2_parts _ _ _ _ _ _ _ _ _ Es Hp) as [(x & _ & Hx) [(y & Hy & Ey)|]]; [|done].
      constructor; [by eapply de_hex_lt|by eapply IH]. }
    destruct (String.eqb tag "Branch").
    { destruct (struct2 _ _ _ _ _ _) as [[k v]|] eqn:Es; [|done]. injection E as <-.
      destruct (struct2_parts _ _ _ _ _ _ _ _ _ Es Hp) as [(x & Hx & Ex) _].
      destruct x as [| | |l|l|]; try done. cbn [de_children] in Ex.
      destruct (all_of de_node l) as [cs|] eqn:Ea; [|done]. destruct (Nat.eqb_spec (length cs) 16); [|done].
      injection Ex as <-. constructor; [done|]. eapply all_of_Forall; [|exact Ea].
      pose proof (parts_depth (JArr l) b ltac:(lia)) as Hpl. cbn beta iota in Hpl.
      eapply Forall_impl; [exact Hpl|]. cbn beta. intros y Hy z Ez. by eapply IH. }
    destruct (String.eqb tag "Hash"); [|done].
    destruct (struct1 _ _ _) as [h|] eqn:Es; [|done]. injection E as <-.
    destruct (struct1_part _ _ _ _ Es) as (x & Hx). constructor. by eapply de_h256_len.
Qed.
Lemma accepted_typed j t : from_json j = Some t -> typed_trie t /\ de_trie (ser_trie t) = Some t.
Proof.
  unfold from_json. destruct (depth j <? 128); [|done]. unfold de_trie at 1.
  destruct (struct2 _ _ _ _ _ _) as [[n h]|] eqn:Es; [|done]. intros [= <-].
  destruct (struct2_parts _ _ _ _ _ _ _ _ (fun _ => True) Es) as [(x & _ & Hx) [(y & _ & Hy)|]]; [|..|done].
  { destruct j; try done; apply Forall_forall; done. }
  assert (H : typed_trie (Trie n h ∅ ∅ ∅)) by (split; [by eapply de_node_typed|by eapply de_h256_len]).
  split; [done|]. by rewrite trie_round.
Qed.
