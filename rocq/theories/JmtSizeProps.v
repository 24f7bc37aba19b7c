(** The sizes of byte forms (C105). *)
From Verif Require Import Base KeccakModel Sha256Model JmtNibModel JmtNibProof JmtNibMoreProof JmtNibRangeProof JmtSpec JmtTraceSpec JmtModel JmtHashProof
  JmtAbsProof JmtCacheProof JmtInsertProof JmtPutProof JmtHistProof JmtRunSpec JmtValueProof JmtRunProof JmtReadProof
  JmtProofProof JmtMoreProof JmtPropProof PmtExamples JmtExamples JmtNibProps JmtProps JmtChildrenModel JmtBorshModel JmtBorshSpec JmtBorshProof JmtBorshProps.
Local Open Scope nat_scope.

Lemma enc_le_length n : forall x, length (enc_le n x) = n.
Proof. induction n as [|n IH]; intros x; [done|]. cbn [enc_le length]. by rewrite IH. Qed.
Lemma flat_map_32 l : Forall hash32 l -> length (flat_map enc_32 l) = 32 * length l.
Proof.
  induction 1 as [|b l Hb _ IH]; [done|]. cbn [flat_map length]. rewrite app_length, IH. unfold enc_32. rewrite Hb. lia.
Qed.
Lemma flat_map_bytes (l : bytes) : length (flat_map enc_byte l) = length l.
Proof. induction l as [|b l IH]; [done|]. cbn [flat_map enc_byte app length]. by rewrite IH. Qed.
Lemma child_length c : fits_child c -> 41 <= length (enc_child c) <= 49.
Proof.
  intros (Hh & _ & _). unfold enc_child, enc_32, enc_u64. rewrite !app_length, enc_le_length, Hh.
  destruct (c_type c); cbn [enc_ntype]; unfold enc_u8, enc_u64; rewrite ?app_length, !enc_le_length; lia.
Qed.
(** A slot takes one byte, and from 41 to 49 more for the child in it. *)
Lemma slots_length l : Forall (opt fits_child) l ->
  length l + 41 * length (omap id l) <= length (flat_map (enc_option enc_child) l) <= length l + 49 * length (omap id l).
Proof.
  induction 1 as [|o l Ho _ IH]; [cbn; lia|]. cbn [flat_map length]. rewrite app_length. destruct o as [c|]; cbn [enc_option omap list_omap id].
  - pose proof (child_length c Ho). unfold enc_u8. rewrite app_length, enc_le_length. cbn [length]. fold (omap (M:=list) (@id (option child)) l).
    change (list_omap _ _ id l) with (omap id l). lia.
  - unfold enc_u8. rewrite enc_le_length. change (list_omap _ _ id l) with (omap id l). lia.
Qed.

(** Whatever bytes are accepted as a key, a node, a proof or a range proof, their
    number is known from what was read: a key has 20 and its path; a leaf 65;
    an internal node at least 27 and at most 819, from 41 to 49 for each child; a
    proof 5, 64 for a leaf and 32 for each sibling. *)
Theorem C105_accepted_sizes :
  (forall bs v p, whole dec_key bs = Some (v, p) -> length bs = 20 + length (np_bytes p)) /\
  (forall bs n, whole dec_node bs = Some n ->
     match n with
     | BNull => length bs = 1
     | BLeaf _ _ => length bs = 65
     | BInternal n =>
         let c := length (ca_values (bi_children n)) in
         let e := match bi_count n with Some _ => 8 | None => 0 end in
         27 + e + 41 * c <= length bs <= 27 + e + 49 * c /\ length bs <= 819
     end) /\
  (forall bs p, whole dec_proof bs = Some p ->
     length bs = 5 + match p_leaf p with Some _ => 64 | None => 0 end + 32 * length (p_siblings p)) /\
  (forall bs r, whole dec_range bs = Some r -> length bs = 4 + 32 * length r).
Proof.
  destruct C85_borsh_exact as ((_ & Hkey & _) & (_ & Hnode & _) & (_ & Hproof & _) & (_ & Hrange & _) & _).
  split_and!.
  - intros bs v p H. apply Hkey in H as [_ ->]. unfold enc_key, enc_path, enc_usize, enc_vec, enc_u64, enc_u32. cbn [fst snd].
    rewrite !app_length, !enc_le_length, flat_map_bytes. lia.
  - intros bs n H. apply Hnode in H as [Hf ->]. destruct n as [|n|k vh]; cbn [enc_node].
    + apply enc_le_length.
    + destruct Hf as [(H16 & Hsl & _) _]. pose proof (slots_length _ Hsl) as Hl.
      assert (length (omap id (ca_slots (bi_children n))) <= 16) as Hc.
      { rewrite <- H16. generalize (ca_slots (bi_children n)). clear. intros l. induction l as [|[c|] l IH]; cbn; [lia|lia|].
        etrans; [exact IH|lia]. }
      unfold enc_inode, enc_children, enc_usize, enc_bool, enc_u8, enc_u64. cbv zeta. unfold ca_values.
      rewrite !app_length, !enc_le_length. rewrite H16 in Hl.
      destruct (bi_count n); cbn [enc_option]; unfold enc_u8; rewrite ?app_length, !enc_le_length; lia.
    + destruct Hf as [H1 H2]. unfold enc_u8, enc_32. rewrite !app_length, enc_le_length, H1, H2. lia.
  - intros bs p H. apply Hproof in H as [(Hl & _ & Hs) ->]. unfold enc_proof, enc_vec, enc_u32. rewrite !app_length, enc_le_length, flat_map_32 by done.
    destruct (p_leaf p) as [[a b]|]; cbn [enc_option]; unfold enc_u8.
    + destruct Hl as [H1 H2]. unfold enc_pair32, enc_32. cbn [fst snd] in *. rewrite !app_length, enc_le_length, H1, H2. lia.
    + rewrite enc_le_length. lia.
  - intros bs r H. apply Hrange in H as [[_ Hs] ->]. unfold enc_range, enc_vec, enc_u32. rewrite app_length, enc_le_length, flat_map_32 by done. lia.
Qed.
(** The proofs a tree makes have at most 256 siblings, so at most 8261 bytes, and
    are read back. *)
Theorem C105_proof_size sha hv ops s v k : reached sha hv ops s -> (low ops <= v < versions ops)%N -> length k = 32 ->
  (forall x, length (sha x) = 32) -> (forall x, length (hv x) = 32) ->
  exists x p, get_with_proof sha s k v = Ok (x, p) /\ whole dec_proof (enc_proof p) = Some p /\
    length (enc_proof p) <= 69 + 32 * 256.
Proof.
  intros HR Hv Hk Hsha Hhv. pose proof (reached_inv _ _ _ _ HR) as HS. set (m := contents_at (history ops) v).
  assert (forall k x, m !! k = Some x -> length k = 32) as Hm.
  { intros k' x'. apply contents_wf. apply (si_wf _ _ _ _ _ HS). }
  eexists _, (made_proof sha hv k m). split; [apply (read_ok sha hv s _ _ k v HS Hv Hk)|].
  destruct C85_borsh_exact as (_ & _ & (H1 & _) & _).
  assert (fits_proof (made_proof sha hv k m)) as Hf.
  { pose proof (wfm_hvm hv m Hm) as Hw.
    destruct (bpath_fits sha (hvm hv m) Hsha Hw) with (rest := key_bits k) (B := @nil bool) as [Hf1 Hf2].
    { intros k' vh Hk'. unfold hvm in Hk'. apply lookup_fmap_Some in Hk' as (y & <- & _). apply Hhv. }
    pose proof (bpath_len sha (hvm hv m) [] (key_bits k)) as Hlen. rewrite key_bits_length, Hk in Hlen.
    unfold fits_proof, made_proof, proof_of. destruct (bpath _ _ _ _) as [l sb]. cbn [fst snd p_leaf p_siblings] in *.
    split; [exact Hf1|]. split; [unfold short; rewrite rev_length; lia|]. by apply Forall_rev. }
  pose proof (H1 _ Hf) as Hp. split; [exact Hp|]. destruct C105_accepted_sizes as (_ & _ & Hsz & _). rewrite (Hsz _ _ Hp).
  pose proof (made_proof_len sha hv m k Hk). destruct (p_leaf _); lia.
Qed.
(** A leaf, the internal node and the proof of other examples. *)
Example C105_example : reached sha256 sha256 ex_ops ex_store /\ (low ex_ops <= 1 < versions ex_ops)%N /\
  whole dec_proof bx_bytes = Some (ex_proof ka) /\ length (p_siblings (ex_proof ka)) = 16 /\ p_leaf (ex_proof ka) <> None /\
  length bx_bytes = 5 + 64 + 32 * 16 /\
  (exists n, whole dec_node (enc_node (BInternal n)) = Some (BInternal n) /\ length (ca_values (bi_children n)) = 2 /\
     length (enc_node (BInternal n)) = 27 + 8 + 41 + 49).
Proof.
  split; [exact ex_reached|]. split; [vm_compute; split; [intros [=]|reflexivity]|]. split; [vm_compute; reflexivity|].
  split; [vm_compute; reflexivity|]. split; [vm_compute; intros [=]|]. split; [vm_compute; reflexivity|].
  exists (BInode (Carr (Some (Child (replicate 32 x00) 3 TLeaf) :: Some (Child (replicate 32 x01) 4 (TInternal 7)) :: replicate 14 None) 2) (Some 8%N) true).
  split; [vm_compute; reflexivity|]. split; vm_compute; reflexivity.
Qed.
Print Assumptions C105_accepted_sizes.
Print Assumptions C105_proof_size.
