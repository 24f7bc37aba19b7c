(** A concrete execution with the real hash, used as the non-trivial case
    beside the theorems about the Jellyfish Merkle tree, and the vectors of
    /repo/jmt/src/tests/sha2_256_vectors.json. *)
From Verif Require Import Base KeccakModel Sha256Model JmtSpec JmtTraceSpec JmtModel JmtRunSpec.
Local Open Scope N_scope.

Definition mk (a b : N) : bytes := hexs [a; b] ++ replicate 30 x00.
Definition ka : bytes := mk 0x12 0x34.
Definition kb : bytes := mk 0x12 0x35.
Definition kc : bytes := mk 0x90 0.
Definition kd : bytes := mk 0x12 0x80.
Definition va : bytes := hexs [1; 2; 3].
Definition vb : bytes := hexs [4].
Definition vc : bytes := [].

(** Two keys sharing three nibbles and one apart; an update, a deletion, a
    deletion of an absent key; an empty set; a deletion that collapses the
    shared path and a key written twice; pruning; a call with two sets. *)
Definition ex_ops : list op :=
  [OpPut [[(ka, Some va); (kb, Some vb); (kc, Some vc)]];
   OpPut [[(ka, Some vb); (kc, None); (kd, None)]; []];
   OpPurge 1;
   OpPut [[(kb, None); (kd, Some va); (kd, Some vb)]; [(kc, Some va); (kb, Some va)]]].
Definition ex_store : store :=
  match run sha256 sha256 ex_ops with Ok s => s | _ => empty_store end.

Lemma wf_setsb (l : list (list write)) :
  forallb (fun ws => forallb (fun w : write => Nat.eqb (length (fst w)) 32) ws) l = true -> wf_sets l.
Proof.
  intros H. apply Forall_forall. intros ws Hws%elem_of_list_In. rewrite forallb_forall in H. specialize (H _ Hws).
  apply Forall_forall. intros w Hw%elem_of_list_In. rewrite forallb_forall in H. by apply Nat.eqb_eq, H.
Qed.
Lemma ex_wf : wf_ops ex_ops.
Proof. split; [apply wf_setsb; vm_compute; reflexivity|vm_compute; discriminate]. Qed.
Lemma ex_reached : reached sha256 sha256 ex_ops ex_store.
Proof.
  split; [exact ex_wf|].
  assert (H : (match run sha256 sha256 ex_ops with Ok _ => true | _ => false end) = true)
    by (vm_compute; reflexivity).
  unfold ex_store. revert H. destruct (run sha256 sha256 ex_ops); [reflexivity|discriminate..].
Qed.
Lemma ex_low : low ex_ops = 1.
Proof. vm_compute. reflexivity. Qed.
Lemma ex_versions : versions ex_ops = 5.
Proof. vm_compute. reflexivity. Qed.

(** The expected roots of sha2_256_vectors.json: no pair, ("hello", "world"),
    and that with ("goodbye", "world"), keys hashed. *)
Definition hello : bytes := sha256 (hexs [0x68; 0x65; 0x6c; 0x6c; 0x6f]).
Definition goodbye : bytes := sha256 (hexs [0x67; 0x6f; 0x6f; 0x64; 0x62; 0x79; 0x65]).
Definition world : bytes := hexs [0x77; 0x6f; 0x72; 0x6c; 0x64].
Definition vector_root (kvs : list write) : option bytes :=
  match put_value_set sha256 sha256 empty_store kvs 0 with Ok (r, _) => Some r | _ => None end.
Example vector0 : vector_root [] = Some (hexs
  [0x53; 0x50; 0x41; 0x52; 0x53; 0x45; 0x5f; 0x4d; 0x45; 0x52; 0x4b; 0x4c; 0x45; 0x5f; 0x50; 0x4c;
   0x41; 0x43; 0x45; 0x48; 0x4f; 0x4c; 0x44; 0x45; 0x52; 0x5f; 0x48; 0x41; 0x53; 0x48; 0x5f; 0x5f]).
Proof. vm_compute. reflexivity. Qed.
Example vector1 : vector_root [(hello, Some world)] = Some (hexs
  [0x6b; 0x97; 0x11; 0x5f; 0x56; 0xe5; 0x33; 0xf2; 0xfd; 0x44; 0x3f; 0x7e; 0x76; 0xe4; 0xd1; 0xff;
   0x94; 0xd3; 0x4e; 0x6b; 0x2e; 0x23; 0x3f; 0x2d; 0xbd; 0xf5; 0xcf; 0xd1; 0xec; 0x39; 0xa3; 0x0c]).
Proof. vm_compute. reflexivity. Qed.
Example vector2 : vector_root [(hello, Some world); (goodbye, Some world)] = Some (hexs
  [0xe1; 0xe1; 0xe2; 0x20; 0xd4; 0xb4; 0xa9; 0x61; 0x1a; 0x9a; 0x09; 0xdb; 0xce; 0xe9; 0x64; 0xb4;
   0xa6; 0xc3; 0xa4; 0x0f; 0x6f; 0x4d; 0xee; 0x26; 0x5a; 0xd4; 0x5c; 0xf6; 0x45; 0x68; 0x79; 0x0b]).
Proof. vm_compute. reflexivity. Qed.
