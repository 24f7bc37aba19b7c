(** The calls of a Patricia trie when the database changes while they run: each
    look-up of a node sees the database of its own moment (pmt/src/inner.rs
    l.828-839, pmt/src/db.rs l.88-94: the lock is taken for each look-up).

    The definitions are those of PmtModel.v with [ds a b], the database that the
    look-up made at depth [a], stage [b] of the call sees, in place of [d].  The
    depth is the fuel left, which differs between any two look-ups of a descent;
    [b] tells the descent, 0, from the steps of [degenerate] that follow it. *)
From Verif Require Import Base PmtNibblesModel RlpModel PmtModel.

(** inner.rs l.328-395. *)
Fixpoint get_at_live (fuel : nat) (ds : nat -> nat -> db) (rh : bytes) (n : node) (path : hex) (idx : nat)
  : tres (option bytes) :=
  match fuel with
  | O => OutOfFuel
  | S f =>
      try! partial := offset path idx in
      match n with
      | NEmpty => Ok None
      | NLeaf k v => if decide (k = partial) then Ok (Some v) else Ok None
      | NBranch cs v =>
          match partial with
          | [] => Ok v
          | x :: _ =>
              if x =? 16 then Ok v
              else match cs !! x with
                   | Some c => get_at_live f ds rh c path (idx + 1)
                   | None => Panic
                   end
          end
      | NExt prefix c =>
          let m := common_prefix partial prefix in
          if m =? length prefix then get_at_live f ds rh c path (idx + m) else Ok None
      | NHash h =>
          try! o := recover_from_db (ds f 0) h in
          match o with
          | Some n' => get_at_live f ds rh n' path idx
          | None =>
              try! tr := slice path 0 idx in
              Err (MissingTrieNode h (Some tr) (Some rh) None)
          end
      end
  end.

(** inner.rs l.397-510. *)
Fixpoint insert_at_live (fuel : nat) (ds : nat -> nat -> db) (rh : bytes) (pk : gset bytes)
    (n : node) (path : hex) (idx : nat) (value : bytes) : upd node :=
  match fuel with
  | O => (pk, OutOfFuel)
  | S f =>
      upd! (pk, partial) := (pk, offset path idx) in
      match n with
      | NEmpty => (pk, Ok (NLeaf partial value))
      | NLeaf old lv =>
          let m := common_prefix partial old in
          if m =? length old then (pk, Ok (NLeaf old value))
          else
            (pk,
             try! o1 := offset old (m + 1) in
             try! i1 := at_ old m in
             try! (cs1, v1) := branch_insert no_children None i1 (NLeaf o1 lv) in
             try! o2 := offset partial (m + 1) in
             try! i2 := at_ partial m in
             try! (cs2, v2) := branch_insert cs1 v1 i2 (NLeaf o2 value) in
             if m =? 0 then Ok (NBranch cs2 v2)
             else try! pre := slice partial 0 m in Ok (NExt pre (NBranch cs2 v2)))
      | NBranch cs v =>
          match partial with
          | [] => (pk, Panic)
          | x :: _ =>
              if x =? 16 then (pk, Ok (NBranch cs (Some value)))
              else match cs !! x with
                   | Some c =>
                       upd! (pk, c') := insert_at_live f ds rh pk c path (idx + 1) value in
                       (pk, Ok (NBranch (<[x := c']> cs) v))
                   | None => (pk, Panic)
                   end
          end
      | NExt prefix sub =>
          let m := common_prefix partial prefix in
          if m =? 0 then
            upd! (pk, b) :=
              (pk, try! x := at_ prefix 0 in
                   try! o := offset prefix 1 in
                   branch_insert no_children None x
                     (if length prefix =? 1 then sub else NExt o sub)) in
            insert_at_live f ds rh pk (NBranch b.1 b.2) path idx value
          else if m =? length prefix then
            upd! (pk, n') := insert_at_live f ds rh pk sub path (idx + m) value in
            (pk, Ok (NExt prefix n'))
          else
            upd! (pk, o) := (pk, offset prefix m) in
            upd! (pk, n') := insert_at_live f ds rh pk (NExt o sub) path (idx + m) value in
            (pk, try! pre := slice prefix 0 m in Ok (NExt pre n'))
      | NHash h =>
          let pk := {[h]} ∪ pk in
          upd! (pk, o) := (pk, recover_from_db (ds f 0) h) in
          match o with
          | Some n' => insert_at_live f ds rh pk n' path idx value
          | None =>
              (pk, try! tr := slice path 0 idx in
                   Err (MissingTrieNode h (Some tr) (Some rh) None))
          end
      end
  end.

(** inner.rs l.592-667. *)
Fixpoint degenerate_live (fuel : nat) (ds : nat -> db) (rh : bytes) (pk : gset bytes) (n : node) : upd node :=
  match fuel with
  | O => (pk, OutOfFuel)
  | S f =>
      match n with
      | NBranch cs v =>
          match used_indices cs, v with
          | [], Some val => (pk, Ok (NLeaf (from_raw [] true) val))
          | [i], None =>
              match cs !! i with
              | Some c => degenerate_live f ds rh pk (NExt [i] c)
              | None => (pk, Panic)
              end
          | _, _ => (pk, Ok n)
          end
      | NExt prefix c =>
          match c with
          | NExt sub_prefix c' => degenerate_live f ds rh pk (NExt (join prefix sub_prefix) c')
          | NLeaf k v => (pk, Ok (NLeaf (join prefix k) v))
          | NHash h =>
              let pk := {[h]} ∪ pk in
              upd! (pk, o) := (pk, recover_from_db (ds f) h) in
              match o with
              | Some n' => degenerate_live f ds rh pk (NExt prefix n')
              | None => (pk, Err (MissingTrieNode h None (Some rh) None))
              end
          | _ => (pk, Ok n)
          end
      | _ => (pk, Ok n)
      end
  end.

(** inner.rs l.512-586. *)
Fixpoint delete_at_live (fuel : nat) (ds : nat -> nat -> db) (rh : bytes) (pk : gset bytes)
    (n : node) (path : hex) (idx : nat) : upd (node * bool) :=
  match fuel with
  | O => (pk, OutOfFuel)
  | S f =>
      upd! (pk, partial) := (pk, offset path idx) in
      let finish (x : upd (node * bool)) : upd (node * bool) :=
        upd! (pk, nd) := x in
        if nd.2 then upd! (pk, n') := degenerate_live f (fun b => ds f (S b)) rh pk nd.1 in (pk, Ok (n', true))
        else (pk, Ok nd) in
      match n with
      | NEmpty => finish (pk, Ok (NEmpty, false))
      | NLeaf k v =>
          if decide (k = partial) then (pk, Ok (NEmpty, true))
          else finish (pk, Ok (n, false))
      | NBranch cs v =>
          match partial with
          | [] => (pk, Panic)
          | x :: _ =>
              if x =? 16 then (pk, Ok (NBranch cs None, true))
              else match cs !! x with
                   | Some c =>
                       finish (upd! (pk, cd) := delete_at_live f ds rh pk c path (idx + 1) in
                               (pk, Ok (if cd.2 then NBranch (<[x := cd.1]> cs) v else NBranch cs v,
                                        cd.2)))
                   | None => (pk, Panic)
                   end
          end
      | NExt prefix c =>
          let m := common_prefix partial prefix in
          if m =? length prefix then
            finish (upd! (pk, cd) := delete_at_live f ds rh pk c path (idx + m) in
                    (pk, Ok (if cd.2 then NExt prefix cd.1 else NExt prefix c, cd.2)))
          else finish (pk, Ok (n, false))
      | NHash h =>
          let pk := {[h]} ∪ pk in
          upd! (pk, o) := (pk, recover_from_db (ds f 0) h) in
          match o with
          | Some n' => finish (delete_at_live f ds rh pk n' path idx)
          | None =>
              (pk, try! tr := slice path 0 idx in
                   Err (MissingTrieNode h (Some tr) (Some rh) None))
          end
      end
  end.

(** inner.rs l.669-715. *)
Fixpoint get_path_at_live (fuel : nat) (ds : nat -> nat -> db) (rh : bytes) (n : node) (path : hex) (idx : nat)
  : tres (list node) :=
  match fuel with
  | O => OutOfFuel
  | S f =>
      try! partial := offset path idx in
      match n with
      | NEmpty | NLeaf _ _ => Ok []
      | NBranch cs v =>
          match partial with
          | [] => Ok []
          | x :: _ =>
              if x =? 16 then Ok []
              else match cs !! x with
                   | Some c => get_path_at_live f ds rh c path (idx + 1)
                   | None => Panic
                   end
          end
      | NExt prefix c =>
          let m := common_prefix partial prefix in
          if m =? length prefix then get_path_at_live f ds rh c path (idx + m) else Ok []
      | NHash h =>
          try! o := recover_from_db (ds f 0) h in
          match o with
          | Some n' =>
              try! rest := get_path_at_live f ds rh n' path idx in
              Ok (rest ++ [n'])
          | None => Err (MissingTrieNode h None (Some rh) None)
          end
      end
  end.

(** inner.rs l.117-137. *)
Definition get_live (fuel : nat) (ds : nat -> nat -> db) (t : trie) (key : bytes) : tres (option bytes) :=
  with_key key (get_at_live fuel ds (t_root_hash t) (t_root t) (from_raw key true) 0).


(** inner.rs l.140-143. *)
Definition contains_live (fuel : nat) (ds : nat -> nat -> db) (t : trie) (key : bytes) : tres bool :=
  try! o := get_at_live fuel ds (t_root_hash t) (t_root t) (from_raw key true) 0 in
  Ok (match o with Some _ => true | None => false end).


(** inner.rs l.146-177. *)
Definition insert_live (fuel : nat) (ds : nat -> nat -> db) (t : trie) (key value : bytes) : trie * tres unit :=
  match value with
  | [] => (t, Err InvalidData)
  | _ =>
      let '(pk, r) := insert_at_live fuel ds (t_root_hash t) (t_passing t) (t_root t)
                        (from_raw key true) 0 value in
      let t' := set_passing t pk in
      match with_key key r with
      | Ok n => (set_root t' n, Ok tt)
      | Err e => (t', Err e)
      | Panic => (t', Panic)
      | OutOfFuel => (t', OutOfFuel)
      end
  end.


(** inner.rs l.180-204. *)
Definition remove_live (fuel : nat) (ds : nat -> nat -> db) (t : trie) (key : bytes) : trie * tres bool :=
  let '(pk, r) := delete_at_live fuel ds (t_root_hash t) (t_passing t) (t_root t)
                    (from_raw key true) 0 in
  let t' := set_passing t pk in
  match with_key key r with
  | Ok (n, removed) => (set_root t' n, Ok removed)
  | Err e => (t', Err e)
  | Panic => (t', Panic)
  | OutOfFuel => (t', OutOfFuel)
  end.


(** inner.rs l.221-251. *)
Definition get_proof_live (keccak : bytes -> bytes) (fuel : nat) (ds : nat -> nat -> db) (t : trie) (key : bytes)
  : trie * tres (list bytes) :=
  match with_key key (get_path_at_live fuel ds (t_root_hash t) (t_root t) (from_raw key true) 0) with
  | Ok path =>
      let path := match t_root t with NEmpty => path | r => path ++ [r] end in
      let '((cache, gen), r) := encode_all keccak (rev path) (t_cache t, t_gen t) in
      (Trie (t_root t) (t_root_hash t) cache (t_passing t) gen, r)
  | Err e => (t, Err e)
  | Panic => (t, Panic)
  | OutOfFuel => (t, OutOfFuel)
  end.
