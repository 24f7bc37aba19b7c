(** Model of the nibble cursor of /repo/jmt/src/types/nibble/nibble_path.rs and
    of the byte form of versions in /repo/jmt/src/db.rs.  The rest of the tree
    model works on plain nibble lists; the theorems of [JmtNibProps] say that
    the packed paths and cursors are those lists. *)
From Verif Require Import Base JmtNibModel.
Local Open Scope nat_scope.

(** nibble_path.rs 243-260, [NibbleIterator]: the path it walks, the range
    [pos.start .. pos.end] still to come and the index it started from. *)
Record nit := Nit { ni_path : npath; ni_pos : nat; ni_end : nat; ni_start : nat }.

(** 282-292, [NibbleIterator::new].  The [precondition!]s are annotations for a
    static checker and not executed. *)
Definition ni_new (p : npath) (s e : nat) : nit := Nit p s e s.
(** 186-189, [NibblePath::nibbles]. *)
Definition ni_all (p : npath) : nit := ni_new p 0 (np_num p).

(** 271-280, [peek]. *)
Definition ni_peek (c : nit) : res unit (option nib) :=
  if ni_pos c <? ni_end c
  then rbind (np_get_nibble (ni_path c) (ni_pos c)) (fun n => Ok (Some n))
  else Ok None.
(** 263-268, [next]: the advanced cursor and the nibble it passed. *)
Definition ni_next (c : nit) : res unit (nit * option nib) :=
  if ni_pos c <? ni_end c
  then rbind (np_get_nibble (ni_path c) (ni_pos c))
         (fun n => Ok (Nit (ni_path c) (S (ni_pos c)) (ni_end c) (ni_start c), Some n))
  else Ok (c, None).
(** 295-299 and 302-306. *)
Definition ni_visited (c : nit) : nit := ni_new (ni_path c) (ni_start c) (ni_pos c).
Definition ni_remaining (c : nit) : nit := ni_new (ni_path c) (ni_pos c) (ni_end c).
(** Draining a cursor with [next]; [ni_end - ni_pos] steps. *)
Definition ni_collect (c : nit) : res unit (list nib) :=
  seq_res (map (np_get_nibble (ni_path c)) (seq (ni_pos c) (ni_end c - ni_pos c))).
(** 309-316, [bits], drained. *)
Definition ni_bits (c : nit) : res unit (list bool) :=
  seq_res (map (np_get_bit (ni_path c)) (seq (ni_pos c * 4) (ni_end c * 4 - ni_pos c * 4))).
(** 320-324, [get_nibble_path]: visited then remaining, collected. *)
Definition ni_whole (c : nit) : res unit npath :=
  rbind (ni_collect (ni_visited c)) (fun a =>
  rbind (ni_collect (ni_remaining c)) (fun b => np_collect (a ++ b))).
(** 327-330, [num_nibbles]; the subtraction underflow is a panic. *)
Definition ni_num (c : nit) : res unit nat :=
  if ni_start c <=? ni_end c then Ok (ni_end c - ni_start c) else Panic.
(** 333-335, [is_finished]. *)
Definition ni_finished (c : nit) : res unit bool :=
  rbind (ni_peek c) (fun o => Ok (bool_decide (o = None))).

(** 340-363, [skip_common_prefix] on two nibble cursors.  Each round advances
    the first cursor, so its remaining length bounds the rounds. *)
Fixpoint ni_skip (fuel : nat) (x y : nit) (count : nat) : res unit (nat * nit * nit) :=
  rbind (ni_peek x) (fun xp =>
  rbind (ni_peek y) (fun yp =>
    match xp, yp with
    | Some a, Some b =>
        if decide (a = b) then
          match fuel with
          | O => OutOfFuel
          | S f =>
              rbind (ni_next x) (fun x' =>
              rbind (ni_next y) (fun y' => ni_skip f (fst x') (fst y') (S count)))
          end
        else Ok (count, x, y)
    | _, _ => Ok (count, x, y)
    end)).
Definition ni_skip_common (x y : nit) : res unit (nat * nit * nit) :=
  ni_skip (ni_end x - ni_pos x) x y 0.

(** db.rs 31-35: [u64::to_be_bytes]. *)
Definition version_to_bytes (v : N) : bytes :=
  map (fun i => byte_of (N.land (N.shiftr v (8 * N.of_nat i)) 255)) [7; 6; 5; 4; 3; 2; 1; 0].
(** [u64::from_be_bytes] of eight bytes. *)
Definition be_value (b : bytes) : N :=
  fold_left (fun a y => N.lor (N.shiftl a 8) (Byte.to_N y)) b 0%N.
(** db.rs 25-29: [try_into] an array of eight, or the default array (zeros). *)
Definition version_of_bytes (b : bytes) : N :=
  be_value (if length b =? 8 then b else repeat x00 8).
