(** Model of [Children], /repo/jmt/src/node_type.rs 199-303: an array of sixteen
    optional children with a counter.  [JmtModel] uses a finite map instead;
    the theorem C59 says that the two agree. *)
From Verif Require Import Base JmtNibModel JmtModel.
Local Open Scope nat_scope.

(** 199-204. *)
Record children_arr := Carr { ca_slots : list (option child); ca_num : nat }.

(** 223-226, [new]: the derived default. *)
Definition ca_new : children_arr := Carr (repeat None 16) 0.

(** [children[idx]], a panic out of range. *)
Definition ca_index (c : children_arr) (i : nib) : res unit (option child) :=
  match ca_slots c !! N.to_nat (nib_val i) with None => Panic | Some o => Ok o end.

(** 229-235, [insert]. *)
Definition ca_insert (c : children_arr) (i : nib) (x : child) : res unit children_arr :=
  rbind (ca_index c i) (fun o =>
  Ok (Carr (<[N.to_nat (nib_val i) := Some x]> (ca_slots c))
       (match o with None => S (ca_num c) | Some _ => ca_num c end))).
(** 238-240, [get]. *)
Definition ca_get (c : children_arr) (i : nib) : res unit (option child) := ca_index c i.
(** 243-245, [is_empty]; 283-285, [num_children]. *)
Definition ca_is_empty (c : children_arr) : bool := ca_num c =? 0.
(** 248-254, [remove]; the counter underflow is a panic. *)
Definition ca_remove (c : children_arr) (i : nib) : res unit children_arr :=
  rbind (ca_index c i) (fun o =>
  match o, ca_num c with
  | Some _, O => Panic
  | Some _, S n => Ok (Carr (<[N.to_nat (nib_val i) := None]> (ca_slots c)) n)
  | None, n => Ok (Carr (<[N.to_nat (nib_val i) := None]> (ca_slots c)) n)
  end).
(** 257-259, [values]. *)
Definition ca_values (c : children_arr) : list child := omap id (ca_slots c).
(** 262-264 and 288-302, [iter] and [iter_sorted]: [enumerate], then
    [Nibble::from] of each index with a child. *)
Fixpoint ca_entries (from : nat) (l : list (option child)) : res unit (list (nib * child)) :=
  match l with
  | [] => Ok []
  | None :: l' => ca_entries (S from) l'
  | Some x :: l' =>
      rbind (nib_of_res (N.of_nat from)) (fun i =>
      rbind (ca_entries (S from) l') (fun r => Ok ((i, x) :: r)))
  end.
Definition ca_iter (c : children_arr) : res unit (list (nib * child)) := ca_entries 0 (ca_slots c).

(** 396-425, [new_impl] as written, on the array form: the two [ensure!]s look
    at the counter. *)
Definition ca_inode_new (c : children_arr) : res unit (list child * option N) :=
  if ca_is_empty c then Panic
  else
    let total :=
      fold_left (fun a x => match a, child_leaf_count x with
                            | Some n, Some m => Some (n + m)%N | _, _ => None end)
        (ca_values c) (Some 0%N) in
    if ca_num c =? 1 then
      match ca_values c with
      | [] => Panic
      | x :: _ => if child_is_leaf x then Panic else Ok (ca_values c, total)
      end
    else Ok (ca_values c, total).
