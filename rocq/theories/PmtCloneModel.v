(** Histories in which tries are also cloned: the derived [Clone] of
    pmt/src/inner.rs l.26-47 copies every field, of [db] the handle only, so a
    clone shares the database and has its own pending nodes. *)
From Verif Require Import Base PmtNibblesModel RlpModel PmtModel PmtRunSpec.

(** A call of PmtRunSpec.v, or a clone of the [i]-th view, which becomes the
    last one. *)
Inductive cop := CCall (o : op) | CClone (i : nat).

Section run.
  Context (keccak : bytes -> bytes).
  (** inner.rs l.26, [clone]. *)
  Definition cstep (x : nat) (w : world) (o : cop) : out * world :=
    match o with
    | CCall o => step keccak x w o
    | CClone i =>
        match w_views w !! i with
        | Some t => (RSkip, World (w_db w) (w_views w ++ [t]) (w_roots w) (w_trace w))
        | None => (RSkip, w)
        end
    end.
  Fixpoint crun (x : nat) (w : world) (ops : list cop) : list out * world :=
    match ops with
    | [] => ([], w)
    | o :: ops' =>
        let '(r, w) := cstep x w o in
        let '(rs, w) := crun x w ops' in
        (r :: rs, w)
    end.
End run.

(** What should be observed: each view is a map of its own. *)
Definition scstep (s : spec) (o : cop) : spec :=
  match o with
  | CCall o => sstep s o
  | CClone i => match s_views s !! i with Some m => Spec (s_views s ++ [m]) (s_roots s) | None => s end
  end.
Definition cstep_ok (s : spec) (o : cop) (r : out) : Prop :=
  match o with CCall o => step_ok false s o r | CClone _ => r = RSkip end.
Fixpoint couts_ok (s : spec) (ops : list cop) (rs : list out) : Prop :=
  match ops, rs with
  | [], [] => True
  | o :: ops', r :: rs' => cstep_ok s o r /\ couts_ok (scstep s o) ops' rs'
  | _, _ => False
  end.
Definition cop_short (o : cop) : Prop := match o with CCall o => op_short o | CClone _ => True end.
