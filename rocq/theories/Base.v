(** Shared vocabulary: bytes and results.

    Bytes are the 256-element type [Byte.byte] of the standard library, so a
    byte string needs no range side conditions. *)
From stdpp Require Export prelude gmap list sorting.
From Coq Require Export Init.Byte Strings.Byte NArith ZArith Lia.
From Coq Require Export ZifyBool ZifyNat ZifyN.

Export ListNotations.
Open Scope list_scope.

Notation byte := Byte.byte.
Notation bytes := (list Byte.byte).

Global Instance byte_eq_dec : EqDecision byte := Byte.byte_eq_dec.
Global Program Instance byte_countable : Countable byte :=
  inj_countable Byte.to_N Byte.of_N _.
Next Obligation. intros b. apply Byte.of_to_N. Qed.

(** Numeric value of a byte. *)
Definition bval (b : byte) : nat := Byte.to_nat b.

(** Outcome of a Rust call: [Ok]/[Err] are the two arms of [Result], [Panic]
    is an unwinding panic (failed assert, index out of range, arithmetic
    overflow in a debug build, [unreachable!]); [OutOfFuel] is not a Rust
    outcome, it says the model's recursion bound was too small. *)
Inductive res (E A : Type) : Type :=
| Ok (a : A)
| Err (e : E)
| Panic
| OutOfFuel.
Global Arguments Ok {E A} a.
Global Arguments Err {E A} e.
Global Arguments Panic {E A}.
Global Arguments OutOfFuel {E A}.

Definition rbind {E A B} (x : res E A) (f : A -> res E B) : res E B :=
  match x with
  | Ok a => f a
  | Err e => Err e
  | Panic => Panic
  | OutOfFuel => OutOfFuel
  end.
Definition rmap {E A B} (f : A -> B) (x : res E A) : res E B :=
  rbind x (fun a => Ok (f a)).

Declare Scope res_scope.
Delimit Scope res_scope with res.
Notation "'try!' x := e1 'in' e2" := (rbind e1 (fun x => e2))
  (at level 200, x pattern, e1 at level 100, e2 at level 200, right associativity)
  : res_scope.

Global Instance res_eq_dec {E A} `{EqDecision E} `{EqDecision A} : EqDecision (res E A).
Proof. solve_decision. Defined.

(** A hash function never collides on the strings of a list. *)
Definition inj_on {A B} (f : A -> B) (l : list A) : Prop :=
  forall x y, x ∈ l -> y ∈ l -> f x = f y -> x = y.
