(** Reading byte string literals, by the Rust reference ("Tokens", byte string
    literals and byte escapes), independent of the code that prints them. *)
From Verif Require Import Base.

(** A hexadecimal digit of either case. *)
Definition digit_value (c : nat) : option nat :=
  if (48 <=? c) && (c <=? 57) then Some (c - 48)
  else if (97 <=? c) && (c <=? 102) then Some (c - 87)
  else if (65 <=? c) && (c <=? 70) then Some (c - 55)
  else None.
(** A backslash and one of n, r, t, backslash, 0, and the two quotes. *)
Definition simple_escape (c : nat) : option nat :=
  if c =? 110 then Some 10
  else if c =? 114 then Some 13
  else if c =? 116 then Some 9
  else if c =? 92 then Some 92
  else if c =? 48 then Some 0
  else if c =? 39 then Some 39
  else if c =? 34 then Some 34
  else None.
Definition more (n : nat) (r : option (list nat * list nat)) : option (list nat * list nat) :=
  match r with Some (l, rest) => Some (n :: l, rest) | None => None end.
(** The bytes up to the closing quote and what follows it.  A line continuation
    (a backslash at the end of a line) is not among the printed forms and is
    refused here. *)
Fixpoint literal_body (t : list nat) : option (list nat * list nat) :=
  match t with
  | [] => None
  | c :: t1 =>
      if c =? 34 then Some ([], t1)
      else if c =? 92 then
        match t1 with
        | [] => None
        | e :: t2 =>
            if e =? 120 then
              match t2 with
              | a :: b :: t3 =>
                  match digit_value a, digit_value b with
                  | Some x, Some y => more (16 * x + y) (literal_body t3)
                  | _, _ => None
                  end
              | _ => None
              end
            else match simple_escape e with Some v => more v (literal_body t2) | None => None end
        end
      else if (c <? 128) && negb (c =? 13) then more c (literal_body t1)
      else None
  end.
Definition literal (t : list nat) : option (list nat * list nat) :=
  match t with
  | b :: q :: t' => if (b =? 98) && (q =? 34) then literal_body t' else None
  | _ => None
  end.
