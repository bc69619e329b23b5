(** Where a list of operations sends literal bytes; mentions no function of the model of the code. *)
From Verif Require Import Base Spec.

(** Number of output positions in [x, y) that the operations [ops], whose output starts at position [pos], produce by an Add. *)
Fixpoint literals_in (x y pos : Z) (ops : list op) : Z :=
  match ops with
  | [] => 0
  | o :: r => (if is_add o then Z.max 0 (Z.min (pos + op_len o) y - Z.max pos x) else 0) + literals_in x y (pos + op_len o) r
  end.
