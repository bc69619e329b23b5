(** Specification vocabulary for the encoder theorems; mentions no function of the model of the code. *)
From Verif Require Import Base Spec.

(** ** Candidate matches of the encoder (the InnerOp of smdiff-encoder: start, length, position in the target) *)
Inductive cand :=
| MSrc (start len pos : Z)     (* target[pos..pos+len] = source[start..start+len] *)
| MTrgt (start len pos : Z)    (* target[pos..pos+len] = target[start..start+len] *)
| MRun (byte len pos : Z).     (* target[pos..pos+len] is one byte repeated *)
Definition c_pos (c : cand) : Z := match c with MSrc _ _ p => p | MTrgt _ _ p => p | MRun _ _ p => p end.
Definition c_len (c : cand) : Z := match c with MSrc _ n _ => n | MTrgt _ n _ => n | MRun _ n _ => n end.
Definition c_end (c : cand) : Z := c_pos c + c_len c.

(** What a candidate claims is true, and (for matches in the target) it only refers to bytes before it. *)
Definition cand_sound (src trgt : list Z) (c : cand) : Prop :=
  0 <= c_pos c /\ 0 <= c_len c /\ c_end c <= zlen trgt /\
  match c with
  | MSrc s n p => 0 <= s /\ s + n <= zlen src /\ sub trgt p n = sub src s n
  | MTrgt s n p => 0 <= s /\ s + n <= p /\ sub trgt p n = sub trgt s n
  | MRun b n p => is_byte b /\ sub trgt p n = rep b n
  end.
(** Starts and ends do not decrease along the list. *)
Fixpoint cands_ordered (l : list cand) : Prop :=
  match l with
  | a :: ((b :: _) as r) => c_pos a <= c_pos b /\ c_end a <= c_end b /\ cands_ordered r
  | _ => True
  end.

(** The match cannot be extended to the right: it ends at the end of the target, or of the source (resp. where it begins,
    for a match in the target), or the next bytes differ. *)
Definition right_maximal (src trgt : list Z) (c : cand) : Prop :=
  c_end c = zlen trgt \/
  match c with
  | MSrc s n p => s + n = zlen src \/ idx src (s + n) <> idx trgt (p + n)
  | MTrgt s n p => s + n = p \/ idx trgt (s + n) <> idx trgt (p + n)
  | MRun b n p => idx trgt (p + n) <> Ok b
  end.
(** No true right-maximal match of at least [lazy] (and 4) bytes that starts more than 9 bytes before the end of the
    target ends 5 to 8 bytes before its end. *)
Definition no_late_match (src trgt : list Z) (lazy : Z) : Prop := forall c, cand_sound src trgt c -> right_maximal src trgt c ->
  Z.max 4 lazy <= c_len c -> c_pos c < zlen trgt - 9 -> ~ (zlen trgt - 8 <= c_end c <= zlen trgt - 5).

(** Whether the encoder's index of a source of [n] bytes, taken every [step] bytes, contains any position at all. *)
Definition indexable (step n : Z) : Prop := if 9 <=? step then 9 + step <= n else 9 + step <= step * ((n - 9) / step).
