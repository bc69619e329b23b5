(** Vocabulary of the theorem statements about smdiff-merger. Definitions only; nothing here is used by the model. *)
From Verif Require Import Base Spec MCommon MReader MDecoder MMerger SpecApi.

(** Operations with output positions, each starting where the one before ends. *)
Fixpoint contiguous (p : Z) (l : list (Z * op)) : Prop :=
  match l with [] => True | (q, o) :: r => q = p /\ contiguous (p + op_len o) r end.
(** Output bytes of a list of positioned operations. *)
Definition slen (l : list (Z * op)) : Z := ops_len (map snd l).
(** A well-formed operation, executed at its position of the output [out], produces the bytes of [out] there. *)
Definition in_place (dict out : list Z) (x : Z * op) : Prop :=
  op_good (snd x) /\ 0 <= fst x /\ fst x + op_len (snd x) <= zlen out /\
  op_bytes dict (take (fst x) out) (snd x) = Some (sub out (fst x) (op_len (snd x))).
(** Each operation with the output offset at which it starts. *)
Fixpoint number (pos : Z) (ops : list op) : list (Z * op) :=
  match ops with [] => [] | o :: r => (pos, o) :: number (pos + op_len o) r end.

(** Counting operations of a kind and the bytes they produce. *)
Definition cnt (P : op -> bool) (ops : list op) : Z := zlen (filter P ops).
Definition bytes_of (P : op -> bool) (ops : list op) : Z := ops_len (filter P ops).
Definition is_run_op (o : op) : bool := match o with Run _ _ => true | _ => false end.

(** ** Using the merger *)
(** Merging predecessors, newest first, until there are none left or merging reports a summary patch. *)
Fixpoint merge_more (m : mode) (cd : codecs) (g : merger) (older : list (list Z)) : res merged :=
  match older with
  | [] => Ok (Open g)
  | p :: rest => do r <- merger_merge m cd g p; match r with Open g' => merge_more m cd g' rest | Summary ops => Ok (Summary ops) end
  end.
Definition merge_from (m : mode) (cd : codecs) (newest : list Z) (older : list (list Z)) : res merged :=
  do r <- merger_new m cd newest; match r with Open g => merge_more m cd g older | Summary ops => Ok (Summary ops) end.
(** The summary patch: the one reported, or the one finish makes. *)
Definition summary_of (r : merged) : list op := match r with Open g => merger_finish g | Summary ops => ops end.

(** A patch with well-formed, non-empty operations that turns [src] into [out]; sizes below 2^63. *)
Definition good_patch (m : mode) (cd : codecs) (patch src out : list Z) : Prop :=
  applies m cd patch src out /\ zlen src < 2 ^ 63 /\ zlen out < 2 ^ 63 /\
  exists ops, reads_as m cd patch ops /\ Forall op_good ops.
(** Applying the patches (listed newest first) oldest first turns [src] into [out]. *)
Inductive chain (m : mode) (cd : codecs) : list Z -> list (list Z) -> list Z -> Prop :=
| chain_nil x : chain m cd x [] x
| chain_cons src mid out p older : chain m cd src older mid -> good_patch m cd p mid out -> chain m cd src (p :: older) out.
(** What a debug build demands of the newest patch (see C52): it copies from the dictionary or not at all. *)
Definition new_ok (m : mode) (cd : codecs) (patch : list Z) : Prop :=
  m = Release \/ exists ops, reads_as m cd patch ops /\ (existsb is_copy ops = false \/ existsb is_dict_copy ops = true).

(** ** Arbitrary operations *)
(** Every copy from the output starts inside the output so far ([pos] bytes) and ends there. *)
Fixpoint out_fit (pos : Z) (ops : list op) : bool :=
  match ops with
  | [] => true
  | o :: r => match o with Copy Output a n => (a <? pos) && (a + n <=? pos) | _ => true end && out_fit (pos + op_len o) r
  end.
(** Every copy from the dictionary starts inside [n] bytes and ends there. *)
Definition dict_fits (n : Z) (ops : list op) : bool :=
  forallb (fun o => match o with Copy Dict a k => (a <? n) && (a + k <=? n) | _ => true end) ops.

(** ** Transcoding *)
(** What a list of operations does, without the boundaries of literals: literal bytes and copies in order. *)
Definition atoms (ops : list op) : list (Z + csrc * Z * Z) :=
  flat_map (fun o => match o with Add bs => map inl bs | Run b n => map inl (rep b n) | Copy s a n => [inr (s, a, n)] end) ops.
(** No empty literal or run. *)
Definition no_empty (o : op) : Prop := is_copy o = true \/ 1 <= op_len o.
