(** What merging does to operations, written down without positions, indices or searches. Definitions only; nothing here is used by the model. *)
From Verif Require Import Base Spec MCommon MWriter MReader MDecoder MEncode MMerger SpecApi SpecMerge.

(** The part of an operation that makes [n] of its bytes, from the [i]-th on. *)
Definition cut_op (o : op) (i n : Z) : op :=
  match o with Add bs => Add (sub bs i n) | Run b _ => Run b n | Copy s a _ => Copy s (a + i) n end.
(** The operations, or parts of operations, that make the bytes [a] to [a + n] of what [ops] makes. *)
Fixpoint slice (ops : list op) (a n : Z) : list op :=
  match ops with
  | [] => []
  | o :: r => if n <=? 0 then []
              else if op_len o <=? a then slice r (a - op_len o) n
              else cut_op o a (Z.min n (op_len o - a)) :: slice r 0 (n - Z.min n (op_len o - a))
  end.
(** The operations without copies from the output: each is replaced by what made the bytes it copies. *)
Definition flatten (ops : list op) : list op :=
  fold_left (fun done o => done ++ match o with Copy Output a n => slice done a n | _ => [o] end) ops [].
(** [ops] after [older]: each copy from the dictionary is replaced by what makes the bytes it copies. *)
Definition graft (ops older : list op) : list op :=
  flat_map (fun o => match o with Copy Dict a n => slice older a n | _ => [o] end) ops.
(** The merge of the operations of several patches, newest first. *)
Definition merged_ops (l : list (list op)) : list op :=
  match l with [] => [] | newest :: older => fold_left (fun t p => graft t (flatten p)) older (flatten newest) end.

(** Patches made by merging in any order: [product m cd src b out ps]: the patch [b] turns [src] into [out] and is made from the patches [ps] (newest first). Either it is the only one of
    them, or it is the written summary of merging patches that are made from parts of [ps]. *)
Inductive product (m : mode) (cd : codecs) : list Z -> list Z -> list Z -> list (list Z) -> Prop :=
| product_one src p out : good_patch m cd p src out -> product m cd src p out [p]
| product_merged src newest older out ps r m0 seg f sc b : products m cd src (newest :: older) out ps -> merge_from m cd newest older = Ok r -> comp_lossless cd sc out ->
    summary_write m0 cd (summary_of r) seg f sc = (b, Ok tt) -> product m cd src b out ps
with products (m : mode) (cd : codecs) : list Z -> list (list Z) -> list Z -> list (list Z) -> Prop :=
| products_nil x : products m cd x [] x []
| products_cons src mid out p older ps1 ps2 : products m cd src older mid ps2 -> product m cd mid p out ps1 -> products m cd src (p :: older) out (ps1 ++ ps2).

(** ** How large the result is *)
(** The number of copies from the dictionary in [ops] that copy its byte [i]. *)
Definition uses (i : Z) (ops : list op) : Z := zlen (filter (fun o => match o with Copy Dict a n => (a <=? i) && (i <? a + n) | _ => false end) ops).
(** No byte of the dictionary is copied more than [k] times. *)
Definition uses_at_most (k : Z) (ops : list op) : Prop := forall i, uses i ops <= k.
(** For patches newest first, each with the number of times it copies a byte at most and some size: the size of the newest and, that many times, what the rest amounts to. *)
Fixpoint amounts (l : list (Z * Z)) : Z := match l with [] => 0 | (k, x) :: r => x + k * amounts r end.
