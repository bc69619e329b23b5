(** Model of smdiff-encoder/src/hashmap.rs. A [Vec<BucketValue>] is its length and a function from indices; an index
    out of bounds panics. *)
From Verif Require Import Base Spec.

(** [usize::next_power_of_two]: overflow panics with overflow checks and gives 0 without. *)
Definition next_power_of_two (m : mode) (n : Z) : res Z :=
  if n <=? 1 then Ok 1
  else if n >? 2 ^ 63 then match m with Debug => Panic | Release => Ok 0 end
  else Ok (2 ^ Z.log2_up n).

(** BucketValue, lines 4-8: (hash, value); (0, 0) is empty, a stored position p has value p + 1. *)
Record bucket := mkBucket { b_hash : Z; b_value : Z }.
Definition empty_bucket := mkBucket 0 0.
(** BucketValue::get, lines 15-24 *)
Definition bucket_get (b : bucket) (hash : Z) : option Z :=
  if b_value b =? 0 then None else if b_hash b =? hash then Some (b_value b - 1) else None.
(** BucketValue::set, lines 26-42: the new bucket and the result *)
Inductive set_result := SetNew | SetSame (old : Z) | SetEvicted (old_hash old : Z).
Definition bucket_set (b : bucket) (hash value : Z) : bucket * set_result :=
  let nb := mkBucket hash (value + 1) in
  if b_value b =? 0 then (nb, SetNew)
  else if b_hash b =? hash then (nb, SetSame (b_value b - 1))
  else (nb, SetEvicted (b_hash b) (b_value b - 1)).

Definition upd (f : Z -> bucket) (i : Z) (b : bucket) : Z -> bucket := fun j => if j =? i then b else f j.

(** BasicHashTable, lines 52-80 *)
Record table := mkTable { t_shift : Z; t_mask : Z; t_size : Z; t_buckets : Z -> bucket }.
(** determine_hash_table_size_bits, lines 111-114 (trailing_zeros of a power of two is its logarithm, of 0 it is 64) *)
Definition table_bits (m : mode) (slots : Z) : res Z :=
  do p <- next_power_of_two m (slots + 1);
  let tz := if p =? 0 then 64 else Z.log2 p in
  Ok (Z.min (Z.max tz 3) 64 - 1).
Definition table_new (m : mode) (min_capacity : Z) (is32 : bool) : res table :=
  do bits <- table_bits m min_capacity;
  let size := 2 ^ bits in
  do shift <- usub m (if is32 then 32 else 64) bits;
  Ok (mkTable shift (size - 1) size (fun _ => empty_bucket)).
(** get_bucket_idx, lines 117-121 *)
Definition bucket_idx (t : table) (hash : Z) : Z := Z.lxor (Z.shiftr hash (t_shift t)) (Z.land hash (t_mask t)).
(** BasicHashTable::get, lines 84-87 *)
Definition table_get (t : table) (hash : Z) : res (option Z) :=
  let i := bucket_idx t hash in
  if (0 <=? i) && (i <? t_size t) then Ok (bucket_get (t_buckets t i) hash) else Panic.
(** BasicHashTable::insert, lines 89-92 *)
Definition table_insert (t : table) (hash pos : Z) : res (table * set_result) :=
  let i := bucket_idx t hash in
  if (0 <=? i) && (i <? t_size t) then
    let '(b, r) := bucket_set (t_buckets t i) hash pos in
    Ok (mkTable (t_shift t) (t_mask t) (t_size t) (upd (t_buckets t) i b), r)
  else Panic.

(** ChainList, lines 130-133; capacity 0 is the empty list. *)
Record chain_list := mkChain { ch_cap : Z; ch_mask : Z; ch_pos : Z -> bucket }.
(** ChainList::new, lines 139-152 *)
Definition chain_new (cap : Z) : res chain_list :=
  if cap =? 0 then Ok (mkChain 0 0 (fun _ => empty_bucket))
  else
    do _ <- assert_ (Z.land cap (cap - 1) =? 0);
    Ok (mkChain cap (cap - 1) (fun _ => empty_bucket)).
(** ChainList::insert, lines 171-174 *)
Definition chain_insert (c : chain_list) (hash key pos : Z) : res chain_list :=
  if ch_cap c =? 0 then Ok c
  else
    let i := Z.land key (ch_mask c) in
    if (0 <=? i) && (i <? ch_cap c) then
      Ok (mkChain (ch_cap c) (ch_mask c) (upd (ch_pos c) i (fst (bucket_set (ch_pos c i) hash pos))))
    else Panic.
(** PrevPositionIterator::next, lines 209-232, with get_prev_pos (157-166). The state of the iterator is [last]; the
    returned position is also the new [last]. The positions never increase, so a loop of more than [last + 1] rounds
    repeats a state and never ends: with [fuel = last + 1] running out means a real infinite loop. *)
Fixpoint chain_next_loop (fuel : nat) (m : mode) (c : chain_list) (last cur hash : Z) : res (option Z) :=
  match fuel with
  | O => Diverge
  | S k =>
      if ch_cap c =? 0 then Ok None else
      let i := Z.land last (ch_mask c) in
      if negb ((0 <=? i) && (i <? ch_cap c)) then Panic else
      let b := ch_pos c i in
      if b_value b =? 0 then Ok None else
      let prev := b_value b - 1 in
      if prev >? last then Ok None else
      do diff <- usub m cur prev;
      if diff >=? ch_cap c then Ok None
      else if b_hash b =? hash then Ok (Some prev)
      else chain_next_loop k m c prev cur hash
  end.
Definition chain_next (m : mode) (c : chain_list) (last cur hash : Z) : res (option Z) :=
  chain_next_loop (S (Z.to_nat last)) m c last cur hash.
