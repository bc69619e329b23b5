(** Model of smdiff-merger/src/lib.rs. Output positions (u64) are sums of operation lengths and are not wrapped; they stay
    below 2^64 for every output that fits in memory. *)
From Verif Require Import Base Spec MCommon MWriter MReader MDecoder MEncode.

(** SparseOp, line 11: (start position in the output, operation) *)
Notation sparse := (Z * op)%type.

(** MergeOp::skip, lines 13-53: [amt] is a u32; [split_off] panics past the end. *)
Definition op_skip (m : mode) (o : op) (amt : Z) : res op :=
  match o with
  | Run b n => do n <- arith m to_u8 (n - to_u8 amt); Ok (Run b n)
  | Copy s a n => do a <- arith m to_u64 (a + amt); do n <- arith m to_u16 (n - to_u16 amt); Ok (Copy s a n)
  | Add bs => if amt <=? zlen bs then Ok (Add (drop amt bs)) else Panic
  end.
(** MergeOp::trunc, lines 13-53 ([truncate] to a longer length, possible only by wrapping, does nothing) *)
Definition op_trunc (m : mode) (o : op) (amt : Z) : res op :=
  match o with
  | Run b n => do n <- arith m to_u8 (n - to_u8 amt); Ok (Run b n)
  | Copy s a n => do n <- arith m to_u16 (n - to_u16 amt); Ok (Copy s a n)
  | Add bs => do n <- usub m (zlen bs) amt; Ok (Add (take n bs))
  end.

(** The comparison of find_controlling_op, lines 69-78 *)
Definition probe_cmp (o_pos : Z) (p : sparse) : comparison :=
  let e := fst p + oal (snd p) in
  if (fst p <=? o_pos) && (o_pos <? e) then Eq else if fst p >? o_pos then Gt else Lt.
(** [slice::binary_search_by] of the standard library (left, size as in its source), [Some] for [Ok]. The interval
    [left, left + size) shrinks in every round: fuel [S (length ops)] never runs out. *)
Fixpoint binary_search (fuel : nat) (cmp : sparse -> comparison) (ops : list sparse) (left size : Z) : res (option Z) :=
  match fuel with
  | O => Diverge
  | S k =>
      if size <=? 0 then Ok None else
      let mid := left + size / 2 in
      do p <- idx ops mid;
      match cmp p with
      | Eq => Ok (Some mid)
      | Lt => binary_search k cmp ops (mid + 1) (left + size - (mid + 1))
      | Gt => binary_search k cmp ops left (mid - left)
      end
  end.
(** find_controlling_op, lines 68-84 *)
Definition find_controlling_op (ops : list sparse) (o_pos : Z) : res (option Z) :=
  binary_search (S (length ops)) (probe_cmp o_pos) ops 0 (zlen ops).

(** The loop of get_exact_slice, lines 102-123, over the operations from start_idx on: the slice, or None when it is not
    complete. *)
Fixpoint exact_loop (m : mode) (start end_pos : Z) (ops : list sparse) : res (option (list sparse)) :=
  match ops with
  | [] => Ok None
  | (o_start, inst) :: rest =>
      let cur_inst_end := o_start + oal inst in
      do (op_start, cur) <- (if start >? o_start then do c <- op_skip m inst (to_u32 (start - o_start)); Ok (start, c)
                             else Ok (o_start, inst));
      do cur <- (if end_pos <? cur_inst_end then op_trunc m cur (to_u32 (cur_inst_end - end_pos)) else Ok cur);
      do _ <- debug_assert_ m (oal cur >? 0);
      if cur_inst_end >=? end_pos then Ok (Some [(op_start, cur)])
      else do r <- exact_loop m start end_pos rest;
           Ok (match r with Some l => Some ((op_start, cur) :: l) | None => None end)
  end.
(** get_exact_slice, lines 96-128 *)
Definition get_exact_slice (m : mode) (ops : list sparse) (start len : Z) : res (option (list sparse)) :=
  do i <- find_controlling_op ops start;
  match i with
  | None => Ok None
  | Some i => exact_loop m start (start + len) (drop i ops)
  end.

(** Stats, lines 131-171 (usize counters, not wrapped) *)
Record stats := mkStats {
  st_add_bytes : Z; st_run_bytes : Z; st_copy_bytes : Z;
  st_add_cnt : Z; st_run_cnt : Z; st_copy_d_cnt : Z; st_copy_o_cnt : Z; st_output : Z }.
Definition stats_new := mkStats 0 0 0 0 0 0 0 0.
Definition stats_add (s : stats) (n : Z) := mkStats (st_add_bytes s + n) (st_run_bytes s) (st_copy_bytes s)
  (st_add_cnt s + 1) (st_run_cnt s) (st_copy_d_cnt s) (st_copy_o_cnt s) (st_output s + n).
Definition stats_run (s : stats) (n : Z) := mkStats (st_add_bytes s) (st_run_bytes s + n) (st_copy_bytes s)
  (st_add_cnt s) (st_run_cnt s + 1) (st_copy_d_cnt s) (st_copy_o_cnt s) (st_output s + n).
Definition stats_copy_d (s : stats) (n : Z) := mkStats (st_add_bytes s) (st_run_bytes s) (st_copy_bytes s + n)
  (st_add_cnt s) (st_run_cnt s) (st_copy_d_cnt s + 1) (st_copy_o_cnt s) (st_output s + n).
Definition stats_copy_o (s : stats) (n : Z) := mkStats (st_add_bytes s) (st_run_bytes s) (st_copy_bytes s + n)
  (st_add_cnt s) (st_run_cnt s) (st_copy_d_cnt s) (st_copy_o_cnt s + 1) (st_output s + n).
(** The body of the inner loop of extract_patch_instructions, lines 182-208 *)
Definition stats_op (s : stats) (o : op) : stats :=
  match o with
  | Run _ _ => stats_run s (oal o)
  | Copy Dict _ _ => stats_copy_d (stats_copy_d s (oal o)) (oal o)
  | Copy Output _ _ => stats_copy_d (stats_copy_o s (oal o)) (oal o)
  | Add _ => stats_add s (oal o)
  end.
Fixpoint extract_ops (ops : list op) (pos : Z) (s : stats) : list sparse * Z * stats :=
  match ops with
  | [] => ([], pos, s)
  | o :: rest => let '(l, p, s) := extract_ops rest (pos + oal o) (stats_op s o) in ((pos, o) :: l, p, s)
  end.
(** extract_patch_instructions, lines 175-212; the iterator is smdiff-decoder's (fuel as in apply_patch). *)
Fixpoint extract_loop (fuel : nat) (m : mode) (cd : codecs) (bs : list Z) (pos : Z) (s : stats) : res (list sparse * stats) :=
  match fuel with
  | O => Diverge
  | S k =>
      do (ops, h, rest) <- next_section m cd bs;
      let '(l, pos, s) := extract_ops ops pos s in
      if h_more h then do (l', s) <- extract_loop k m cd rest pos s; Ok (l ++ l', s) else Ok (l, s)
  end.
Definition extract_patch_instructions (m : mode) (cd : codecs) (patch : list Z) : res (list sparse * stats) :=
  extract_loop (S (length patch)) m cd patch 0 stats_new.

(** The inner loop of deref_copy_o, lines 229-233, and push with a new position; also the loops of expand_to that move
    elements and set their position. *)
Fixpoint place (ops : list sparse) (pos : Z) : list sparse * Z :=
  match ops with
  | [] => ([], pos)
  | (_, o) :: rest => let '(l, p) := place rest (pos + oal o) in ((pos, o) :: l, p)
  end.
(** deref_copy_o, lines 215-244: [output] and [cur_o_pos] so far *)
Fixpoint deref_loop (m : mode) (extracted output : list sparse) (pos : Z) : res (list sparse) :=
  match extracted with
  | [] => Ok output
  | (_, o) :: rest =>
      do resolved <- match o with
                     | Copy Output a n => do r <- get_exact_slice m output a n;
                                          match r with Some l => Ok l | None => Panic end
                     | _ => Ok [(0, o)]
                     end;
      let '(l, pos) := place resolved pos in
      deref_loop m rest (output ++ l) pos
  end.
Definition deref_copy_o (m : mode) (extracted : list sparse) : res (list sparse) := deref_loop m extracted [] 0.

(** find_mergeable_copies, lines 246-255 *)
Fixpoint find_mergeable (extract : list sparse) (i : Z) : list Z :=
  match extract with
  | [] => []
  | (_, o) :: rest => (if is_dict_copy o then [i] else []) ++ find_mergeable rest (i + 1)
  end.

(** Merger, lines 256-265 *)
Record merger := mkMerger { mg_patch : list sparse; mg_copies : list Z }.
(** [Result<Merger, SummaryPatch>] *)
Inductive merged := Open (g : merger) | Summary (ops : list op).

(** Merger::new, lines 275-291 *)
Definition merger_new (m : mode) (cd : codecs) (terminal : list Z) : res merged :=
  do (t, st) <- extract_patch_instructions m cd terminal;
  if st_copy_bytes st =? 0 then Ok (Summary (map snd t)) else
  do t <- deref_copy_o m t;
  let ix := find_mergeable t 0 in
  do _ <- debug_assert_ m (negb (zlen ix =? 0));
  Ok (Open (mkMerger t ix)).

(** The assertion at the start of merge, lines 300-307 *)
Fixpoint contiguousb (x : Z) (l : list sparse) : bool :=
  match l with [] => true | (p, o) :: rest => (x =? p) && contiguousb (x + oal o) rest end.
(** The loop of merge, lines 315-328: the new copy indices and the inserts *)
Fixpoint merge_loop (m : mode) (t pred : list sparse) (ix : list Z) (shift : Z) : res (list Z * list (Z * list sparse)) :=
  match ix with
  | [] => Ok ([], [])
  | i :: rest =>
      do e <- idx t i;
      match snd e with
      | Copy s a n =>
          do _ <- debug_assert_ m (match s with Dict => true | Output => false end);
          do r <- get_exact_slice m pred a n;
          match r with
          | None => Panic
          | Some resolved =>
              do k <- usub m (zlen resolved) 1;
              do (ix', ins) <- merge_loop m t pred rest (shift + k);
              Ok (find_mergeable resolved (i + shift) ++ ix', (i, resolved) :: ins)
          end
      | _ => Panic
      end
  end.
(** [sort_by_key] (stable), line 393: insertion sort computes the same list *)
Fixpoint insert_sorted {A} (x : Z * A) (l : list (Z * A)) : list (Z * A) :=
  match l with [] => [x] | y :: r => if fst x <=? fst y then x :: l else y :: insert_sorted x r end.
Definition sort_by_key {A} (l : list (Z * A)) : list (Z * A) := fold_right insert_sorted [] l.
(** The loops of expand_to, lines 395-431. Reversing the target and popping takes its elements from the front; the inner
    [while] moves [insert_pos - cur_idx] elements, or all there are. *)
Fixpoint expand_loop (target : list sparse) (inserts : list (Z * list sparse)) (cur_idx pos : Z) : list sparse :=
  match inserts with
  | [] => fst (place target pos)
  | (ip, v) :: rest =>
      let pre := take (ip - cur_idx) target in
      let '(l1, pos) := place pre pos in
      let '(l2, pos) := place v pos in
      l1 ++ l2 ++ expand_loop (drop 1 (drop (ip - cur_idx) target)) rest (cur_idx + zlen pre + 1) pos
  end.
(** expand_to, lines 376-433 *)
Definition expand_to (target : list sparse) (inserts : list (Z * list sparse)) : list sparse :=
  expand_loop target (sort_by_key inserts) 0 0.

(** Merger::merge, lines 299-338 *)
Definition merger_merge (m : mode) (cd : codecs) (g : merger) (predecessor : list Z) : res merged :=
  do _ <- debug_assert_ m (contiguousb 0 (mg_patch g));
  do (pred, st) <- extract_patch_instructions m cd predecessor;
  do pred <- (if st_copy_bytes st >? 0 then deref_copy_o m pred else Ok pred);
  do (ix, ins) <- merge_loop m (mg_patch g) pred (mg_copies g) 0;
  if zlen ix =? 0 then Ok (Summary (map snd (expand_to (mg_patch g) ins)))
  else Ok (Open (mkMerger (expand_to (mg_patch g) ins) ix)).
(** Merger::finish, lines 340-342 *)
Definition merger_finish (g : merger) : list op := map snd (mg_patch g).

(** The loop of SummaryPatch::write, lines 361-364 *)
Fixpoint write_all_sections (wr : list op -> header -> W unit) (f : format) (secs : list (list op * header)) : W unit :=
  match secs with
  | [] => wlift (Ok tt)
  | (ops, h) :: rest => dow _ <- wr ops (set_format h f); write_all_sections wr f rest
  end.
(** SummaryPatch::write, lines 356-366 *)
Definition summary_write (m : mode) (cd : codecs) (ops : list op) (max_win : option Z) (f : option format) (sc : option sec_comp) : W unit :=
  let w := Z.max (Z.min (match max_win with Some w => w | None => MAX_WIN_SIZE end) MAX_WIN_SIZE) MAX_INST_SIZE in
  write_all_sections (section_writer m cd sc) (match f with Some f => f | None => Interleaved end) (make_sections ops w).
