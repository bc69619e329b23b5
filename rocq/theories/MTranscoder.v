(** Model of smdiff-merger/src/transcoder.rs. *)
From Verif Require Import Base Spec MCommon MWriter MReader MDecoder MOpMaker MEncode MMerger.

(** InnerOp, lines 8-12 *)
Inductive iop := IAdd (bytes : list Z) | ICopy (s : csrc) (addr len : Z) | IRun (byte len pos : Z).
(** The closure of read_ops_from_patch, lines 60-65 *)
Definition to_inner (x : sparse) : iop :=
  match snd x with Add bs => IAdd bs | Copy s a n => ICopy s a n | Run b n => IRun b n (fst x) end.
(** The loop of join_adjacent_adds, lines 87-96: after looking at two Adds both are passed, joined or not. *)
Fixpoint join_adds (ops : list iop) : list iop :=
  match ops with
  | IAdd a :: (IAdd b :: rest) =>
      if negb (zlen b =? 0) && (zlen a <? MAX_INST_SIZE) then IAdd (a ++ b) :: IAdd [] :: join_adds rest
      else IAdd a :: IAdd b :: join_adds rest
  | x :: rest => x :: join_adds rest
  | [] => []
  end.
(** The loop of join_adjacent_runs, lines 101-111 *)
Fixpoint join_runs (ops : list iop) : list iop :=
  match ops with
  | IRun b1 n1 p1 :: (IRun b2 n2 p2 :: rest) =>
      if b1 =? b2 then IRun b1 (n1 + n2) p1 :: IRun b2 0 p2 :: join_runs rest
      else IRun b1 n1 p1 :: IRun b2 n2 p2 :: join_runs rest
  | x :: rest => x :: join_runs rest
  | [] => []
  end.
(** The bound [ops.len() - 1] of both loops, lines 87 and 101: without operations it underflows; without overflow checks the
    loop is entered and split_at_mut(1) panics (lines 88, 102). *)
Definition join_bound (m : mode) (ops : list iop) : res unit :=
  do n <- usub m (zlen ops) 1; if (0 <? n) && (zlen ops <? 1) then Panic else Ok tt.

(** make_add_ops, lines 114-136 (the chunk loop is that of the encoder's make_add_ops, op_maker.rs:96-113) *)
Definition t_add_ops (bytes : list Z) : res (list op) :=
  match bytes with
  | [] => Ok []
  | [b] => Ok [Run b 1]
  | _ => if zlen bytes =? MAX_INST_SIZE then Ok [Add bytes] else add_chunks (length bytes) bytes
  end.
(** RUN_LIMIT, COPY_LIMIT, make_run_ops, lines 139-167: the same text as the encoder's, op_maker.rs:127-155 *)
Definition t_run_ops := make_run_ops.

(** The loop of optimize_and_convert_ops, lines 74-81 *)
Fixpoint convert (ops : list iop) : res (list op) :=
  match ops with
  | [] => Ok []
  | x :: rest =>
      do l <- match x with
              | IAdd bs => if zlen bs =? 0 then Ok [] else t_add_ops bs
              | ICopy s a n => Ok [Copy s a n]
              | IRun b n p => if n >? 0 then t_run_ops b n p else Ok []
              end;
      do r <- convert rest; Ok (l ++ r)
  end.
(** optimize_and_convert_ops, lines 70-83 *)
Definition optimize (m : mode) (ops : list iop) : res (list op) :=
  do _ <- join_bound m ops;
  let ops := join_adds ops in
  do _ <- join_bound m ops;
  convert (join_runs ops).
(** transcode, lines 32-57 *)
Definition transcode (m : mode) (cd : codecs) (input : list Z) (f : format) (sc : option sec_comp) (segment : Z) : W unit :=
  dow l <- wlift (extract_patch_instructions m cd input);
  dow ops <- wlift (optimize m (map to_inner (fst l)));
  write_all_sections (section_writer m cd sc) f (make_sections ops segment).
