(** Model of smdiff-encoder/src/op_maker.rs. The type InnerOp (encoder.rs:34-38) is [cand] of SpecEnc.v. *)
From Verif Require Import Base Spec SpecEnc MCommon.

(** InnerOp::set_len, encoder.rs:55-62 *)
Definition set_len (c : cand) (n : Z) : res cand :=
  do _ <- assert_ (n <=? c_len c);
  Ok (match c with MSrc s _ p => MSrc s n p | MTrgt s _ p => MTrgt s n p | MRun b _ p => MRun b n p end).
(** InnerOp::set_o_pos, encoder.rs:64-86. [length -= diff] underflows if the new position is past the end: a panic
    with overflow checks, and without them the final assertion holds (wrapping), so the mode matters. *)
Definition set_o_pos (m : mode) (c : cand) (np : Z) : res cand :=
  do _ <- assert_ (np >=? c_pos c);
  let diff := np - c_pos c in
  do n <- usub m (c_len c) diff;
  Ok (match c with MSrc s _ _ => MSrc (s + diff) n np | MTrgt s _ _ => MTrgt (s + diff) n np | MRun b _ _ => MRun b n np end).

(** First pass of translate_inner_ops, lines 12-62. [one] is ops[one]; [rest] is ops[two..]. Operations whose length the
    code sets to 0 (and filters out on line 67) are dropped at once; they are never looked at again in between. *)
Fixpoint pass1 (m : mode) (one : cand) (rest : list cand) : res (list cand) :=
  match rest with
  | [] => Ok [one]
  | two :: rest' =>
      let one_end := c_pos one + c_len one in
      do _ <- assert_ (c_pos one <=? c_pos two);
      if one_end <=? c_pos two then do r <- pass1 m two rest'; Ok (one :: r) else
      if match rest' with three :: _ => one_end >? c_pos three | [] => false end
      then pass1 m one rest' else
      let two_end := c_pos two + c_len two in
      do span <- usub m two_end (c_pos one);
      if (span <=? 13) || (c_pos two - c_pos one <=? 4) then
        if c_len one <? c_len two then pass1 m two rest' else pass1 m one rest'
      else
        do _ <- assert_ (two_end >=? one_end);
        let mid := c_pos two + (one_end - c_pos two) / 2 in
        do one' <- set_len one (mid - c_pos one);
        do two' <- set_o_pos m two mid;
        do _ <- debug_assert_ m (c_pos one' + c_len one' =? c_pos two');
        do r <- pass1 m two' rest'; Ok (one' :: r)
  end.

(** make_add_ops, lines 96-113 (a one-byte literal becomes a Run of 1). *)
Fixpoint add_chunks (fuel : nat) (bytes : list Z) : res (list op) :=
  if zlen bytes =? 0 then Ok [] else
  match fuel with
  | O => Diverge
  | S k =>
      let n := Z.min (zlen bytes) MAX_INST_SIZE in
      do r <- add_chunks k (drop n bytes); Ok (Add (take n bytes) :: r)
  end.
Definition make_add_ops (bytes : list Z) : res (list op) :=
  match bytes with
  | [b] => Ok [Run b 1]
  | _ => add_chunks (length bytes) bytes
  end.

(** make_copy_ops, lines 115-126. [rem] is len - processed. *)
Fixpoint copy_chunks (fuel : nat) (s : csrc) (addr rem : Z) : res (list op) :=
  if rem <=? 0 then Ok [] else
  match fuel with
  | O => Diverge
  | S k =>
      let n := Z.min MAX_INST_SIZE rem in
      do r <- copy_chunks k s (addr + n) (rem - n); Ok (Copy s addr (to_u16 n) :: r)
  end.
Definition make_copy_ops (s : csrc) (start len : Z) : res (list op) :=
  copy_chunks (Z.to_nat (len / MAX_INST_SIZE + 1)) s start len.

(** RUN_LIMIT, COPY_LIMIT, lines 127-128 *)
Definition RUN_LIMIT := 372.
Definition COPY_LIMIT := 186.
(** make_run_ops, lines 129-155. [rem] is len - processed, resp. copy_bytes - processed. *)
Fixpoint run_chunks (fuel : nat) (byte rem : Z) : res (list op) :=
  if rem <=? 0 then Ok [] else
  match fuel with
  | O => Diverge
  | S k =>
      let n := Z.min MAX_RUN_LEN rem in
      do r <- run_chunks k byte (rem - n); Ok (Run byte (to_u8 n) :: r)
  end.
Fixpoint run_copies (fuel : nat) (addr max_copy rem : Z) : res (list op) :=
  if rem <=? 0 then Ok [] else
  match fuel with
  | O => Diverge
  | S k =>
      let n := Z.min (Z.min max_copy rem) MAX_INST_SIZE in
      do r <- run_copies k addr (max_copy + n) (rem - n); Ok (Copy Output addr (to_u16 n) :: r)
  end.
Definition make_run_ops (byte len start : Z) : res (list op) :=
  if len <? RUN_LIMIT then run_chunks 6 byte len
  else
    let rem := len - COPY_LIMIT in
    do r <- run_copies (Z.to_nat (rem / COPY_LIMIT + 1)) start COPY_LIMIT rem;
    Ok (rep (Run byte MAX_RUN_LEN) 3 ++ r).

(** Second pass of translate_inner_ops, lines 65-92. *)
Fixpoint pass2 (trgt : list Z) (cs : list cand) (out_pos : Z) : res (list op) :=
  match cs with
  | [] =>
      if zlen trgt >? out_pos then do b <- slice trgt out_pos (zlen trgt); make_add_ops b else Ok []
  | c :: rest =>
      if c_len c <=? 0 then pass2 trgt rest out_pos else
      do adds <- (if c_pos c >? out_pos then do b <- slice trgt out_pos (c_pos c); make_add_ops b else Ok []);
      let out_pos := Z.max out_pos (c_pos c) in
      do _ <- assert_ (c_pos c =? out_pos);
      do these <- match c with
                  | MSrc start len _ => make_copy_ops Dict start len
                  | MTrgt start len _ =>
                      do _ <- assert_ (start + len <=? out_pos);
                      make_copy_ops Output start len
                  | MRun byte len _ => make_run_ops byte len out_pos
                  end;
      do r <- pass2 trgt rest (out_pos + c_len c);
      Ok (adds ++ these ++ r)
  end.

(** translate_inner_ops, lines 7-93 *)
Definition translate_inner_ops (m : mode) (trgt : list Z) (cs : list cand) : res (list op) :=
  do cs <- match cs with [] => Ok [] | one :: rest => pass1 m one rest end;
  pass2 trgt cs 0.
