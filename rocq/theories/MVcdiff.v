(** Model of smdiff-vcdiff/src/lib.rs. The VCDIFF parser is the external crate vcdiff-reader: the model starts from the messages it returns. *)
From Verif Require Import Base Spec MCommon MWriter.

(** vcdiff_common::CopyType, as matched on lines 111-129 *)
Inductive vctype := CopyS | CopyT (inst_u_pos_start : Z) | CopyQ (len_o : Z).
(** vcdiff_common::Inst, as matched on lines 45, 77, 109. [VAdd len data]: [data] are the bytes the reader holds from p_pos on.
    [VCopy t u_pos len_in_u len_in_o]: the last two are the results of the accessors of those names. *)
Inductive vinst :=
| VAdd (len : Z) (data : list Z)
| VRun (len byte : Z)
| VCopy (t : vctype) (u_pos len_in_u len_in_o : Z).
(** VCDiffReadMsg, as matched on lines 32-200. [VWin ssp sss trgt]: source_segment_position, source_segment_size (which the code ignores),
    win_indicator == VCD_TARGET. *)
Inductive vmsg :=
| VWin (ssp sss : option Z) (trgt : bool)
| VInst (first : vinst) (second : option vinst)
| VEndWin
| VEof.

(** The variables of lines 24-30. *)
Record vst := mkV { v_win : list op; v_ssp : option Z; v_trgt : bool; v_pos : Z; v_size : Z; v_nadd : Z }.
Definition v_new : vst := mkV [] None false 0 0 0.
(** write_section_header and write_ops with the header of lines 52-62 (and 82-92, 138-148, 169-179; more_sections = false: 207-217). *)
Definition v_write (m : mode) (s : vst) (more : bool) : W unit :=
  let h := mkHeader 0 Interleaved more (to_u32 (zlen (v_win s))) (v_nadd s) (v_size s) in
  dow _ <- write_section_header m h;
  write_ops m (v_win s) h.
(** The test [cur_win_size + chunk_size > MAX_WIN_SIZE] and its body, lines 51-66 (81-96, 137-152, 168-183). *)
Definition v_room (m : mode) (s : vst) (chunk : Z) : W vst :=
  dow n <- wlift (arith m to_u32 (v_size s + chunk));
  if n >? MAX_WIN_SIZE then
    dow _ <- v_write m s true;
    wlift (Ok (mkV [] (v_ssp s) (v_trgt s) (v_pos s) 0 0))
  else wlift (Ok s).
(** cur_win.push(op); cur_win_size += chunk_size, lines 70-73 (99-101, 154-156, 185-188); [nadd] is what num_add_bytes grows by. *)
Definition v_push (m : mode) (s : vst) (o : op) (chunk nadd : Z) : W vst :=
  dow na <- wlift (arith m to_u32 (v_nadd s + nadd));
  dow n <- wlift (arith m to_u32 (v_size s + chunk));
  wlift (Ok (mkV (v_win s ++ [o]) (v_ssp s) (v_trgt s) (v_pos s) n na)).
(** The loop of lines 49-74; [rem] is total - processed, [data] what r still holds. *)
Fixpoint v_adds (m : mode) (fuel : nat) (s : vst) (rem : Z) (data : list Z) : W vst :=
  if rem <=? 0 then wlift (Ok s) else
  match fuel with
  | O => wlift Diverge
  | S k =>
      let chunk := Z.min rem MAX_INST_SIZE in
      dow s <- v_room m s chunk;
      dow (bytes, data') <- wlift (read_exact chunk data);
      dow s <- v_push m s (Add bytes) chunk chunk;
      v_adds m k s (rem - chunk) data'
  end.
(** The loop of lines 79-102 *)
Fixpoint v_runs (m : mode) (fuel : nat) (s : vst) (rem byte : Z) : W vst :=
  if rem <=? 0 then wlift (Ok s) else
  match fuel with
  | O => wlift Diverge
  | S k =>
      let chunk := Z.min rem MAX_RUN_LEN in
      dow s <- v_room m s chunk;
      dow _ <- wlift (assert_ (chunk <=? MAX_RUN_LEN));
      dow s <- v_push m s (Run byte (to_u8 chunk)) chunk 0;
      v_runs m k s (rem - chunk) byte
  end.
(** The loop of lines 132-157: the address stays where it is. *)
Fixpoint v_seq (m : mode) (fuel : nat) (s : vst) (rem : Z) (src : csrc) (addr slice_len : Z) : W vst :=
  if rem <=? 0 then wlift (Ok s) else
  match fuel with
  | O => wlift Diverge
  | S k =>
      let chunk := Z.min rem slice_len in
      dow s <- v_room m s chunk;
      dow s <- v_push m s (Copy src addr (to_u16 chunk)) chunk 0;
      v_seq m k s (rem - chunk) src addr slice_len
  end.
(** The loop of lines 162-189 *)
Fixpoint v_copies (m : mode) (fuel : nat) (s : vst) (rem : Z) (src : csrc) (addr : Z) : W vst :=
  if rem <=? 0 then wlift (Ok s) else
  match fuel with
  | O => wlift Diverge
  | S k =>
      let chunk := Z.min MAX_INST_SIZE rem in
      dow s <- v_room m s chunk;
      dow s <- v_push m s (Copy src addr (to_u16 chunk)) chunk 0;
      dow addr <- wlift (arith m to_u64 (addr + chunk));
      v_copies m k s (rem - chunk) src addr
  end.
(** cur_o_pos += n, lines 75, 107, 158, 190 *)
Definition v_advance (m : mode) (s : vst) (n : Z) : W vst :=
  dow p <- wlift (arith m to_u64 (v_pos s + n));
  wlift (Ok (mkV (v_win s) (v_ssp s) (v_trgt s) p (v_size s) (v_nadd s))).
(** The match of lines 44-193. The fuel of each loop is its total: every pass of the first, second and fourth takes at least 1 off what remains; the
    third takes nothing if slice_len is 0, and then never ends. *)
Definition v_inst (m : mode) (s : vst) (i : vinst) : W vst :=
  match i with
  | VAdd len data => dow s <- v_adds m (Z.to_nat len) s len data; v_advance m s len
  | VRun len byte => dow s <- v_runs m (Z.to_nat len) s len byte; v_advance m s len
  | VCopy t u_pos len_u len_o =>
      match t with
      | CopyS =>
          match v_ssp s with
          | None => wlift Panic
          | Some ssp =>
              dow addr <- wlift (arith m to_u64 (ssp + u_pos));
              dow s <- v_copies m (Z.to_nat len_o) s len_o (if v_trgt s then Output else Dict) addr;
              v_advance m s len_u
          end
      | CopyT start =>
          dow offset <- wlift (arith m to_u32 (start - u_pos));
          dow addr <- wlift (arith m to_u64 (v_pos s - offset));
          dow s <- v_copies m (Z.to_nat len_o) s len_o Output addr;
          v_advance m s len_u
      | CopyQ seq_len =>
          dow slice_len <- wlift (arith m to_u32 (len_u - seq_len));
          dow addr <- wlift (arith m to_u64 (v_pos s - slice_len));
          dow s <- v_seq m (Z.to_nat seq_len) s seq_len Output addr slice_len;
          v_advance m s seq_len
      end
  end.
(** The loop of lines 31-202, on the messages the reader returns. A stream that ends without EndOfFile is one where the reader fails. *)
Fixpoint v_loop (m : mode) (s : vst) (msgs : list vmsg) : W vst :=
  match msgs with
  | [] => wlift (Err EOF)
  | VWin ssp _ trgt :: r => v_loop m (mkV (v_win s) ssp (v_trgt s || trgt) (v_pos s) (v_size s) (v_nadd s)) r
  | VInst i1 i2 :: r =>
      dow s <- v_inst m s i1;
      dow s <- match i2 with Some i => v_inst m s i | None => wlift (Ok s) end;
      v_loop m s r
  | VEndWin :: r => v_loop m (mkV (v_win s) None false (v_pos s) (v_size s) (v_nadd s)) r
  | VEof :: _ => wlift (Ok s)
  end.
(** convert_vcdiff_to_smdiff, lines 23-220 *)
Definition convert_vcdiff (m : mode) (msgs : list vmsg) : W unit :=
  dow s <- v_loop m v_new msgs;
  v_write m s false.
