(** The writing functions when the writer fails: smdiff-common/src/lib.rs (varints), smdiff-writer/src/lib.rs, smdiff-encoder/src/writer.rs and lib.rs, SummaryPatch::write, transcode and the
    VCDIFF converter, over a writer that accepts [room] more bytes and then fails (disk full, broken connection; the failing [write_all] has passed on what still fitted). The code passes the
    failure on with [?] and writes nothing after it. The scratch buffer [sec_data_buffer] of section_writer is explicit here.
    A computation takes the room left and gives the bytes accepted, the room left afterwards and the outcome; [None]: the writer's error is returned. *)
From Verif Require Import Base Spec SpecEnc MCommon MWriter MReader MDecoder MOpMaker MTrgtMatcher MSrcMatcher MEncInner MEncode MMerger MTranscoder MVcdiff.

Definition FW (A : Type) : Type := Z -> list Z * Z * option (res A).
(** [writer.write_all(bs)?] *)
Definition fput (bs : list Z) : FW unit := fun room =>
  if zlen bs <=? room then (bs, room - zlen bs, Some (Ok tt)) else (take room bs, 0, None).
Definition flift {A} (r : res A) : FW A := fun room => ([], room, Some r).
Definition fbind {A B} (w : FW A) (f : A -> FW B) : FW B := fun room =>
  match w room with
  | (o, k, Some (Ok a)) => let '(o', k', r) := f a k in (o ++ o', k', r)
  | (o, k, Some (Err e)) => (o, k, Some (Err e))
  | (o, k, Some Panic) => (o, k, Some Panic)
  | (o, k, Some Diverge) => (o, k, Some Diverge)
  | (o, k, None) => (o, k, None)
  end.
Notation "'dof' x <- a ; b" := (fbind a (fun x => b))
  (at level 200, x pattern, a at level 100, b at level 200, right associativity).

(** ** smdiff-common/src/lib.rs:239-300 *)
(** write_u_varint, lib.rs:239-249: one [write_all]. *)
Definition f_write_u_varint (n : Z) : FW unit := dof b <- flift (u_varint_buf 10 n); fput b.
(** write_i_varint, lib.rs:269-271 *)
Definition f_write_i_varint (n : Z) : FW unit := f_write_u_varint (zigzag_encode n).
(** write_u8, lib.rs:286-288 *)
Definition f_write_u8 (n : Z) : FW unit := fput [n].
(** write_u16, lib.rs:298-300 *)
Definition f_write_u16 (n : Z) : FW unit := fput [n mod 256; n / 256].

(** ** smdiff-writer/src/lib.rs *)
(** f_write_section_header, lib.rs:10-28. [<<] on u8 drops the high bits; the subtraction is on u32. *)
Definition f_write_section_header (m : mode) (h : header) : FW unit :=
  let c := to_u8 (Z.shiftl (h_comp h) SECTION_COMPRESSION_RSHIFT) in
  let c := if is_segregated (h_format h) then Z.lor c SECTION_FORMAT_BIT else c in
  let c := if h_more h then Z.lor c SECTION_CONTINUE_BIT else c in
  dof _ <- f_write_u8 c;
  dof _ <- f_write_u_varint (h_nops h);
  dof osize <-
    (if is_segregated (h_format h) then
       dof _ <- f_write_u_varint (h_nadd h);
       flift (arith m to_u32 (h_osize h - h_nadd h))
     else flift (Ok (h_osize h)));
  f_write_u_varint osize.

(** f_write_op_byte_and_size, lib.rs:78-96 *)
Definition f_write_op_byte_and_size (o : op) : FW unit :=
  let byte := bit_flag o in
  dof _ <- flift (assert_ (if is_run o then oal o <=? 62 else true));
  match size_routine (oal o) with
  | Done len => f_write_u8 (Z.lor byte len)
  | U8And62 =>
      dof _ <- flift (assert_ (negb (is_run o)));
      dof _ <- f_write_u8 (Z.lor byte SIZE_MASK);
      f_write_u8 (to_u8 (oal o - 62))
  | U16 =>
      dof _ <- flift (assert_ (negb (is_run o)));
      dof _ <- f_write_u8 byte;
      f_write_u16 (oal o)
  end.

(** f_write_op_addtl, lib.rs:98-119; returns the updated (cur_d_addr, cur_o_addr). *)
Definition f_write_op_addtl (m : mode) (o : op) (d_addr o_addr : Z) : FW (Z * Z) :=
  match o with
  | Run b _ => dof _ <- f_write_u8 b; flift (Ok (d_addr, o_addr))
  | Add bs => dof _ <- fput bs; flift (Ok (d_addr, o_addr))
  | Copy Dict addr _ =>
      dof i <- flift (diff_addresses_to_i64 m d_addr addr);
      dof _ <- f_write_i_varint i;
      flift (Ok (addr, o_addr))
  | Copy Output addr _ =>
      dof i <- flift (diff_addresses_to_i64 m o_addr addr);
      dof _ <- f_write_i_varint i;
      flift (Ok (d_addr, addr))
  end.

(** The [for op in ops] loop of f_write_ops, lib.rs:46-62. Returns (total_content_len, add_bytes_written,
    concatenation of add_bytes_slices). These usize sums are not wrapped. *)
Fixpoint f_write_ops_loop (m : mode) (f : format) (ops : list op) (d_addr o_addr total addw : Z) (adds : list Z)
  : FW (Z * Z * list Z) :=
  match ops with
  | [] => flift (Ok (total, addw, adds))
  | o :: rest =>
      let total := total + oal o in
      dof _ <- f_write_op_byte_and_size o;
      match f, o with
      | Segregated, Add bs =>
          f_write_ops_loop m f rest d_addr o_addr total (addw + zlen bs) (adds ++ bs)
      | _, _ =>
          dof da <- f_write_op_addtl m o d_addr o_addr;
          f_write_ops_loop m f rest (fst da) (snd da) total addw adds
      end
  end.

(** f_write_ops, lib.rs:34-75 *)
Definition f_write_ops (m : mode) (ops : list op) (h : header) : FW unit :=
  if h_osize h >? MAX_WIN_SIZE then flift (Err InvalidData) else
  if negb (zlen ops =? h_nops h) then flift (Err InvalidData) else
  dof (total, addw, adds) <- f_write_ops_loop m (h_format h) ops 0 0 0 0 [];
  dof _ <- (if is_segregated (h_format h) then
              dof _ <- fput adds;
              if negb (addw =? h_nadd h) then flift (Err InvalidData) else flift (Ok tt)
            else flift (Ok tt));
  if negb (total =? h_osize h) then flift (Err InvalidData) else flift (Ok tt).

(** ** smdiff-encoder/src/writer.rs and lib.rs *)
(** A computation that also leaves a scratch buffer behind. *)
Definition FB : Type := Z -> (list Z * Z * option (res unit)) * list Z.
(** section_writer, writer.rs:12-51, in the configurations without an inner smdiff compression to call: plain (lines 48-51). The buffer is not touched. *)
Definition f_plain_writer (m : mode) (ops : list op) (h : header) : FW unit :=
  dof _ <- f_write_section_header m h; f_write_ops m ops h.
(** The loop of encode, lib.rs:239-261. [wr ops h buf] is section_writer, [buf] is win_data. *)
Fixpoint f_write_sections (m : mode) (wr : list op -> header -> list Z -> FB) (f : format) (src trgt : list Z) (cur : Z)
  (secs : list (list op * header)) (buf : list Z) : FW unit := fun room =>
  match secs with
  | [] => ([], room, Some (Ok tt))
  | (ops, h) :: rest =>
      let h := set_format h f in
      match (match m with Debug => do b <- check_ops src trgt cur ops; assert_ b | Release => Ok tt end) with
      | Ok _ =>
          match wr ops h buf room with
          | ((o, k, Some (Ok _)), buf') => let '(o', k', r) := f_write_sections m wr f src trgt (cur + h_osize h) rest buf' k in (o ++ o', k', r)
          | (x, _) => x
          end
      | r => ([], room, Some r)
      end
  end.
(** encode, lib.rs:218-263 *)
Definition f_encode_with (m : mode) (wr : list op -> header -> list Z -> FB) (ic : inner_config) (f : format) (segment : Z)
  (src trgt : list Z) : FW unit :=
  let segment_size := Z.max (Z.min segment MAX_WIN_SIZE) MAX_INST_SIZE in
  dof cands <- flift (encode_inner m ic src trgt);
  dof ops <- flift (translate_inner_ops m trgt cands);
  f_write_sections m wr f src trgt 0 (make_sections ops segment_size) [].
(** The call of encode in writer.rs:28-29 *)
Definition f_encode_nocomp (m : mode) (c : trgt_config) (data : list Z) : FW unit :=
  f_encode_with m (fun ops h buf room => (f_plain_writer m ops h room, buf)) (mkIC (Some c) None None None) Interleaved MAX_WIN_SIZE [] data.
(** section_writer, writer.rs:12-51. [buf]: what the caller's sec_data_buffer holds; write_ops appends to it (line 25), and it is cleared only when the compressed data have been written
    (line 46). The external encoders are one [write_all] of their result. *)
Definition f_section_writer (m : mode) (cd : codecs) (sc : option sec_comp) (ops : list op) (h : header) (buf : list Z) : FB := fun room =>
  match sc with
  | None => (f_plain_writer m ops h room, buf)
  | Some comp =>
      let h := set_comp h (algo_value comp) in
      match f_write_section_header m h room with
      | (o, k, Some (Ok _)) =>
          let '(b, r) := write_ops m ops h in
          let buf := buf ++ b in
          match r with
          | Ok _ =>
              let '(o', k', r') :=
                match comp with
                | SmdiffComp c => f_encode_nocomp m c buf k
                | ZstdComp level => fput (zstd_enc cd level buf) k
                | BrotliComp options => fput (brotli_enc cd options buf) k
                end in
              ((o ++ o', k', r'), match r' with Some (Ok _) => [] | _ => buf end)
          | r => ((o, k, Some r), buf)
          end
      | x => (x, buf)
      end
  end.
(** encode, lib.rs:218-263 *)
Definition f_encode (m : mode) (cd : codecs) (c : config) (dict : option (list Z)) (trgt : list Z) : FW unit :=
  let src := match dict with Some d => d | None => [] end in
  f_encode_with m (f_section_writer m cd (cf_comp c)) (inner_of c) (cf_format c) (cf_segment c) src trgt.

(** ** smdiff-merger *)
(** The loops of SummaryPatch::write (lib.rs:361-364) and transcode (transcoder.rs:45-54) *)
Fixpoint f_write_all_sections (wr : list op -> header -> list Z -> FB) (f : format) (secs : list (list op * header)) (buf : list Z) : FW unit := fun room =>
  match secs with
  | [] => ([], room, Some (Ok tt))
  | (ops, h) :: rest =>
      match wr ops (set_format h f) buf room with
      | ((o, k, Some (Ok _)), buf') => let '(o', k', r) := f_write_all_sections wr f rest buf' k in (o ++ o', k', r)
      | (x, _) => x
      end
  end.
(** SummaryPatch::write, lib.rs:356-366 *)
Definition f_summary_write (m : mode) (cd : codecs) (ops : list op) (max_win : option Z) (f : option format) (sc : option sec_comp) : FW unit :=
  let w := Z.max (Z.min (match max_win with Some w => w | None => MAX_WIN_SIZE end) MAX_WIN_SIZE) MAX_INST_SIZE in
  f_write_all_sections (f_section_writer m cd sc) (match f with Some f => f | None => Interleaved end) (make_sections ops w) [].
(** transcode, transcoder.rs:32-57 *)
Definition f_transcode (m : mode) (cd : codecs) (input : list Z) (f : format) (sc : option sec_comp) (segment : Z) : FW unit :=
  dof l <- flift (extract_patch_instructions m cd input);
  dof ops <- flift (optimize m (map to_inner (fst l)));
  f_write_all_sections (f_section_writer m cd sc) f (make_sections ops segment) [].

(** ** smdiff-vcdiff/src/lib.rs *)
(** f_write_section_header and f_write_ops with the header of lines 52-62 (and 82-92, 138-148, 169-179; more_sections = false: 207-217). *)
Definition f_v_write (m : mode) (s : vst) (more : bool) : FW unit :=
  let h := mkHeader 0 Interleaved more (to_u32 (zlen (v_win s))) (v_nadd s) (v_size s) in
  dof _ <- f_write_section_header m h;
  f_write_ops m (v_win s) h.
(** The test [cur_win_size + chunk_size > MAX_WIN_SIZE] and its body, lines 51-66 (81-96, 137-152, 168-183). *)
Definition f_v_room (m : mode) (s : vst) (chunk : Z) : FW vst :=
  dof n <- flift (arith m to_u32 (v_size s + chunk));
  if n >? MAX_WIN_SIZE then
    dof _ <- f_v_write m s true;
    flift (Ok (mkV [] (v_ssp s) (v_trgt s) (v_pos s) 0 0))
  else flift (Ok s).
(** cur_win.push(op); cur_win_size += chunk_size, lines 70-73 (99-101, 154-156, 185-188); [nadd] is what num_add_bytes grows by. *)
Definition f_v_push (m : mode) (s : vst) (o : op) (chunk nadd : Z) : FW vst :=
  dof na <- flift (arith m to_u32 (v_nadd s + nadd));
  dof n <- flift (arith m to_u32 (v_size s + chunk));
  flift (Ok (mkV (v_win s ++ [o]) (v_ssp s) (v_trgt s) (v_pos s) n na)).
(** The loop of lines 49-74; [rem] is total - processed, [data] what r still holds. *)
Fixpoint f_v_adds (m : mode) (fuel : nat) (s : vst) (rem : Z) (data : list Z) : FW vst :=
  if rem <=? 0 then flift (Ok s) else
  match fuel with
  | O => flift Diverge
  | S k =>
      let chunk := Z.min rem MAX_INST_SIZE in
      dof s <- f_v_room m s chunk;
      dof (bytes, data') <- flift (read_exact chunk data);
      dof s <- f_v_push m s (Add bytes) chunk chunk;
      f_v_adds m k s (rem - chunk) data'
  end.
(** The loop of lines 79-102 *)
Fixpoint f_v_runs (m : mode) (fuel : nat) (s : vst) (rem byte : Z) : FW vst :=
  if rem <=? 0 then flift (Ok s) else
  match fuel with
  | O => flift Diverge
  | S k =>
      let chunk := Z.min rem MAX_RUN_LEN in
      dof s <- f_v_room m s chunk;
      dof _ <- flift (assert_ (chunk <=? MAX_RUN_LEN));
      dof s <- f_v_push m s (Run byte (to_u8 chunk)) chunk 0;
      f_v_runs m k s (rem - chunk) byte
  end.
(** The loop of lines 132-157: the address stays where it is. *)
Fixpoint f_v_seq (m : mode) (fuel : nat) (s : vst) (rem : Z) (src : csrc) (addr slice_len : Z) : FW vst :=
  if rem <=? 0 then flift (Ok s) else
  match fuel with
  | O => flift Diverge
  | S k =>
      let chunk := Z.min rem slice_len in
      dof s <- f_v_room m s chunk;
      dof s <- f_v_push m s (Copy src addr (to_u16 chunk)) chunk 0;
      f_v_seq m k s (rem - chunk) src addr slice_len
  end.
(** The loop of lines 162-189 *)
Fixpoint f_v_copies (m : mode) (fuel : nat) (s : vst) (rem : Z) (src : csrc) (addr : Z) : FW vst :=
  if rem <=? 0 then flift (Ok s) else
  match fuel with
  | O => flift Diverge
  | S k =>
      let chunk := Z.min MAX_INST_SIZE rem in
      dof s <- f_v_room m s chunk;
      dof s <- f_v_push m s (Copy src addr (to_u16 chunk)) chunk 0;
      dof addr <- flift (arith m to_u64 (addr + chunk));
      f_v_copies m k s (rem - chunk) src addr
  end.
(** cur_o_pos += n, lines 75, 107, 158, 190 *)
Definition f_v_advance (m : mode) (s : vst) (n : Z) : FW vst :=
  dof p <- flift (arith m to_u64 (v_pos s + n));
  flift (Ok (mkV (v_win s) (v_ssp s) (v_trgt s) p (v_size s) (v_nadd s))).
(** The match of lines 44-193. The fuel of each loop is its total: every pass of the first, second and fourth takes at least 1 off what remains; the
    third takes nothing if slice_len is 0, and then never ends. *)
Definition f_v_inst (m : mode) (s : vst) (i : vinst) : FW vst :=
  match i with
  | VAdd len data => dof s <- f_v_adds m (Z.to_nat len) s len data; f_v_advance m s len
  | VRun len byte => dof s <- f_v_runs m (Z.to_nat len) s len byte; f_v_advance m s len
  | VCopy t u_pos len_u len_o =>
      match t with
      | CopyS =>
          match v_ssp s with
          | None => flift Panic
          | Some ssp =>
              dof addr <- flift (arith m to_u64 (ssp + u_pos));
              dof s <- f_v_copies m (Z.to_nat len_o) s len_o (if v_trgt s then Output else Dict) addr;
              f_v_advance m s len_u
          end
      | CopyT start =>
          dof offset <- flift (arith m to_u32 (start - u_pos));
          dof addr <- flift (arith m to_u64 (v_pos s - offset));
          dof s <- f_v_copies m (Z.to_nat len_o) s len_o Output addr;
          f_v_advance m s len_u
      | CopyQ seq_len =>
          dof slice_len <- flift (arith m to_u32 (len_u - seq_len));
          dof addr <- flift (arith m to_u64 (v_pos s - slice_len));
          dof s <- f_v_seq m (Z.to_nat seq_len) s seq_len Output addr slice_len;
          f_v_advance m s seq_len
      end
  end.
(** The loop of lines 31-202, on the messages the reader returns. A stream that ends without EndOfFile is one where the reader fails. *)
Fixpoint f_v_loop (m : mode) (s : vst) (msgs : list vmsg) : FW vst :=
  match msgs with
  | [] => flift (Err EOF)
  | VWin ssp _ trgt :: r => f_v_loop m (mkV (v_win s) ssp (v_trgt s || trgt) (v_pos s) (v_size s) (v_nadd s)) r
  | VInst i1 i2 :: r =>
      dof s <- f_v_inst m s i1;
      dof s <- match i2 with Some i => f_v_inst m s i | None => flift (Ok s) end;
      f_v_loop m s r
  | VEndWin :: r => f_v_loop m (mkV (v_win s) None false (v_pos s) (v_size s) (v_nadd s)) r
  | VEof :: _ => flift (Ok s)
  end.
(** convert_vcdiff_to_smdiff, lines 23-220 *)
Definition f_convert_vcdiff (m : mode) (msgs : list vmsg) : FW unit :=
  dof s <- f_v_loop m v_new msgs;
  f_v_write m s false.
