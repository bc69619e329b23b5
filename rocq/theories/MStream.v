(** The decoder over any source of bytes: [std::io::Read] may return fewer bytes than asked for, and may be interrupted. The code is that of MReader.v and MDecoder.v, with the list of bytes
    replaced by a reader. Second part: the streaming decompressors of smdiff-decoder/src/reader.rs:75-83, which produce bytes as they are asked for. *)
From Verif Require Import Base Spec SpecEnc MCommon MWriter MReader MDecoder MOpMaker MTrgtMatcher MSrcMatcher MEncInner MEncode.

(** The outcome of one call of [Read::read]: some bytes and the new state, [ErrorKind::Interrupted], or another error. *)
Inductive got (St : Type) := Got (bs : list Z) (s : St) | Again (s : St) | Fails (e : err).
Arguments Got {St}. Arguments Again {St}. Arguments Fails {St}.
(** [rd_read n s]: a call with a buffer of [n] bytes. [rd_most s]: more calls than these do not occur before the end (only used as fuel). *)
Record reader (St : Type) := mkReader { rd_read : Z -> St -> got St; rd_most : St -> nat }.
Arguments rd_read {St}. Arguments rd_most {St}. Arguments mkReader {St}.

(** [Read::read_exact] (the standard library's default): reads until the buffer is full; nothing read means end of file; interrupted reads are repeated. *)
Fixpoint g_exact_loop {St} (R : reader St) (fuel : nat) (n : Z) (s : St) : res (list Z * St) :=
  if n <=? 0 then Ok ([], s) else
  match fuel with
  | O => Diverge
  | S k =>
      match rd_read R n s with
      | Got [] _ => Err EOF
      | Got bs s => do (x, s) <- g_exact_loop R k (n - zlen bs) s; Ok (bs ++ x, s)
      | Again s => g_exact_loop R k n s
      | Fails e => Err e
      end
  end.
Definition g_read_exact {St} (R : reader St) (n : Z) (s : St) : res (list Z * St) := g_exact_loop R (S (rd_most R s)) n s.

(** *** smdiff-common/src/lib.rs: read_u8 (279-283), read_u16 (291-295), read_u_varint (252-266), read_i_varint (274-276), over a reader *)
Definition g_read_u8 {St} (R : reader St) (b : St) : res (Z * St) :=
  do (x, b) <- g_read_exact R 1 b; match x with v :: _ => Ok (v, b) | [] => Err EOF end.
Definition g_read_u16 {St} (R : reader St) (b : St) : res (Z * St) :=
  do (x, b) <- g_read_exact R 2 b; match x with lo :: hi :: _ => Ok (lo + 256 * hi, b) | _ => Err EOF end.
(** One byte is read per round: more rounds than bytes cannot happen. *)
Fixpoint g_varint_loop {St} (R : reader St) (fuel : nat) (m : mode) (result shift : Z) (b : St) : res (Z * St) :=
  match fuel with
  | O => Diverge
  | S k =>
      do (x, b) <- g_read_u8 R b;
      do v <- shl_u64 m (Z.land x 127) shift;
      let result := Z.lor result v in
      if Z.land x 128 =? 0 then Ok (result, b) else g_varint_loop R k m result (shift + 7) b
  end.
Definition g_read_u_varint {St} (R : reader St) (m : mode) (b : St) : res (Z * St) := g_varint_loop R (S (rd_most R b)) m 0 0 b.
Definition g_read_i_varint {St} (R : reader St) (m : mode) (b : St) : res (Z * St) := do (z, b) <- g_read_u_varint R m b; Ok (zigzag_decode z, b).

(** *** smdiff-reader/src/lib.rs, over a reader (the same code as in MReader.v) *)
(** read_section_header, lib.rs:35-61. [as u32] truncates; the addition is on u32. *)
Definition g_read_section_header {St} (R : reader St) (m : mode) (bs : St) : res (header * St) :=
  do (hb, bs) <- g_read_u8 R bs;
  let comp := Z.shiftr (Z.land hb SECTION_COMPRESSION_MASK) SECTION_COMPRESSION_RSHIFT in
  let f := if Z.land hb SECTION_FORMAT_BIT =? SECTION_FORMAT_BIT then Segregated else Interleaved in
  let more := Z.land hb SECTION_CONTINUE_BIT =? SECTION_CONTINUE_BIT in
  do (n, bs) <- g_read_u_varint R m bs;
  let nops := to_u32 n in
  do (nadd, bs) <-
    (if is_segregated f then do (a, bs) <- g_read_u_varint R m bs; Ok (to_u32 a, bs) else Ok (0, bs));
  do (s, bs) <- g_read_u_varint R m bs;
  let s := to_u32 s in
  do osize <- (if is_segregated f then arith m to_u32 (nadd + s) else Ok s);
  Ok (mkHeader comp f more nops nadd osize, bs).

(** OpType and read_op_byte, lib.rs:128-152 *)
Definition g_read_op_byte {St} (R : reader St) (bs : St) : res (op_type * size * St) :=
  do (byte, bs) <- g_read_u8 R bs;
  let si := Z.land byte SIZE_MASK in
  let ot := Z.land byte OP_MASK in
  let sz := size_routine si in
  if ot =? COPY_D then Ok (TCopy Dict, sz, bs)
  else if ot =? COPY_O then Ok (TCopy Output, sz, bs)
  else if ot =? ADD then Ok (TAdd, sz, bs)
  else if ot =? RUN then Ok (TRun, sz, bs)
  else Err InvalidData.

(** read_op, lib.rs:161-196; returns the operation, the updated addresses and the rest. *)
Definition g_read_op {St} (R : reader St) (m : mode) (d_addr o_addr : Z) (interleaved : bool) (bs : St)
  : res (op * Z * Z * St) :=
  do (ot, sz, bs) <- g_read_op_byte R bs;
  do _ <- match ot, sz with
          | TRun, Done _ => Ok tt
          | TRun, _ => Err InvalidData
          | _, _ => Ok tt
          end;
  do (n, bs) <- match sz with
                | Done n => Ok (n, bs)
                | U8And62 => do (b, bs) <- g_read_u8 R bs; Ok (b + 62, bs)
                | U16 => g_read_u16 R bs
                end;
  match ot with
  | TCopy s =>
      do (i, bs) <- g_read_i_varint R m bs;
      match s with
      | Dict => do a <- diff_addresses_to_u64 m d_addr i; Ok (Copy Dict a n, a, o_addr, bs)
      | Output => do a <- diff_addresses_to_u64 m o_addr i; Ok (Copy Output a n, d_addr, a, bs)
      end
  | TAdd =>
      if interleaved
      then do (b, bs) <- g_read_exact R n bs; Ok (Add b, d_addr, o_addr, bs)
      else Ok (Add (rep 0 n), d_addr, o_addr, bs)
  | TRun => do (b, bs) <- g_read_u8 R bs; Ok (Run b n, d_addr, o_addr, bs)
  end.

(** The loops of read_ops_no_comp, lib.rs:80-89 (Segregated) and 105-109 (Interleaved). [n] operations are left;
    [cs] is check_size (u32), [nadd] is header.num_add_bytes (u32, only updated in the Segregated loop).
    Every operation takes at least one byte, so [fuel = S (rd_most R bs)] never runs out (proved in PSection.v and PRobust.v). *)
Fixpoint g_read_ops_loop {St} (R : reader St) (fuel : nat) (m : mode) (f : format) (n d_addr o_addr cs nadd : Z) (bs : St)
  : res (list op * Z * Z * St) :=
  if n <=? 0 then Ok ([], cs, nadd, bs) else
  match fuel with
  | O => Diverge
  | S k =>
      do (o, d_addr, o_addr, bs) <- g_read_op R m d_addr o_addr (negb (is_segregated f)) bs;
      do cs <- arith m to_u32 (cs + oal o);
      do nadd <- (if is_segregated f && is_add o then arith m to_u32 (nadd + oal o) else Ok nadd);
      do (ops, cs, nadd, bs) <- g_read_ops_loop R k m f (n - 1) d_addr o_addr cs nadd bs;
      Ok (o :: ops, cs, nadd, bs)
  end.

(** lib.rs:95-100: fill in the Add bytes of a segregated section. *)
Fixpoint g_fill_adds {St} (R : reader St) (ops : list op) (bs : St) : res (list op * St) :=
  match ops with
  | [] => Ok ([], bs)
  | Add z :: rest =>
      do (b, bs) <- g_read_exact R (zlen z) bs;
      do (ops, bs) <- g_fill_adds R rest bs;
      Ok (Add b :: ops, bs)
  | o :: rest => do (ops, bs) <- g_fill_adds R rest bs; Ok (o :: ops, bs)
  end.

(** read_ops_no_comp, lib.rs:68-116, into an empty op_buffer; returns the operations, the updated header, the rest.
    ([op_buffer.reserve] is not modelled.) *)
Definition g_read_ops_no_comp {St} (R : reader St) (m : mode) (h : header) (bs : St) : res (list op * header * St) :=
  do (ops, cs, nadd, bs) <- g_read_ops_loop R (S (rd_most R bs)) m (h_format h) (h_nops h) 0 0 0 (h_nadd h) bs;
  if negb (cs =? h_osize h) then Err InvalidData else
  match h_format h with
  | Segregated => do (ops, bs) <- g_fill_adds R ops bs; Ok (ops, set_nadd h nadd, bs)
  | Interleaved => Ok (ops, h, bs)
  end.

(** read_section, lib.rs:121-126 *)
Definition g_read_section {St} (R : reader St) (m : mode) (bs : St) : res (list op * header * St) :=
  do (h, bs) <- g_read_section_header R m bs;
  g_read_ops_no_comp R m h bs.


(** *** smdiff-decoder, over a reader *)
(** The loop of apply_no_sec_comp, lib.rs:35-45, for a smdiff-compressed section (no source). *)
Fixpoint g_apply_loop {St} (R : reader St) (m : mode) (fuel : nat) (bs : St) (s : sink) (pos : Z) : sink * res St :=
  match fuel with
  | O => (s, Diverge)
  | S k =>
      match g_read_section R m bs with
      | Ok (ops, h, rest) =>
          match apply_ops None ops s pos with
          | (s', pos', Ok _) => if h_more h then g_apply_loop R m k rest s' pos' else (s', Ok rest)
          | (s', _, Err e) => (s', Err e)
          | (s', _, Panic) => (s', Panic)
          | (s', _, Diverge) => (s', Diverge)
          end
      | Err e => (s, Err e)
      | Panic => (s, Panic)
      | Diverge => (s, Diverge)
      end
  end.
(** SectionIterator::read_header and read_ops, reader.rs:56-89 *)
Definition g_next_section {St} (R : reader St) (m : mode) (xd : Z -> St -> res (list Z * St)) (bs : St) : res (list op * header * St) :=
  do (h, bs) <- g_read_section_header R m bs;
  if h_comp h =? 1 then
    match g_apply_loop R m (S (rd_most R bs)) bs (mkSink [] 0) 0 with
    | (s, Ok rest) => do (ops, h, _) <- read_ops_no_comp m h (sbuf s); Ok (ops, h, rest)
    | (_, Err e) => Err e
    | (_, Panic) => Panic
    | (_, Diverge) => Diverge
    end
  else if h_comp h =? 2 then
    do (dec, rest) <- xd 2 bs;
    do (ops, h, _) <- read_ops_no_comp m h dec; Ok (ops, h, rest)
  else if h_comp h =? 3 then
    do (dec, rest) <- xd 3 bs;
    do (ops, h, _) <- read_ops_no_comp m h dec; Ok (ops, h, rest)
  else g_read_ops_no_comp R m h bs.

(** The loop of apply_patch, lib.rs:27-30. *)
Fixpoint g_patch_loop {St} (R : reader St) (m : mode) (xd : Z -> St -> res (list Z * St)) (fuel : nat) (dict : option (list Z)) (bs : St) (s : sink) (pos : Z) : sink * res St :=
  match fuel with
  | O => (s, Diverge)
  | S k =>
      match g_next_section R m xd bs with
      | Ok (ops, h, rest) =>
          match apply_ops dict ops s pos with
          | (s', pos', Ok _) => if h_more h then g_patch_loop R m xd k dict rest s' pos' else (s', Ok rest)
          | (s', _, Err e) => (s', Err e)
          | (s', _, Panic) => (s', Panic)
          | (s', _, Diverge) => (s', Diverge)
          end
      | Err e => (s, Err e)
      | Panic => (s, Panic)
      | Diverge => (s, Diverge)
      end
  end.
(** ** BufReader (reader.rs:12, 20) over any reader: [BufReader::read]. With an empty buffer a request of at least the capacity goes to the reader directly; a smaller one fills the buffer
    with one call of the reader, and is answered from it. *)
Definition BUF_SIZE : Z := 8192.
Definition buf_read {St} (R : reader St) (n : Z) (s : list Z * St) : got (list Z * St) :=
  let '(have, r) := s in
  match have with
  | _ :: _ => Got (take n have) (drop n have, r)
  | [] =>
      if n >=? BUF_SIZE then
        match rd_read R n r with Got bs r => Got bs ([], r) | Again r => Again ([], r) | Fails e => Fails e end
      else
        match rd_read R BUF_SIZE r with Got bs r => Got (take n bs) (drop n bs, r) | Again r => Again ([], r) | Fails e => Fails e end
  end.
Definition buffered {St} (R : reader St) : reader (list Z * St) :=
  mkReader (buf_read R) (fun s => length (fst s) + rd_most R (snd s))%nat.
(** apply_patch, lib.rs:23-32, of a patch that is read from any reader. [xd]: the external decoders, on the buffered reader. *)
Definition g_apply_patch {St} (R : reader St) (m : mode) (xd : Z -> list Z * St -> res (list Z * (list Z * St))) (patch : St) (dict : option (list Z)) (s : sink) : sink * res unit :=
  let '(s', r) := g_patch_loop (buffered R) m xd (S (rd_most (buffered R) ([], patch))) dict ([], patch) s 0 in
  (s', do _ <- r; Ok tt).

(** ** Streaming decompressors *)
(** [sd_open src]: the decoder is made over the source; [sd_left]: what of the source it has not consumed; [sd_finished]: it has seen the end of its compressed data. *)
Record sdec := mkSdec { sd_st : Type; sd_reader : reader sd_st; sd_open : list Z -> res sd_st; sd_left : sd_st -> list Z; sd_finished : sd_st -> bool }.
(** SectionIterator::read_header and read_ops, reader.rs:56-89: line 76 unwraps the outcome of StreamingDecoder::new, line 81 ([into_inner]) is an error when brotli has not
    seen the end of its data (its kind is not modelled). The decoders are asked for exactly the bytes that the operations need. *)
Definition next_section_s (m : mode) (zs br : sdec) (bs : list Z) : res (list op * header * list Z) :=
  do (h, bs) <- read_section_header m bs;
  if h_comp h =? 1 then
    match apply_no_sec_comp m None bs (mkSink [] 0) with
    | (s, Ok rest) => do (ops, h, _) <- read_ops_no_comp m h (sbuf s); Ok (ops, h, rest)
    | (_, Err e) => Err e
    | (_, Panic) => Panic
    | (_, Diverge) => Diverge
    end
  else if h_comp h =? 2 then
    match sd_open zs bs with
    | Ok s => do (ops, h, s) <- g_read_ops_no_comp (sd_reader zs) m h s; Ok (ops, h, sd_left zs s)
    | Err _ => Panic
    | Panic => Panic
    | Diverge => Diverge
    end
  else if h_comp h =? 3 then
    do s <- sd_open br bs;
    do (ops, h, s) <- g_read_ops_no_comp (sd_reader br) m h s;
    if sd_finished br s then Ok (ops, h, sd_left br s) else Err InvalidData
  else read_ops_no_comp m h bs.
(** apply_patch, lib.rs:23-32 *)
Definition apply_patch_s (m : mode) (zs br : sdec) (patch : list Z) (dict : option (list Z)) (s : sink) : sink * res unit :=
  let '(s', r) := apply_loop (next_section_s m zs br) (S (length patch)) dict patch s 0 in
  (s', do _ <- r; Ok tt).
