(** encode and apply_patch over readers with a position: [std::io::Cursor] or a file that the caller may have read from before.
    smdiff-encoder/src/lib.rs:218-263 reads its inputs with [read_to_end], from where they stand; smdiff-decoder/src/lib.rs:23-101 reads the patch from where it stands and seeks in the source.
    The section iterator of the decoder puts a [std::io::BufReader] around the patch reader (smdiff-decoder/src/reader.rs:20), which reads ahead. *)
From Verif Require Import Base Spec SpecEnc MCommon MWriter MReader MDecoder MOpMaker MTrgtMatcher MSrcMatcher MEncInner MEncode.

(** A reader: its contents and the position. *)
Record rdr := mkRdr { rbuf : list Z; rpos : Z }.
(** [read_to_end]: what lies behind the position; the reader is then at the end (or where it was, if that is further on). *)
Definition rd_end (r : rdr) : list Z * rdr := (drop (rpos r) (rbuf r), mkRdr (rbuf r) (Z.max (rpos r) (zlen (rbuf r)))).
(** [seek(SeekFrom::Start(p))] *)
Definition rd_seek (r : rdr) (p : Z) : rdr := mkRdr (rbuf r) p.
(** [read_exact] of [n] bytes. After a failure the position is at the end. *)
Definition rd_exact (r : rdr) (n : Z) : res (list Z) * rdr :=
  let rest := drop (rpos r) (rbuf r) in
  if n <=? zlen rest then (Ok (take n rest), mkRdr (rbuf r) (rpos r + n)) else (Err EOF, mkRdr (rbuf r) (Z.max (rpos r) (zlen (rbuf r)))).

(** encode, lib.rs:218-263: the patch and outcome, and the readers afterwards. Lines 221-226 read the inputs. *)
Definition p_encode (m : mode) (cd : codecs) (c : config) (dict : option rdr) (output : rdr) : W unit * option rdr * rdr :=
  let '(src, dict') := match dict with Some r => let '(b, r') := rd_end r in (b, Some r') | None => ([], None) end in
  let '(trgt, output') := rd_end output in
  (encode_with m (section_writer m cd (cf_comp c)) (inner_of c) (cf_format c) (cf_segment c) src trgt, dict', output').

(** apply_ops, smdiff-decoder/src/lib.rs:51-101, with the source as a reader (lines 72-74). *)
Fixpoint p_ops (src : option rdr) (ops : list op) (s : sink) (pos : Z) : sink * Z * option rdr * res unit :=
  match ops with
  | [] => (s, pos, src, Ok tt)
  | o :: rest =>
      match o with
      | Add bs => p_ops src rest (sink_write s bs) (pos + zlen bs)
      | Copy Dict addr len =>
          match src with
          | None => (s, pos, src, Panic)
          | Some r =>
              match rd_exact (rd_seek r addr) len with
              | (Ok b, r') => p_ops (Some r') rest (sink_write s b) (pos + len)
              | (Err e, r') => (s, pos, Some r', Err e)
              | (Panic, r') => (s, pos, Some r', Panic)
              | (Diverge, r') => (s, pos, Some r', Diverge)
              end
          end
      | Copy Output addr len =>
          match read_at (sbuf s) addr len with
          | Ok b => p_ops src rest (sink_write (sink_seek s pos) b) (pos + len)
          | Err e => (s, pos, src, Err e)
          | Panic => (s, pos, src, Panic)
          | Diverge => (s, pos, src, Diverge)
          end
      | Run b len => p_ops src rest (sink_write s (rep b len)) (pos + len)
      end
  end.
(** ** BufReader, as used by smdiff-decoder/src/reader.rs:12, 20: bytes read ahead, and the patch reader behind them *)
Record brd := mkB { b_buf : list Z; b_in : rdr }.
(** DEFAULT_BUF_SIZE of the standard library *)
Definition BUF_CAP : Z := 8192.
Definition ahead (r : rdr) : list Z := drop (rpos r) (rbuf r).
(** Everything still to be read *)
Definition b_ahead (b : brd) : list Z := b_buf b ++ ahead (b_in b).
(** [read_exact] of a BufReader over a reader that gives as much as it is asked for (a Cursor does): from the buffer; when that is used up, a request of at least the capacity goes to the
    reader directly, a smaller one fills the buffer first. *)
Definition b_read_exact (n : Z) (b : brd) : res (list Z * brd) :=
  let have := b_buf b in
  if n <=? zlen have then Ok (take n have, mkB (drop n have) (b_in b)) else
  let rest := ahead (b_in b) in
  let more := n - zlen have in
  if more >? zlen rest then Err EOF else
  if more >=? BUF_CAP then Ok (have ++ take more rest, mkB [] (mkRdr (rbuf (b_in b)) (rpos (b_in b) + more)))
  else Ok (have ++ take more rest, mkB (drop more (take BUF_CAP rest)) (mkRdr (rbuf (b_in b)) (rpos (b_in b) + zlen (take BUF_CAP rest)))).

(** *** smdiff-common/src/lib.rs: read_u8 (279-283), read_u16 (291-295), read_u_varint (252-266), read_i_varint (274-276), over a BufReader *)
Definition b_read_u8 (b : brd) : res (Z * brd) :=
  do (x, b) <- b_read_exact 1 b; match x with v :: _ => Ok (v, b) | [] => Err EOF end.
Definition b_read_u16 (b : brd) : res (Z * brd) :=
  do (x, b) <- b_read_exact 2 b; match x with lo :: hi :: _ => Ok (lo + 256 * hi, b) | _ => Err EOF end.
(** One byte is read per round: more rounds than bytes cannot happen. *)
Fixpoint b_varint_loop (fuel : nat) (m : mode) (result shift : Z) (b : brd) : res (Z * brd) :=
  match fuel with
  | O => Diverge
  | S k =>
      do (x, b) <- b_read_u8 b;
      do v <- shl_u64 m (Z.land x 127) shift;
      let result := Z.lor result v in
      if Z.land x 128 =? 0 then Ok (result, b) else b_varint_loop k m result (shift + 7) b
  end.
Definition b_read_u_varint (m : mode) (b : brd) : res (Z * brd) := b_varint_loop (S (length (b_ahead b))) m 0 0 b.
Definition b_read_i_varint (m : mode) (b : brd) : res (Z * brd) := do (z, b) <- b_read_u_varint m b; Ok (zigzag_decode z, b).

(** *** smdiff-reader/src/lib.rs, over a BufReader (the same code as in MReader.v) *)
(** read_section_header, lib.rs:35-61. [as u32] truncates; the addition is on u32. *)
Definition b_read_section_header (m : mode) (bs : brd) : res (header * brd) :=
  do (hb, bs) <- b_read_u8 bs;
  let comp := Z.shiftr (Z.land hb SECTION_COMPRESSION_MASK) SECTION_COMPRESSION_RSHIFT in
  let f := if Z.land hb SECTION_FORMAT_BIT =? SECTION_FORMAT_BIT then Segregated else Interleaved in
  let more := Z.land hb SECTION_CONTINUE_BIT =? SECTION_CONTINUE_BIT in
  do (n, bs) <- b_read_u_varint m bs;
  let nops := to_u32 n in
  do (nadd, bs) <-
    (if is_segregated f then do (a, bs) <- b_read_u_varint m bs; Ok (to_u32 a, bs) else Ok (0, bs));
  do (s, bs) <- b_read_u_varint m bs;
  let s := to_u32 s in
  do osize <- (if is_segregated f then arith m to_u32 (nadd + s) else Ok s);
  Ok (mkHeader comp f more nops nadd osize, bs).

(** OpType and read_op_byte, lib.rs:128-152 *)
Definition b_read_op_byte (bs : brd) : res (op_type * size * brd) :=
  do (byte, bs) <- b_read_u8 bs;
  let si := Z.land byte SIZE_MASK in
  let ot := Z.land byte OP_MASK in
  let sz := size_routine si in
  if ot =? COPY_D then Ok (TCopy Dict, sz, bs)
  else if ot =? COPY_O then Ok (TCopy Output, sz, bs)
  else if ot =? ADD then Ok (TAdd, sz, bs)
  else if ot =? RUN then Ok (TRun, sz, bs)
  else Err InvalidData.

(** read_op, lib.rs:161-196; returns the operation, the updated addresses and the rest. *)
Definition b_read_op (m : mode) (d_addr o_addr : Z) (interleaved : bool) (bs : brd)
  : res (op * Z * Z * brd) :=
  do (ot, sz, bs) <- b_read_op_byte bs;
  do _ <- match ot, sz with
          | TRun, Done _ => Ok tt
          | TRun, _ => Err InvalidData
          | _, _ => Ok tt
          end;
  do (n, bs) <- match sz with
                | Done n => Ok (n, bs)
                | U8And62 => do (b, bs) <- b_read_u8 bs; Ok (b + 62, bs)
                | U16 => b_read_u16 bs
                end;
  match ot with
  | TCopy s =>
      do (i, bs) <- b_read_i_varint m bs;
      match s with
      | Dict => do a <- diff_addresses_to_u64 m d_addr i; Ok (Copy Dict a n, a, o_addr, bs)
      | Output => do a <- diff_addresses_to_u64 m o_addr i; Ok (Copy Output a n, d_addr, a, bs)
      end
  | TAdd =>
      if interleaved
      then do (b, bs) <- b_read_exact n bs; Ok (Add b, d_addr, o_addr, bs)
      else Ok (Add (rep 0 n), d_addr, o_addr, bs)
  | TRun => do (b, bs) <- b_read_u8 bs; Ok (Run b n, d_addr, o_addr, bs)
  end.

(** The loops of read_ops_no_comp, lib.rs:80-89 (Segregated) and 105-109 (Interleaved). [n] operations are left;
    [cs] is check_size (u32), [nadd] is header.num_add_bytes (u32, only updated in the Segregated loop).
    Every operation takes at least one byte, so [fuel = S (length (b_ahead bs))] never runs out (proved in PSection.v and PRobust.v). *)
Fixpoint b_read_ops_loop (fuel : nat) (m : mode) (f : format) (n d_addr o_addr cs nadd : Z) (bs : brd)
  : res (list op * Z * Z * brd) :=
  if n <=? 0 then Ok ([], cs, nadd, bs) else
  match fuel with
  | O => Diverge
  | S k =>
      do (o, d_addr, o_addr, bs) <- b_read_op m d_addr o_addr (negb (is_segregated f)) bs;
      do cs <- arith m to_u32 (cs + oal o);
      do nadd <- (if is_segregated f && is_add o then arith m to_u32 (nadd + oal o) else Ok nadd);
      do (ops, cs, nadd, bs) <- b_read_ops_loop k m f (n - 1) d_addr o_addr cs nadd bs;
      Ok (o :: ops, cs, nadd, bs)
  end.

(** lib.rs:95-100: fill in the Add bytes of a segregated section. *)
Fixpoint b_fill_adds (ops : list op) (bs : brd) : res (list op * brd) :=
  match ops with
  | [] => Ok ([], bs)
  | Add z :: rest =>
      do (b, bs) <- b_read_exact (zlen z) bs;
      do (ops, bs) <- b_fill_adds rest bs;
      Ok (Add b :: ops, bs)
  | o :: rest => do (ops, bs) <- b_fill_adds rest bs; Ok (o :: ops, bs)
  end.

(** read_ops_no_comp, lib.rs:68-116, into an empty op_buffer; returns the operations, the updated header, the rest.
    ([op_buffer.reserve] is not modelled.) *)
Definition b_read_ops_no_comp (m : mode) (h : header) (bs : brd) : res (list op * header * brd) :=
  do (ops, cs, nadd, bs) <- b_read_ops_loop (S (length (b_ahead bs))) m (h_format h) (h_nops h) 0 0 0 (h_nadd h) bs;
  if negb (cs =? h_osize h) then Err InvalidData else
  match h_format h with
  | Segregated => do (ops, bs) <- b_fill_adds ops bs; Ok (ops, set_nadd h nadd, bs)
  | Interleaved => Ok (ops, h, bs)
  end.

(** read_section, lib.rs:121-126 *)
Definition b_read_section (m : mode) (bs : brd) : res (list op * header * brd) :=
  do (h, bs) <- b_read_section_header m bs;
  b_read_ops_no_comp m h bs.


(** *** smdiff-decoder, over a BufReader *)
(** The loop of apply_no_sec_comp, lib.rs:35-45, for a smdiff-compressed section (no source). *)
Fixpoint b_apply_loop (m : mode) (fuel : nat) (bs : brd) (s : sink) (pos : Z) : sink * res brd :=
  match fuel with
  | O => (s, Diverge)
  | S k =>
      match b_read_section m bs with
      | Ok (ops, h, rest) =>
          match apply_ops None ops s pos with
          | (s', pos', Ok _) => if h_more h then b_apply_loop m k rest s' pos' else (s', Ok rest)
          | (s', _, Err e) => (s', Err e)
          | (s', _, Panic) => (s', Panic)
          | (s', _, Diverge) => (s', Diverge)
          end
      | Err e => (s, Err e)
      | Panic => (s, Panic)
      | Diverge => (s, Diverge)
      end
  end.
(** An external decoder (an oracle on what is still to be read) has taken all but [rest]: one request of that size. *)
Definition b_decoded (b : brd) (r : res (list Z * list Z)) : res (list Z * brd) :=
  do (dec, rest) <- r; do (_, b) <- b_read_exact (zlen (b_ahead b) - zlen rest) b; Ok (dec, b).
(** SectionIterator::read_header and read_ops, reader.rs:56-89 *)
Definition b_next_section (m : mode) (cd : codecs) (bs : brd) : res (list op * header * brd) :=
  do (h, bs) <- b_read_section_header m bs;
  if h_comp h =? 1 then
    match b_apply_loop m (S (length (b_ahead bs))) bs (mkSink [] 0) 0 with
    | (s, Ok rest) => do (ops, h, _) <- read_ops_no_comp m h (sbuf s); Ok (ops, h, rest)
    | (_, Err e) => Err e
    | (_, Panic) => Panic
    | (_, Diverge) => Diverge
    end
  else if h_comp h =? 2 then
    do (dec, rest) <- b_decoded bs (zstd_dec cd (b_ahead bs));
    do (ops, h, _) <- read_ops_no_comp m h dec; Ok (ops, h, rest)
  else if h_comp h =? 3 then
    do (dec, rest) <- b_decoded bs (brotli_dec cd (b_ahead bs));
    do (ops, h, _) <- read_ops_no_comp m h dec; Ok (ops, h, rest)
  else b_read_ops_no_comp m h bs.
(** The loop of apply_patch, lib.rs:27-30. *)
Fixpoint p_loop (m : mode) (cd : codecs) (fuel : nat) (src : option rdr) (bs : brd) (s : sink) (pos : Z) : sink * option rdr * res brd :=
  match fuel with
  | O => (s, src, Diverge)
  | S k =>
      match b_next_section m cd bs with
      | Ok (ops, h, rest) =>
          match p_ops src ops (sink_seek s pos) pos with
          | (s', pos', src', Ok _) => if h_more h then p_loop m cd k src' rest s' pos' else (s', src', Ok rest)
          | (s', _, src', Err e) => (s', src', Err e)
          | (s', _, src', Panic) => (s', src', Panic)
          | (s', _, src', Diverge) => (s', src', Diverge)
          end
      | Err e => (s, src, Err e)
      | Panic => (s, src, Panic)
      | Diverge => (s, src, Diverge)
      end
  end.
(** apply_patch, lib.rs:23-32: the sink, the source reader, and with a success the patch reader (its position after an error is not modelled). The BufReader is dropped at the end, and what
    it has read ahead with it. *)
Definition p_apply_patch (m : mode) (cd : codecs) (patch : rdr) (src : option rdr) (s : sink) : sink * option rdr * res rdr :=
  let '(s', src', r) := p_loop m cd (S (length (ahead patch))) src (mkB [] patch) s 0 in
  (s', src', do b <- r; Ok (b_in b)).
