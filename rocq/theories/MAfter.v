(** The readers and both section iterators, with the position of the source after an error as well: smdiff-reader/src/lib.rs:35-256 and smdiff-decoder/src/reader.rs:11-100, as in MReader.v and
    MDecoder.v, so that an iterator can be called again after it returned an error.
    [left n bs] is what is left of the source [bs] after a [read_exact] of [n] bytes failed: the standard library does not specify it. *)
From Verif Require Import Base Spec MCommon MWriter MReader MDecoder.

(** A function that reads: the source afterwards, and the outcome. *)
Definition E (A : Type) : Type := list Z -> list Z * res A.
Definition eret {A} (a : A) : E A := fun bs => (bs, Ok a).
Definition elift {A} (r : res A) : E A := fun bs => (bs, r).
(** [?] *)
Definition ebind {A B} (x : E A) (k : A -> E B) : E B := fun bs =>
  match x bs with (bs, Ok a) => k a bs | (bs, Err e) => (bs, Err e) | (bs, Panic) => (bs, Panic) | (bs, Diverge) => (bs, Diverge) end.
(** A call of the standard library's [read_exact] for [n] bytes, given what it returns. *)
Definition e_call {A} (left : Z -> list Z -> list Z) (n : Z) (read : list Z -> res (A * list Z)) : E A := fun bs =>
  match read bs with Ok (a, r) => (r, Ok a) | Err e => (left n bs, Err e) | Panic => (bs, Panic) | Diverge => (bs, Diverge) end.

(** smdiff-common/src/lib.rs: read_u8 (279-283), read_u16 (291-295), read_u_varint (252-266: a byte per call, a failing call had nothing to read), read_i_varint (274-276) *)
Definition e_u8 left : E Z := e_call left 1 read_u8.
Definition e_u16 left : E Z := e_call left 2 read_u16.
Definition e_exact left (n : Z) : E (list Z) := e_call left n (read_exact n).
Fixpoint e_varint_loop (m : mode) (result shift : Z) (bs : list Z) : list Z * res Z :=
  match bs with
  | [] => ([], Err EOF)
  | b :: r =>
      match shl_u64 m (Z.land b 127) shift with
      | Ok v => if Z.land b 128 =? 0 then (r, Ok (Z.lor result v)) else e_varint_loop m (Z.lor result v) (shift + 7) r
      | Err e => (r, Err e) | Panic => (r, Panic) | Diverge => (r, Diverge)
      end
  end.
Definition e_u_varint (m : mode) : E Z := e_varint_loop m 0 0.
Definition e_i_varint (m : mode) : E Z := ebind (e_u_varint m) (fun z => eret (zigzag_decode z)).

(** read_section_header, smdiff-reader/src/lib.rs:35-61 *)
Definition e_section_header left (m : mode) : E header :=
  ebind (e_u8 left) (fun hb =>
  let comp := Z.shiftr (Z.land hb SECTION_COMPRESSION_MASK) SECTION_COMPRESSION_RSHIFT in
  let f := if Z.land hb SECTION_FORMAT_BIT =? SECTION_FORMAT_BIT then Segregated else Interleaved in
  let more := Z.land hb SECTION_CONTINUE_BIT =? SECTION_CONTINUE_BIT in
  ebind (e_u_varint m) (fun n =>
  ebind (if is_segregated f then ebind (e_u_varint m) (fun a => eret (to_u32 a)) else eret 0) (fun nadd =>
  ebind (e_u_varint m) (fun s =>
  ebind (elift (if is_segregated f then arith m to_u32 (nadd + to_u32 s) else Ok (to_u32 s))) (fun osize =>
  eret (mkHeader comp f more (to_u32 n) nadd osize)))))).

(** read_op_byte and read_op, lib.rs:139-196 *)
Definition e_op left (m : mode) (d_addr o_addr : Z) (interleaved : bool) : E (op * Z * Z) :=
  ebind (e_u8 left) (fun byte =>
  let sz := size_routine (Z.land byte SIZE_MASK) in
  let ot := Z.land byte OP_MASK in
  ebind (elift (if ot =? COPY_D then Ok (TCopy Dict) else if ot =? COPY_O then Ok (TCopy Output) else if ot =? ADD then Ok TAdd else if ot =? RUN then Ok TRun else Err InvalidData)) (fun ot =>
  ebind (elift (match ot, sz with TRun, Done _ => Ok tt | TRun, _ => Err InvalidData | _, _ => Ok tt end)) (fun _ =>
  ebind (match sz with Done n => eret n | U8And62 => ebind (e_u8 left) (fun b => eret (b + 62)) | U16 => e_u16 left end) (fun n =>
  match ot with
  | TCopy s =>
      ebind (e_i_varint m) (fun i =>
      match s with
      | Dict => ebind (elift (diff_addresses_to_u64 m d_addr i)) (fun a => eret (Copy Dict a n, a, o_addr))
      | Output => ebind (elift (diff_addresses_to_u64 m o_addr i)) (fun a => eret (Copy Output a n, d_addr, a))
      end)
  | TAdd => if interleaved then ebind (e_exact left n) (fun b => eret (Add b, d_addr, o_addr)) else eret (Add (rep 0 n), d_addr, o_addr)
  | TRun => ebind (e_u8 left) (fun b => eret (Run b n, d_addr, o_addr))
  end)))).

(** read_ops_no_comp, lib.rs:68-116: the loops (80-89, 105-109), then filling the literals (95-100). Fuel as in MReader.v. *)
Fixpoint e_ops_loop (fuel : nat) left (m : mode) (f : format) (n d_addr o_addr cs nadd : Z) : E (list op * Z * Z) :=
  if n <=? 0 then eret ([], cs, nadd) else
  match fuel with
  | O => elift Diverge
  | S k =>
      ebind (e_op left m d_addr o_addr (negb (is_segregated f))) (fun '(o, d_addr, o_addr) =>
      ebind (elift (arith m to_u32 (cs + oal o))) (fun cs =>
      ebind (elift (if is_segregated f && is_add o then arith m to_u32 (nadd + oal o) else Ok nadd)) (fun nadd =>
      ebind (e_ops_loop k left m f (n - 1) d_addr o_addr cs nadd) (fun '(ops, cs, nadd) => eret (o :: ops, cs, nadd)))))
  end.
Fixpoint e_fill left (ops : list op) : E (list op) :=
  match ops with
  | [] => eret []
  | Add z :: rest => ebind (e_exact left (zlen z)) (fun b => ebind (e_fill left rest) (fun ops => eret (Add b :: ops)))
  | o :: rest => ebind (e_fill left rest) (fun ops => eret (o :: ops))
  end.
Definition e_read_ops left (m : mode) (h : header) : E (list op * header) := fun bs =>
  ebind (e_ops_loop (S (length bs)) left m (h_format h) (h_nops h) 0 0 0 (h_nadd h)) (fun '(ops, cs, nadd) =>
  if negb (cs =? h_osize h) then elift (Err InvalidData) else
  match h_format h with
  | Segregated => ebind (e_fill left ops) (fun ops => eret (ops, set_nadd h nadd))
  | Interleaved => eret (ops, h)
  end) bs.
(** read_section, lib.rs:121-126 *)
Definition e_section left (m : mode) : E (list op * header) := ebind (e_section_header left m) (e_read_ops left m).

(** The loop of apply_no_sec_comp, smdiff-decoder/src/lib.rs:35-45, into an empty buffer, without a source: the buffer afterwards. *)
Fixpoint e_inner_loop (fuel : nat) left (m : mode) (s : sink) (pos : Z) : E sink := fun bs =>
  match fuel with
  | O => (bs, Diverge)
  | S k =>
      ebind (e_section left m) (fun '(ops, h) =>
      match apply_ops None ops s pos with
      | (s, pos, Ok _) => if h_more h then e_inner_loop k left m s pos else eret s
      | (_, _, Err e) => elift (Err e)
      | (_, _, Panic) => elift Panic
      | (_, _, Diverge) => elift Diverge
      end) bs
  end.
(** read_header and read_ops of the decoder's iterator, reader.rs:56-89. [xleft bs]: what is left of the source after an error in a zstd or brotli section whose data start at [bs]. *)
Definition e_next_section left (xleft : list Z -> list Z) (m : mode) (cd : codecs) : E (list op * header) :=
  ebind (e_section_header left m) (fun h bs =>
  if h_comp h =? 1 then
    ebind (e_inner_loop (S (length bs)) left m (mkSink [] 0) 0) (fun s =>
    elift (do (ops, h, _) <- read_ops_no_comp m h (sbuf s); Ok (ops, h))) bs
  else if h_comp h =? 2 then
    match (do (dec, rest) <- zstd_dec cd bs; do (ops, h, _) <- read_ops_no_comp m h dec; Ok (ops, h, rest)) with
    | Ok (ops, h, rest) => (rest, Ok (ops, h)) | Err e => (xleft bs, Err e) | Panic => (xleft bs, Panic) | Diverge => (xleft bs, Diverge)
    end
  else if h_comp h =? 3 then
    match (do (dec, rest) <- brotli_dec cd bs; do (ops, h, _) <- read_ops_no_comp m h dec; Ok (ops, h, rest)) with
    | Ok (ops, h, rest) => (rest, Ok (ops, h)) | Err e => (xleft bs, Err e) | Panic => (xleft bs, Panic) | Diverge => (xleft bs, Diverge)
    end
  else e_read_ops left m h bs).

(** The iterators: next and next_borrowed of smdiff-reader (lib.rs:215-245) with [sec = e_section], and of smdiff-decoder (reader.rs:29-66, 85-87) with [sec = e_next_section]. [done] is only set
    when a section was returned. The buffers are in MIter.v. *)
Record eiter := mkEI { ei_source : list Z; ei_done : bool }.
Definition ei_new (bs : list Z) : eiter := mkEI bs false.
(** What a call returns: [None], or [Some] of a result. *)
Definition ei_next (sec : E (list op * header)) (it : eiter) : option (res (list op * header)) * eiter :=
  if ei_done it then (None, it) else
  match sec (ei_source it) with
  | (bs, Ok (ops, h)) => (Some (Ok (ops, h)), mkEI bs (negb (h_more h)))
  | (bs, r) => (Some r, mkEI bs false)
  end.
(** [n] calls, one after the other. *)
Fixpoint ei_polls (sec : E (list op * header)) (n : nat) (it : eiter) : list (option (res (list op * header))) * eiter :=
  match n with
  | O => ([], it)
  | S k => let '(x, it) := ei_next sec it in let '(l, it) := ei_polls sec k it in (x :: l, it)
  end.
