(** Model of smdiff-reader/src/lib.rs. A reader is the list of bytes not read yet; every function returns the
    bytes it leaves. Where the reader stands after an error is not modelled. *)
From Verif Require Import Base Spec MCommon MWriter.

(** read_section_header, lib.rs:35-61. [as u32] truncates; the addition is on u32. *)
Definition read_section_header (m : mode) (bs : list Z) : res (header * list Z) :=
  do (hb, bs) <- read_u8 bs;
  let comp := Z.shiftr (Z.land hb SECTION_COMPRESSION_MASK) SECTION_COMPRESSION_RSHIFT in
  let f := if Z.land hb SECTION_FORMAT_BIT =? SECTION_FORMAT_BIT then Segregated else Interleaved in
  let more := Z.land hb SECTION_CONTINUE_BIT =? SECTION_CONTINUE_BIT in
  do (n, bs) <- read_u_varint m bs;
  let nops := to_u32 n in
  do (nadd, bs) <-
    (if is_segregated f then do (a, bs) <- read_u_varint m bs; Ok (to_u32 a, bs) else Ok (0, bs));
  do (s, bs) <- read_u_varint m bs;
  let s := to_u32 s in
  do osize <- (if is_segregated f then arith m to_u32 (nadd + s) else Ok s);
  Ok (mkHeader comp f more nops nadd osize, bs).

(** OpType and read_op_byte, lib.rs:128-152 *)
Inductive op_type := TCopy (s : csrc) | TAdd | TRun.
Definition read_op_byte (bs : list Z) : res (op_type * size * list Z) :=
  do (byte, bs) <- read_u8 bs;
  let si := Z.land byte SIZE_MASK in
  let ot := Z.land byte OP_MASK in
  let sz := size_routine si in
  if ot =? COPY_D then Ok (TCopy Dict, sz, bs)
  else if ot =? COPY_O then Ok (TCopy Output, sz, bs)
  else if ot =? ADD then Ok (TAdd, sz, bs)
  else if ot =? RUN then Ok (TRun, sz, bs)
  else Err InvalidData.

(** read_op, lib.rs:161-196; returns the operation, the updated addresses and the rest. *)
Definition read_op (m : mode) (d_addr o_addr : Z) (interleaved : bool) (bs : list Z)
  : res (op * Z * Z * list Z) :=
  do (ot, sz, bs) <- read_op_byte bs;
  do _ <- match ot, sz with
          | TRun, Done _ => Ok tt
          | TRun, _ => Err InvalidData
          | _, _ => Ok tt
          end;
  do (n, bs) <- match sz with
                | Done n => Ok (n, bs)
                | U8And62 => do (b, bs) <- read_u8 bs; Ok (b + 62, bs)
                | U16 => read_u16 bs
                end;
  match ot with
  | TCopy s =>
      do (i, bs) <- read_i_varint m bs;
      match s with
      | Dict => do a <- diff_addresses_to_u64 m d_addr i; Ok (Copy Dict a n, a, o_addr, bs)
      | Output => do a <- diff_addresses_to_u64 m o_addr i; Ok (Copy Output a n, d_addr, a, bs)
      end
  | TAdd =>
      if interleaved
      then do (b, bs) <- read_exact n bs; Ok (Add b, d_addr, o_addr, bs)
      else Ok (Add (rep 0 n), d_addr, o_addr, bs)
  | TRun => do (b, bs) <- read_u8 bs; Ok (Run b n, d_addr, o_addr, bs)
  end.

(** The loops of read_ops_no_comp, lib.rs:80-89 (Segregated) and 105-109 (Interleaved). [n] operations are left;
    [cs] is check_size (u32), [nadd] is header.num_add_bytes (u32, only updated in the Segregated loop).
    Every operation takes at least one byte, so [fuel = S (length bs)] never runs out (proved in PSection.v and PRobust.v). *)
Fixpoint read_ops_loop (fuel : nat) (m : mode) (f : format) (n d_addr o_addr cs nadd : Z) (bs : list Z)
  : res (list op * Z * Z * list Z) :=
  if n <=? 0 then Ok ([], cs, nadd, bs) else
  match fuel with
  | O => Diverge
  | S k =>
      do (o, d_addr, o_addr, bs) <- read_op m d_addr o_addr (negb (is_segregated f)) bs;
      do cs <- arith m to_u32 (cs + oal o);
      do nadd <- (if is_segregated f && is_add o then arith m to_u32 (nadd + oal o) else Ok nadd);
      do (ops, cs, nadd, bs) <- read_ops_loop k m f (n - 1) d_addr o_addr cs nadd bs;
      Ok (o :: ops, cs, nadd, bs)
  end.

(** lib.rs:95-100: fill in the Add bytes of a segregated section. *)
Fixpoint fill_adds (ops : list op) (bs : list Z) : res (list op * list Z) :=
  match ops with
  | [] => Ok ([], bs)
  | Add z :: rest =>
      do (b, bs) <- read_exact (zlen z) bs;
      do (ops, bs) <- fill_adds rest bs;
      Ok (Add b :: ops, bs)
  | o :: rest => do (ops, bs) <- fill_adds rest bs; Ok (o :: ops, bs)
  end.

Definition set_nadd (h : header) (n : Z) : header :=
  mkHeader (h_comp h) (h_format h) (h_more h) (h_nops h) n (h_osize h).

(** read_ops_no_comp, lib.rs:68-116, into an empty op_buffer; returns the operations, the updated header, the rest.
    ([op_buffer.reserve]: see MAlloc.v.) *)
Definition read_ops_no_comp (m : mode) (h : header) (bs : list Z) : res (list op * header * list Z) :=
  do (ops, cs, nadd, bs) <- read_ops_loop (S (length bs)) m (h_format h) (h_nops h) 0 0 0 (h_nadd h) bs;
  if negb (cs =? h_osize h) then Err InvalidData else
  match h_format h with
  | Segregated => do (ops, bs) <- fill_adds ops bs; Ok (ops, set_nadd h nadd, bs)
  | Interleaved => Ok (ops, h, bs)
  end.

(** read_section, lib.rs:121-126 *)
Definition read_section (m : mode) (bs : list Z) : res (list op * header * list Z) :=
  do (h, bs) <- read_section_header m bs;
  read_ops_no_comp m h bs.

(** SectionIterator, lib.rs:199-256; next_borrowed and next_owned (215-245) behave alike. An error ends the
    computation here (all callers in the workspace stop at an error). *)
Record iter := mkIter { it_source : list Z; it_done : bool }.
Definition iter_new (bs : list Z) : iter := mkIter bs false.
Definition iter_next (m : mode) (it : iter) : res (option (list op * header) * iter) :=
  if it_done it then Ok (None, it) else
  do (ops, h, rest) <- read_section m (it_source it);
  Ok (Some (ops, h), mkIter rest (negb (h_more h))).
