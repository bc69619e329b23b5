(** Model of smdiff-writer/src/lib.rs. *)
From Verif Require Import Base Spec MCommon.

Definition is_segregated (f : format) : bool := match f with Segregated => true | Interleaved => false end.

(** write_section_header, lib.rs:10-28. [<<] on u8 drops the high bits; the subtraction is on u32. *)
Definition write_section_header (m : mode) (h : header) : W unit :=
  let c := to_u8 (Z.shiftl (h_comp h) SECTION_COMPRESSION_RSHIFT) in
  let c := if is_segregated (h_format h) then Z.lor c SECTION_FORMAT_BIT else c in
  let c := if h_more h then Z.lor c SECTION_CONTINUE_BIT else c in
  dow _ <- write_u8 c;
  dow _ <- write_u_varint (h_nops h);
  dow osize <-
    (if is_segregated (h_format h) then
       dow _ <- write_u_varint (h_nadd h);
       wlift (arith m to_u32 (h_osize h - h_nadd h))
     else wlift (Ok (h_osize h)));
  write_u_varint osize.

(** write_op_byte_and_size, lib.rs:78-96 *)
Definition write_op_byte_and_size (o : op) : W unit :=
  let byte := bit_flag o in
  dow _ <- wlift (assert_ (if is_run o then oal o <=? 62 else true));
  match size_routine (oal o) with
  | Done len => write_u8 (Z.lor byte len)
  | U8And62 =>
      dow _ <- wlift (assert_ (negb (is_run o)));
      dow _ <- write_u8 (Z.lor byte SIZE_MASK);
      write_u8 (to_u8 (oal o - 62))
  | U16 =>
      dow _ <- wlift (assert_ (negb (is_run o)));
      dow _ <- write_u8 byte;
      write_u16 (oal o)
  end.

(** write_op_addtl, lib.rs:98-119; returns the updated (cur_d_addr, cur_o_addr). *)
Definition write_op_addtl (m : mode) (o : op) (d_addr o_addr : Z) : W (Z * Z) :=
  match o with
  | Run b _ => dow _ <- write_u8 b; wlift (Ok (d_addr, o_addr))
  | Add bs => dow _ <- wput bs; wlift (Ok (d_addr, o_addr))
  | Copy Dict addr _ =>
      dow i <- wlift (diff_addresses_to_i64 m d_addr addr);
      dow _ <- write_i_varint i;
      wlift (Ok (addr, o_addr))
  | Copy Output addr _ =>
      dow i <- wlift (diff_addresses_to_i64 m o_addr addr);
      dow _ <- write_i_varint i;
      wlift (Ok (d_addr, addr))
  end.

(** The [for op in ops] loop of write_ops, lib.rs:46-62. Returns (total_content_len, add_bytes_written,
    concatenation of add_bytes_slices). These usize sums are not wrapped. *)
Fixpoint write_ops_loop (m : mode) (f : format) (ops : list op) (d_addr o_addr total addw : Z) (adds : list Z)
  : W (Z * Z * list Z) :=
  match ops with
  | [] => wlift (Ok (total, addw, adds))
  | o :: rest =>
      let total := total + oal o in
      dow _ <- write_op_byte_and_size o;
      match f, o with
      | Segregated, Add bs =>
          write_ops_loop m f rest d_addr o_addr total (addw + zlen bs) (adds ++ bs)
      | _, _ =>
          dow da <- write_op_addtl m o d_addr o_addr;
          write_ops_loop m f rest (fst da) (snd da) total addw adds
      end
  end.

(** write_ops, lib.rs:34-75 *)
Definition write_ops (m : mode) (ops : list op) (h : header) : W unit :=
  if h_osize h >? MAX_WIN_SIZE then wlift (Err InvalidData) else
  if negb (zlen ops =? h_nops h) then wlift (Err InvalidData) else
  dow (total, addw, adds) <- write_ops_loop m (h_format h) ops 0 0 0 0 [];
  dow _ <- (if is_segregated (h_format h) then
              dow _ <- wput adds;
              if negb (addw =? h_nadd h) then wlift (Err InvalidData) else wlift (Ok tt)
            else wlift (Ok tt));
  if negb (total =? h_osize h) then wlift (Err InvalidData) else wlift (Ok tt).

(** make_sections, lib.rs:125-151. [cur] is &ops[start_index..end_index]; the u32 sums stay below 2^24 + 2^16 and
    are not wrapped; the counts are cast [as u32]. *)
Definition section_of (cur : list op) (nadd osize : Z) (more : bool) : list op * header :=
  (cur, mkHeader 0 Interleaved more (to_u32 (zlen cur)) nadd osize).
Fixpoint make_sections_loop (max_win : Z) (ops cur : list op) (osize nadd : Z) : list (list op * header) :=
  match ops with
  | [] => [section_of cur nadd osize false]
  | o :: rest =>
      let s := oal o in
      if osize + s >? max_win then
        section_of cur nadd osize true ::
        make_sections_loop max_win rest [o] s (if is_add o then s else 0)
      else
        make_sections_loop max_win rest (cur ++ [o]) (osize + s) (if is_add o then nadd + s else nadd)
  end.
Definition make_sections (ops : list op) (max_section_size : Z) : list (list op * header) :=
  let max_win := to_u32 (Z.min (Z.max max_section_size MAX_INST_SIZE) MAX_WIN_SIZE) in
  make_sections_loop max_win ops [] 0 0.
