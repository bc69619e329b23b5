(** Model of smdiff-common/src/lib.rs. The types Op, Copy, Run, CopySrc, Format, SectionHeader
    (lib.rs:36-152) are the plain data types of Spec.v. *)
From Verif Require Import Base Spec.

(** lib.rs:3-13 *)
Definition OP_MASK := 192.
Definition COPY_D := 0.
Definition COPY_O := 64.
Definition ADD := 128.
Definition RUN := 192.
Definition SIZE_MASK := 63.
(** lib.rs:15-19 *)
Definition MAX_RUN_LEN := 62.
Definition MAX_INST_SIZE := 65535.
Definition MAX_WIN_SIZE := 16777215.
(** lib.rs:22-30 *)
Definition SECTION_CONTINUE_BIT := 128.
Definition SECTION_FORMAT_BIT := 64.
Definition SECTION_COMPRESSION_MASK := 56.
Definition SECTION_COMPRESSION_RSHIFT := 3.

(** SectionHeader::set_compression_algo, lib.rs:86-89 (clamp 0..7) *)
Definition set_compression_algo (h : header) (a : Z) : header :=
  mkHeader (Z.min (Z.max a 0) 7) (h_format h) (h_more h) (h_nops h) (h_nadd h) (h_osize h).

(** Op::bit_flag, lib.rs:156-165 *)
Definition bit_flag (o : op) : Z :=
  match o with
  | Run _ _ => RUN
  | Copy Dict _ _ => COPY_D
  | Copy Output _ _ => COPY_O
  | Add _ => ADD
  end.
(** Op::is_run, lib.rs:169-171 *)
Definition is_run (o : op) : bool := match o with Run _ _ => true | _ => false end.
(** Op::oal, lib.rs:185-191: the length of an Add is cast [as u16]. *)
Definition oal (o : op) : Z :=
  match o with
  | Add bs => to_u16 (zlen bs)
  | Copy _ _ n => n
  | Run _ n => n
  end.

(** Size and size_routine, lib.rs:199-224 *)
Inductive size := Done (n : Z) | U8And62 | U16.
Definition size_routine (s : Z) : size :=
  if (1 <=? s) && (s <=? 62) then Done s else if s =? 63 then U8And62 else U16.

(** zigzag_encode, lib.rs:228-230 *)
Definition zigzag_encode (n : Z) : Z :=
  to_u64 (Z.lxor (to_i64 (Z.shiftl n 1)) (Z.shiftr n 63)).
(** zigzag_decode, lib.rs:234-236 *)
Definition zigzag_decode (z : Z) : Z :=
  Z.lxor (to_i64 (Z.shiftr z 1)) (- (Z.land z 1)).

(** write_u_varint, lib.rs:239-249. [slots] is the free room in the 10-byte buffer: [buf[i]] panics when none is left.
    The bytes reach the writer in one [write_all] at the end. *)
Fixpoint u_varint_buf (slots : nat) (n : Z) : res (list Z) :=
  match slots with
  | O => Panic
  | S k =>
      if n >=? 128
      then do r <- u_varint_buf k (Z.shiftr n 7); Ok (to_u8 (Z.lor (Z.land n 127) 128) :: r)
      else Ok [to_u8 n]
  end.
Definition write_u_varint (n : Z) : W unit :=
  dow b <- wlift (u_varint_buf 10 n); wput b.

(** [v << s] on u64: a shift amount of 64 or more panics with overflow checks and is taken modulo 64 without. *)
Definition shl_u64 (m : mode) (v s : Z) : res Z :=
  if s <? 64 then Ok (to_u64 (Z.shiftl v s))
  else match m with Debug => Panic | Release => Ok (to_u64 (Z.shiftl v (s mod 64))) end.

(** read_u_varint, lib.rs:252-266. [shift] is an i32 in the code; it is unbounded here, which is the same modulo 64
    (only reachable without overflow checks, after 2^31/7 continuation bytes). *)
Fixpoint read_u_varint_loop (m : mode) (result shift : Z) (bs : list Z) : res (Z * list Z) :=
  match bs with
  | [] => Err EOF
  | b :: r =>
      do v <- shl_u64 m (Z.land b 127) shift;
      let result := Z.lor result v in
      if Z.land b 128 =? 0 then Ok (result, r)
      else read_u_varint_loop m result (shift + 7) r
  end.
Definition read_u_varint (m : mode) (bs : list Z) : res (Z * list Z) := read_u_varint_loop m 0 0 bs.

(** write_i_varint / read_i_varint, lib.rs:269-276 *)
Definition write_i_varint (n : Z) : W unit := write_u_varint (zigzag_encode n).
Definition read_i_varint (m : mode) (bs : list Z) : res (Z * list Z) :=
  do (z, r) <- read_u_varint m bs; Ok (zigzag_decode z, r).

(** read_u8 / write_u8, lib.rs:279-288 *)
Definition read_u8 (bs : list Z) : res (Z * list Z) :=
  match bs with [] => Err EOF | b :: r => Ok (b, r) end.
Definition write_u8 (n : Z) : W unit := wput [n].
(** read_u16 / write_u16 (little endian), lib.rs:291-300 *)
Definition read_u16 (bs : list Z) : res (Z * list Z) :=
  match bs with lo :: hi :: r => Ok (lo + 256 * hi, r) | _ => Err EOF end.
Definition write_u16 (n : Z) : W unit := wput [n mod 256; n / 256].

(** u_varint_encode_size, lib.rs:304-312. The loop halves a u64 at least 7 times per step: 10 rounds suffice. *)
Fixpoint u_varint_size_loop (fuel : nat) (size n : Z) : res Z :=
  if n >? 0 then
    match fuel with O => Diverge | S k => u_varint_size_loop k (size + 1) (Z.shiftr n 7) end
  else Ok size.
Definition u_varint_encode_size (n : Z) : res Z := u_varint_size_loop 10 1 (Z.shiftr n 7).

(** diff_addresses_to_u64, lib.rs:316-325. [abs] of i64::MIN overflows. *)
Definition diff_addresses_to_u64 (m : mode) (cur input : Z) : res Z :=
  if input >=? 0 then Ok (to_u64 (cur + input))
  else do a <- arith m to_i64 (Z.abs input); Ok (to_u64 (cur - to_u64 a)).

(** diff_addresses_to_i64, lib.rs:329-335. [as i64] wraps; the multiplication by -1 overflows on i64::MIN. *)
Definition diff_addresses_to_i64 (m : mode) (cur target : Z) : res Z :=
  if target >? cur then Ok (to_i64 (target - cur))
  else arith m to_i64 (to_i64 (cur - target) * -1).
