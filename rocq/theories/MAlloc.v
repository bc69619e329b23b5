(** Memory the reader asks for: smdiff-reader/src/lib.rs:68-196 once more, with every request whose size comes from the patch.
    [Slots n]: [op_buffer.reserve(n)], room for [n] more operations (lines 73 and 123). [Bytes n]: [vec![0u8; n]], the bytes of a literal (line 185).
    Not modelled: the growth of [add_idxs] (one usize per literal, line 76) and the text of errors. A request is taken to succeed; in the
    code a request that cannot be met aborts the process. TAlloc.v shows that the results are those of MReader.v. *)
From Verif Require Import Base Spec MCommon MWriter MReader.

Inductive request := Slots (n : Z) | Bytes (n : Z).
(** Computations with a list of requests. *)
Definition A T := (list request * res T)%type.
Definition aret {T} (r : res T) : A T := ([], r).
Definition abind {T U} (x : A T) (f : T -> A U) : A U :=
  match x with
  | (q, Ok v) => let '(q', r) := f v in (q ++ q', r)
  | (q, Err e) => (q, Err e)
  | (q, Panic) => (q, Panic)
  | (q, Diverge) => (q, Diverge)
  end.
Definition ask (r : request) : A unit := ([r], Ok tt).

(** read_op, lib.rs:161-196; the literal is allocated before its bytes are read. *)
Definition read_op_a (m : mode) (d_addr o_addr : Z) (interleaved : bool) (bs : list Z) : A (op * Z * Z * list Z) :=
  abind (aret (read_op_byte bs)) (fun '(ot, sz, bs) =>
  abind (aret (match ot, sz with TRun, Done _ => Ok tt | TRun, _ => Err InvalidData | _, _ => Ok tt end)) (fun _ =>
  abind (aret (match sz with
               | Done n => Ok (n, bs)
               | U8And62 => do (b, bs) <- read_u8 bs; Ok (b + 62, bs)
               | U16 => read_u16 bs
               end)) (fun '(n, bs) =>
  match ot with
  | TCopy s =>
      aret (do (i, bs) <- read_i_varint m bs;
            match s with
            | Dict => do a <- diff_addresses_to_u64 m d_addr i; Ok (Copy Dict a n, a, o_addr, bs)
            | Output => do a <- diff_addresses_to_u64 m o_addr i; Ok (Copy Output a n, d_addr, a, bs)
            end)
  | TAdd =>
      abind (ask (Bytes n)) (fun _ =>
      if interleaved
      then aret (do (b, bs) <- read_exact n bs; Ok (Add b, d_addr, o_addr, bs))
      else aret (Ok (Add (rep 0 n), d_addr, o_addr, bs)))
  | TRun => aret (do (b, bs) <- read_u8 bs; Ok (Run b n, d_addr, o_addr, bs))
  end))).

(** The loops of read_ops_no_comp, lib.rs:80-89 and 105-109; [push] stays within what was reserved. *)
Fixpoint read_ops_loop_a (fuel : nat) (m : mode) (f : format) (n d_addr o_addr cs nadd : Z) (bs : list Z)
  : A (list op * Z * Z * list Z) :=
  if n <=? 0 then aret (Ok ([], cs, nadd, bs)) else
  match fuel with
  | O => aret Diverge
  | S k =>
      abind (read_op_a m d_addr o_addr (negb (is_segregated f)) bs) (fun '(o, d_addr, o_addr, bs) =>
      abind (aret (arith m to_u32 (cs + oal o))) (fun cs =>
      abind (aret (if is_segregated f && is_add o then arith m to_u32 (nadd + oal o) else Ok nadd)) (fun nadd =>
      abind (read_ops_loop_a k m f (n - 1) d_addr o_addr cs nadd bs) (fun '(ops, cs, nadd, bs) =>
      aret (Ok (o :: ops, cs, nadd, bs))))))
  end.
(** read_ops_no_comp, lib.rs:68-116 (the reserve is line 73) *)
Definition read_ops_no_comp_a (m : mode) (h : header) (bs : list Z) : A (list op * header * list Z) :=
  abind (ask (Slots (h_nops h))) (fun _ =>
  abind (read_ops_loop_a (S (length bs)) m (h_format h) (h_nops h) 0 0 0 (h_nadd h) bs) (fun '(ops, cs, nadd, bs) =>
  aret (if negb (cs =? h_osize h) then Err InvalidData else
        match h_format h with
        | Segregated => do (ops, bs) <- fill_adds ops bs; Ok (ops, set_nadd h nadd, bs)
        | Interleaved => Ok (ops, h, bs)
        end))).
(** read_section, lib.rs:121-126 (the reserve is line 123) *)
Definition read_section_a (m : mode) (bs : list Z) : A (list op * header * list Z) :=
  abind (aret (read_section_header m bs)) (fun '(h, bs) =>
  abind (ask (Slots (h_nops h))) (fun _ => read_ops_no_comp_a m h bs)).
