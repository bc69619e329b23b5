(** Applying a patch in place: the source and the sink of apply_patch are two handles on the same file (smdiff-decoder/src/lib.rs:23-101, as in MDecoder.v). Each handle has its own position; the
    code seeks the source before every read, so of the source only its contents matter, which are those the sink has at that moment. The file is not buffered. *)
From Verif Require Import Base Spec MCommon MWriter MReader MDecoder.

(** apply_ops, lib.rs:51-101 *)
Fixpoint ip_ops_loop (ops : list op) (s : sink) (pos : Z) : sink * Z * res unit :=
  match ops with
  | [] => (s, pos, Ok tt)
  | o :: rest =>
      match o with
      | Add bs => ip_ops_loop rest (sink_write s bs) (pos + zlen bs)
      | Copy Dict addr len =>
          match read_at (sbuf s) addr len with
          | Ok b => ip_ops_loop rest (sink_write s b) (pos + len)
          | Err e => (s, pos, Err e)
          | Panic => (s, pos, Panic)
          | Diverge => (s, pos, Diverge)
          end
      | Copy Output addr len =>
          match read_at (sbuf s) addr len with
          | Ok b => ip_ops_loop rest (sink_write (sink_seek s pos) b) (pos + len)
          | Err e => (s, pos, Err e)
          | Panic => (s, pos, Panic)
          | Diverge => (s, pos, Diverge)
          end
      | Run b len => ip_ops_loop rest (sink_write s (rep b len)) (pos + len)
      end
  end.
Definition ip_apply_ops (ops : list op) (s : sink) (pos : Z) : sink * Z * res unit := ip_ops_loop ops (sink_seek s pos) pos.
(** The loop of apply_patch, lib.rs:27-30 *)
Fixpoint ip_loop (next : list Z -> res (list op * header * list Z)) (fuel : nat) (bs : list Z) (s : sink) (pos : Z) : sink * res (list Z) :=
  match fuel with
  | O => (s, Diverge)
  | S k =>
      match next bs with
      | Ok (ops, h, rest) =>
          match ip_apply_ops ops s pos with
          | (s', pos', Ok _) => if h_more h then ip_loop next k rest s' pos' else (s', Ok rest)
          | (s', _, Err e) => (s', Err e)
          | (s', _, Panic) => (s', Panic)
          | (s', _, Diverge) => (s', Diverge)
          end
      | Err e => (s, Err e)
      | Panic => (s, Panic)
      | Diverge => (s, Diverge)
      end
  end.
(** apply_patch, lib.rs:23-32: [file] is the source and the sink. *)
Definition ip_apply_patch (m : mode) (cd : codecs) (patch : list Z) (file : sink) : sink * res unit :=
  let '(s', r) := ip_loop (next_section m cd) (S (length patch)) patch file 0 in
  (s', do _ <- r; Ok tt).
