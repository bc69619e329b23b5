(** apply_patch (smdiff-decoder/src/lib.rs:23-101) when an I/O call fails. Every call of the sink, the source or the patch reader may fail; the code passes the first failure on
    with [?] and does nothing after it, so one failure is all there can be. [q]: so many calls succeed before the one that fails. [part]: if that one is a
    [write_all], so many of its bytes have been written. [None] as outcome: the I/O error is returned. Reading a section from the patch counts as one call. *)
From Verif Require Import Base Spec MCommon MWriter MReader MDecoder.

(** [cur_o.write_all(bs)?] followed by [k]. *)
Definition fw (part : Z) (s : sink) (pos : Z) (q : nat) (bs : list Z) (k : sink -> nat -> (sink * Z * nat) * option (res unit)) : (sink * Z * nat) * option (res unit) :=
  match q with O => ((sink_write s (take part bs), pos, O), None) | S q => k (sink_write s bs) q end.

(** apply_ops, lines 51-101: the calls of every operation in order. *)
Fixpoint fl_ops (part : Z) (dict : option (list Z)) (ops : list op) (s : sink) (pos : Z) (q : nat) : (sink * Z * nat) * option (res unit) :=
  match ops with
  | [] => ((s, pos, q), Some (Ok tt))
  | o :: rest =>
      match o with
      | Add bs => fw part s pos q bs (fun s q => fl_ops part dict rest s (pos + zlen bs) q)
      | Copy Dict addr len =>
          match dict with
          | None => ((s, pos, q), Some Panic)
          | Some d =>
              match q with
              | O => ((s, pos, O), None)       (* src.seek *)
              | S O => ((s, pos, O), None)     (* src.read_exact *)
              | S (S q) =>
                  match read_at d addr len with
                  | Ok b => fw part s pos q b (fun s q => fl_ops part dict rest s (pos + len) q)
                  | Err e => ((s, pos, q), Some (Err e))
                  | Panic => ((s, pos, q), Some Panic)
                  | Diverge => ((s, pos, q), Some Diverge)
                  end
              end
          end
      | Copy Output addr len =>
          match q with
          | O => ((s, pos, O), None)                       (* cur_o.seek(addr) *)
          | S O => ((sink_seek s addr, pos, O), None)      (* cur_o.read_exact *)
          | S (S q) =>
              match read_at (sbuf s) addr len with
              | Ok b =>
                  match q with
                  | O => ((sink_seek s (addr + len), pos, O), None)   (* cur_o.seek(start_pos) *)
                  | S q => fw part (sink_seek s pos) pos q b (fun s q => fl_ops part dict rest s (pos + len) q)
                  end
              | Err e => ((s, pos, q), Some (Err e))
              | Panic => ((s, pos, q), Some Panic)
              | Diverge => ((s, pos, q), Some Diverge)
              end
          end
      | Run b len => fw part s pos q (rep b len) (fun s q => fl_ops part dict rest s (pos + len) q)
      end
  end.
(** The seek of line 54. *)
Definition fl_apply_ops (part : Z) (dict : option (list Z)) (ops : list op) (s : sink) (pos : Z) (q : nat) : (sink * Z * nat) * option (res unit) :=
  match q with O => ((s, pos, O), None) | S q => fl_ops part dict ops (sink_seek s pos) pos q end.
(** The loop of apply_patch, lines 27-30. *)
Fixpoint fl_loop (next : list Z -> res (list op * header * list Z)) (part : Z) (fuel : nat) (dict : option (list Z)) (bs : list Z) (s : sink) (pos : Z) (q : nat) : sink * option (res unit) :=
  match fuel with
  | O => (s, Some Diverge)
  | S k =>
      match q with
      | O => (s, None)
      | S q =>
          match next bs with
          | Ok (ops, h, rest) =>
              match fl_apply_ops part dict ops s pos q with
              | ((s', pos', q'), Some (Ok _)) => if h_more h then fl_loop next part k dict rest s' pos' q' else (s', Some (Ok tt))
              | ((s', _, _), r) => (s', r)
              end
          | Err e => (s, Some (Err e))
          | Panic => (s, Some Panic)
          | Diverge => (s, Some Diverge)
          end
      end
  end.
(** apply_patch, lines 23-32 *)
Definition fl_apply_patch (m : mode) (cd : codecs) (patch : list Z) (dict : option (list Z)) (s : sink) (q : nat) (part : Z) : sink * option (res unit) :=
  fl_loop (next_section m cd) part (S (length patch)) dict patch s 0 q.
