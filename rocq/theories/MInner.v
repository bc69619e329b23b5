(** The decoder's section iterator over its BufReader, and what [into_inner] of the two section iterators gives back
    (smdiff-decoder/src/reader.rs:11-92, smdiff-reader/src/lib.rs:246-248). MIter.v models the same iterators over the bytes still to be read. *)
From Verif Require Import Base Spec MCommon MWriter MReader MDecoder MIter MPos.

(** SectionIterator of smdiff-decoder, reader.rs:11-16: the BufReader and [done]. win_data and ops are buffers that every call clears first (MIter.v has them); left out here. *)
Record piter := mkPI { pi_source : brd; pi_done : bool }.
(** new, reader.rs:18-25: [BufReader::new(patch)], nothing read ahead yet *)
Definition pi_new (r : rdr) : piter := mkPI (mkB [] r) false.
(** next_borrowed (29-41), next_owned (43-55), with read_header (56-66) and read_ops (67-88): both give the same section, they differ in who owns the operations.
    As in MIter.v the state after an error is not modelled. *)
Definition pi_next (m : mode) (cd : codecs) (_ : call) (it : piter) : res (option (list op * header) * piter) :=
  if pi_done it then Ok (None, it) else
  do (ops, h, b) <- b_next_section m cd (pi_source it); Ok (Some (ops, h), mkPI b (negb (h_more h))).
(** into_inner, reader.rs:89-91: [self.source.into_inner()], which drops what the BufReader has read ahead *)
Definition pi_into_inner (it : piter) : rdr := b_in (pi_source it).
(** into_inner of smdiff-reader's iterator, smdiff-reader/src/lib.rs:246-248: [self.source], here as the bytes it has still to give *)
Definition ri_into_inner (it : riter) : list Z := ri_source it.
