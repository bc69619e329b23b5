(** The merger and the transcoder over any source of bytes (as MStream.v does for the decoder): smdiff-merger/src/lib.rs and transcoder.rs read a patch through the SectionIterator of
    smdiff-decoder, a BufReader over the given reader. And the outcome of the zstd decoder's constructor, which the code unwraps. *)
From Verif Require Import Base Spec SpecEnc MCommon MWriter MReader MDecoder MOpMaker MTrgtMatcher MSrcMatcher MEncInner MEncode MMerger MTranscoder MStream.

(** extract_patch_instructions, smdiff-merger/src/lib.rs:175-212, over a reader; as extract_loop in MMerger.v *)
Fixpoint g_extract_loop {St} (R : reader St) (m : mode) (xd : Z -> St -> res (list Z * St)) (fuel : nat) (bs : St) (pos : Z) (s : stats) : res (list sparse * stats) :=
  match fuel with
  | O => Diverge
  | S k =>
      do (ops, h, rest) <- g_next_section R m xd bs;
      let '(l, pos, s) := extract_ops ops pos s in
      if h_more h then do (l', s) <- g_extract_loop R m xd k rest pos s; Ok (l ++ l', s) else Ok (l, s)
  end.
Definition g_extract {St} (R : reader St) (m : mode) (xd : Z -> list Z * St -> res (list Z * (list Z * St))) (patch : St) : res (list sparse * stats) :=
  g_extract_loop (buffered R) m xd (S (rd_most (buffered R) ([], patch))) ([], patch) 0 stats_new.
(** Merger::new, lib.rs:275-291 *)
Definition g_merger_new {St} (R : reader St) (m : mode) (xd : Z -> list Z * St -> res (list Z * (list Z * St))) (terminal : St) : res merged :=
  do (t, st) <- g_extract R m xd terminal;
  if st_copy_bytes st =? 0 then Ok (Summary (map snd t)) else
  do t <- deref_copy_o m t;
  let ix := find_mergeable t 0 in
  do _ <- debug_assert_ m (negb (zlen ix =? 0));
  Ok (Open (mkMerger t ix)).
(** Merger::merge, lib.rs:299-338 *)
Definition g_merger_merge {St} (R : reader St) (m : mode) (xd : Z -> list Z * St -> res (list Z * (list Z * St))) (g : merger) (predecessor : St) : res merged :=
  do _ <- debug_assert_ m (contiguousb 0 (mg_patch g));
  do (pred, st) <- g_extract R m xd predecessor;
  do pred <- (if st_copy_bytes st >? 0 then deref_copy_o m pred else Ok pred);
  do (ix, ins) <- merge_loop m (mg_patch g) pred (mg_copies g) 0;
  if zlen ix =? 0 then Ok (Summary (map snd (expand_to (mg_patch g) ins)))
  else Ok (Open (mkMerger (expand_to (mg_patch g) ins) ix)).
(** transcode, transcoder.rs:32-57: everything is read before anything is written. *)
Definition g_transcode {St} (R : reader St) (m : mode) (xd : Z -> list Z * St -> res (list Z * (list Z * St))) (cd : codecs) (input : St) (f : format) (sc : option sec_comp) (segment : Z) : W unit :=
  dow l <- wlift (g_extract R m xd input);
  dow ops <- wlift (optimize m (map to_inner (fst l)));
  write_all_sections (section_writer m cd sc) f (make_sections ops segment).

(** [StreamingDecoder::new(&mut self.source).unwrap()], smdiff-decoder/src/reader.rs:76: [open] reads the beginning of the compressed data from the buffered reader; [dec] is the rest. *)
Definition unwrapped {St D} (open : St -> res (D * St)) (dec : D -> St -> res (list Z * St)) (s : St) : res (list Z * St) :=
  match open s with Ok (d, s) => dec d s | Err _ => Panic | Panic => Panic | Diverge => Diverge end.
