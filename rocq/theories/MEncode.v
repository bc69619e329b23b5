(** Model of smdiff-encoder/src/lib.rs (encode) and writer.rs (section_writer). *)
From Verif Require Import Base Spec SpecEnc MCommon MWriter MReader MDecoder MOpMaker MTrgtMatcher MSrcMatcher MEncInner.

(** SecondaryCompression, lib.rs:42-78. The brotli options are an opaque number (see [codecs], MDecoder.v). *)
Inductive sec_comp := SmdiffComp (c : trgt_config) | ZstdComp (level : Z) | BrotliComp (options : Z).
(** algo_value, lib.rs:71-77 *)
Definition algo_value (s : sec_comp) : Z := match s with SmdiffComp _ => 1 | ZstdComp _ => 2 | BrotliComp _ => 3 end.
(** EncoderConfig, lib.rs:95-122 *)
Record config := mkConfig {
  cf_src : option src_config; cf_trgt : option trgt_config; cf_comp : option sec_comp; cf_format : format;
  cf_segment : Z; cf_naive : option naive; cf_lazy : option Z
}.
Definition inner_of (c : config) : inner_config := mkIC (cf_trgt c) (cf_src c) (cf_lazy c) (cf_naive c).

(** The closure of the debug_assert, lib.rs:245-257: [all] stops at the first false; slices out of range panic. *)
Fixpoint check_ops (src trgt : list Z) (o : Z) (ops : list op) : res bool :=
  match ops with
  | [] => Ok true
  | x :: rest =>
      let len := oal x in
      do test <- slice trgt o (o + len);
      do ok <- match x with
               | Add bs => Ok (list_eqb test bs)
               | Copy Dict a n => do s <- slice src a (a + n); Ok (list_eqb test s)
               | Copy Output a n => do s <- slice trgt a (a + n); Ok (list_eqb test s)
               | Run b _ => Ok (forallb (fun x => x =? b) test)
               end;
      if ok then check_ops src trgt (o + len) rest else Ok false
  end.
Definition set_format (h : header) (f : format) : header :=
  mkHeader (h_comp h) f (h_more h) (h_nops h) (h_nadd h) (h_osize h).
Definition set_comp (h : header) (a : Z) : header :=
  mkHeader a (h_format h) (h_more h) (h_nops h) (h_nadd h) (h_osize h).

(** The loop over make_sections, lib.rs:239-261; [wr] is section_writer with its configuration. *)
Fixpoint write_sections (m : mode) (wr : list op -> header -> W unit) (f : format) (src trgt : list Z) (cur : Z)
  (secs : list (list op * header)) : W unit :=
  match secs with
  | [] => wlift (Ok tt)
  | (ops, h) :: rest =>
      let h := set_format h f in
      dow _ <- wlift (match m with Debug => do b <- check_ops src trgt cur ops; assert_ b | Release => Ok tt end);
      dow _ <- wr ops h;
      write_sections m wr f src trgt (cur + h_osize h) rest
  end.
(** encode, lib.rs:218-263, with the section writer as a parameter (encode and section_writer call each other; the
    recursion stops because the inner call has no secondary compression). *)
Definition encode_with (m : mode) (wr : list op -> header -> W unit) (ic : inner_config) (f : format) (segment : Z)
  (src trgt : list Z) : W unit :=
  let segment_size := Z.max (Z.min segment MAX_WIN_SIZE) MAX_INST_SIZE in
  dow cands <- wlift (encode_inner m ic src trgt);
  dow ops <- wlift (translate_inner_ops m trgt cands);
  write_sections m wr f src trgt 0 (make_sections ops segment_size).

(** section_writer without secondary compression, writer.rs:48-51 *)
Definition plain_writer (m : mode) (ops : list op) (h : header) : W unit :=
  dow _ <- write_section_header m h; write_ops m ops h.
(** The call of encode in writer.rs:28-29: EncoderConfig::default() (lib.rs:197-209) without source matching, with the
    given target matching, without dictionary. *)
Definition encode_nocomp (m : mode) (c : trgt_config) (data : list Z) : W unit :=
  encode_with m (plain_writer m) (mkIC (Some c) None None None) Interleaved MAX_WIN_SIZE [] data.

(** section_writer, writer.rs:12-51. With secondary compression the operations are first written to a buffer. *)
Definition section_writer (m : mode) (cd : codecs) (sc : option sec_comp) (ops : list op) (h : header) : W unit :=
  match sc with
  | None => plain_writer m ops h
  | Some comp =>
      let h := set_comp h (algo_value comp) in
      dow _ <- write_section_header m h;
      let '(buf, r) := write_ops m ops h in
      dow _ <- wlift r;
      match comp with
      | SmdiffComp c => encode_nocomp m c buf
      | ZstdComp level => wput (zstd_enc cd level buf)
      | BrotliComp options => wput (brotli_enc cd options buf)
      end
  end.

(** encode, lib.rs:218-263: the patch written and the outcome. No dictionary is an empty source. *)
Definition encode (m : mode) (cd : codecs) (c : config) (dict : option (list Z)) (trgt : list Z) : W unit :=
  let src := match dict with Some d => d | None => [] end in
  encode_with m (section_writer m cd (cf_comp c)) (inner_of c) (cf_format c) (cf_segment c) src trgt.
