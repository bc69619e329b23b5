(** encode from the readers it is given (smdiff-encoder/src/lib.rs:218-263) and section_writer with compressors that may fail (writer.rs:12-51). Elsewhere in the model encode takes the
    bytes, and a compressor always succeeds. An error has one of the two kinds of the model; the code passes it on without looking at it. *)
From Verif Require Import Base Spec SpecEnc MCommon MWriter MReader MDecoder MOpMaker MTrgtMatcher MSrcMatcher MEncInner MEncode MLevels.

(** A reader: the bytes behind it, its position, and, if it will fail, after how many more bytes and with what. A reader that has reached its end may still fail instead of reporting the end. *)
Record input := mkInput { in_data : list Z; in_pos : Z; in_fail : option (Z * err) }.
(** [r.read_to_end(&mut buf)?] on an empty buffer, lib.rs:222 and 225: reads from the position to the end. *)
Definition read_to_end (r : input) : input * res (list Z) :=
  let rest := drop (in_pos r) (in_data r) in
  match in_fail r with
  | Some (k, e) => if k <=? zlen rest then (mkInput (in_data r) (in_pos r + k) (Some (0, e)), Err e)
                   else (mkInput (in_data r) (in_pos r + zlen rest) (Some (k - zlen rest, e)), Ok rest)
  | None => (mkInput (in_data r) (in_pos r + zlen rest) None, Ok rest)
  end.

(** The calls of the zstd and brotli crates in writer.rs:33-45: all compressed data written; some written and an error returned ([?] on lines 34-37, 42, 43); a panic ([options.build().unwrap()], line 41). *)
Inductive squeezed := Squeezed (b : list Z) | SqueezeErr (b : list Z) (e : err) | SqueezePanic.
Record compressors := mkCompressors { run_zstd : Z -> list Z -> squeezed; run_brotli : Z -> list Z -> squeezed }.
Definition squeeze_out (s : squeezed) : W unit :=
  match s with Squeezed b => wput b | SqueezeErr b e => (b, Err e) | SqueezePanic => ([], Panic) end.
(** section_writer, writer.rs:12-51 *)
Definition i_section_writer (m : mode) (cp : compressors) (sc : option sec_comp) (ops : list op) (h : header) : W unit :=
  match sc with
  | None => plain_writer m ops h
  | Some comp =>
      let h := set_comp h (algo_value comp) in
      dow _ <- write_section_header m h;
      let '(buf, r) := write_ops m ops h in
      dow _ <- wlift r;
      match comp with
      | SmdiffComp c => encode_nocomp m c buf
      | ZstdComp level => squeeze_out (run_zstd cp level buf)
      | BrotliComp options => squeeze_out (run_brotli cp options buf)
      end
  end.
(** encode, lib.rs:218-263: the readers as they are left, what was written, and the outcome. *)
Definition encode_io (m : mode) (cp : compressors) (c : config) (dict : option input) (output : input) : (option input * input) * W unit :=
  let '(dict', src) := match dict with Some r => let '(r', b) := read_to_end r in (Some r', b) | None => (None, Ok []) end in
  match src with
  | Ok src =>
      let '(output', trgt) := read_to_end output in
      match trgt with
      | Ok trgt => ((dict', output'), encode_with m (i_section_writer m cp (cf_comp c)) (inner_of c) (cf_format c) (cf_segment c) src trgt)
      | Err e => ((dict', output'), ([], Err e))
      | Panic => ((dict', output'), ([], Panic))
      | Diverge => ((dict', output'), ([], Diverge))
      end
  | Err e => ((dict', output), ([], Err e))
  | Panic => ((dict', output), ([], Panic))
  | Diverge => ((dict', output), ([], Diverge))
  end.

(** ** The functions that make a configuration, lib.rs:124-171 (all take [mut self] and return it), trgt_matcher.rs:145-148 and src_matcher.rs:144-146. *)
Inductive setting :=
| NoMatchSrc | NoMatchTarget | NoSecComp                       (* lib.rs:128-139 *)
| SetMatchSrc (c : src_config)                                 (* 140-143 *)
| SetSecComp (s : sec_comp)                                    (* 144-147 *)
| FormatInterleaved | FormatSegregated                         (* 148-155 *)
| SetMatchTarget (c : trgt_config)                             (* 156-159 *)
| SetOutputSegmentSize (n : Z)                                 (* 160-163 *)
| SetNaiveTests (t : naive)                                    (* 164-167 *)
| SetLazyEscapeLen (n : Z).                                    (* 168-171 *)
Definition set_one (c : config) (s : setting) : config :=
  let '(mkConfig src trgt comp f seg nv lz) := c in
  match s with
  | NoMatchSrc => mkConfig None trgt comp f seg nv lz
  | NoMatchTarget => mkConfig src None comp f seg nv lz
  | NoSecComp => mkConfig src trgt None f seg nv lz
  | SetMatchSrc x => mkConfig (Some x) trgt comp f seg nv lz
  | SetSecComp x => mkConfig src trgt (Some x) f seg nv lz
  | FormatInterleaved => mkConfig src trgt comp Interleaved seg nv lz
  | FormatSegregated => mkConfig src trgt comp Segregated seg nv lz
  | SetMatchTarget x => mkConfig src (Some x) comp f seg nv lz
  | SetOutputSegmentSize n => mkConfig src trgt comp f n nv lz
  | SetNaiveTests t => mkConfig src trgt comp f seg (Some t) lz
  | SetLazyEscapeLen n => mkConfig src trgt comp f seg nv (Some n)
  end.
(** A chain of calls, first call first. *)
Definition set_all (c : config) (l : list setting) : config := fold_left set_one l c.
(** TrgtMatcherConfig::with_table_capacity, trgt_matcher.rs:145-148 *)
Definition with_table_capacity (c : trgt_config) (n : Z) : trgt_config := let '(mkTC early chain _) := c in mkTC early chain (Some n).
(** SrcMatcherConfig::new, src_matcher.rs:144-146 *)
Definition src_new (step : Z) (win : option Z) : src_config := mkSC step win.
(** SecondaryCompression::new_smdiff_default, lib.rs:55-57; new_zstd_default and Default, 59-61 and 79-83 *)
Definition smdiff_default (m : mode) : res sec_comp := do c <- trgt_level m 3; Ok (SmdiffComp c).
Definition zstd_default : sec_comp := ZstdComp 3.
