(** Model of smdiff-decoder/src/lib.rs and reader.rs. *)
From Verif Require Import Base Spec MCommon MWriter MReader.

(** The sink: an [std::io::Cursor<Vec<u8>>] (buffer and position). *)
Record sink := mkSink { sbuf : list Z; spos : Z }.
Definition sink_seek (s : sink) (p : Z) : sink := mkSink (sbuf s) p.
(** [write_all]: pads with zeros up to the position, overwrites, extends. *)
Definition sink_write (s : sink) (bs : list Z) : sink :=
  let padded := sbuf s ++ rep 0 (spos s - zlen (sbuf s)) in
  mkSink (take (spos s) padded ++ bs ++ drop (spos s + zlen bs) padded) (spos s + zlen bs).
(** [seek(Start addr)] then [read_exact] of [n] bytes, on any Cursor: succeeds for n = 0 even past the end. *)
Definition read_at (l : list Z) (addr n : Z) : res (list Z) :=
  do (b, _) <- read_exact n (drop addr l); Ok b.

(** apply_ops, lib.rs:51-101. [dict = None]: no source given, a dictionary copy panics (line 70).
    Returns the sink, cur_o_pos and the outcome. [seek] at the start, line 54. *)
Fixpoint apply_ops_loop (dict : option (list Z)) (ops : list op) (s : sink) (pos : Z) : sink * Z * res unit :=
  match ops with
  | [] => (s, pos, Ok tt)
  | o :: rest =>
      match o with
      | Add bs => apply_ops_loop dict rest (sink_write s bs) (pos + zlen bs)
      | Copy Dict addr len =>
          match dict with
          | None => (s, pos, Panic)
          | Some d =>
              match read_at d addr len with
              | Ok b => apply_ops_loop dict rest (sink_write s b) (pos + len)
              | Err e => (s, pos, Err e)
              | Panic => (s, pos, Panic)
              | Diverge => (s, pos, Diverge)
              end
          end
      | Copy Output addr len =>
          match read_at (sbuf s) addr len with
          | Ok b => apply_ops_loop dict rest (sink_write (sink_seek s pos) b) (pos + len)
          | Err e => (s, pos, Err e)
          | Panic => (s, pos, Panic)
          | Diverge => (s, pos, Diverge)
          end
      | Run b len => apply_ops_loop dict rest (sink_write s (rep b len)) (pos + len)
      end
  end.
Definition apply_ops (dict : option (list Z)) (ops : list op) (s : sink) (pos : Z) : sink * Z * res unit :=
  apply_ops_loop dict ops (sink_seek s pos) pos.

(** The [while let Some(res) = reader.next_borrowed()] loops of apply_patch (lib.rs:27-30) and apply_no_sec_comp
    (lib.rs:39-43). [next] reads one section. Returns the sink and the unread patch bytes. *)
Fixpoint apply_loop (next : list Z -> res (list op * header * list Z)) (fuel : nat) (dict : option (list Z))
  (bs : list Z) (s : sink) (pos : Z) : sink * res (list Z) :=
  match fuel with
  | O => (s, Diverge)
  | S k =>
      match next bs with
      | Ok (ops, h, rest) =>
          match apply_ops dict ops s pos with
          | (s', pos', Ok _) =>
              if h_more h then apply_loop next k dict rest s' pos' else (s', Ok rest)
          | (s', _, Err e) => (s', Err e)
          | (s', _, Panic) => (s', Panic)
          | (s', _, Diverge) => (s', Diverge)
          end
      | Err e => (s, Err e)
      | Panic => (s, Panic)
      | Diverge => (s, Diverge)
      end
  end.

(** apply_no_sec_comp, lib.rs:35-45 *)
Definition apply_no_sec_comp (m : mode) (dict : option (list Z)) (patch : list Z) (s : sink) : sink * res (list Z) :=
  apply_loop (read_section m) (S (length patch)) dict patch s 0.

(** The external compressors as oracles. [zstd_open] is StreamingDecoder::new, which reads the frame header and leaves the rest;
    [zstd_read]/[brotli_dec] return the decompressed bytes and the bytes of the
    source left after the compressed data; [zstd_enc]/[brotli_enc] the bytes written by the encoder for given settings
    (the zstd level, or an opaque number standing for the brotli options). *)
Record codecs := mkCodecs {
  zstd_enc : Z -> list Z -> list Z;
  zstd_open : list Z -> res (list Z);
  zstd_read : list Z -> res (list Z * list Z);
  brotli_enc : Z -> list Z -> list Z;
  brotli_dec : list Z -> res (list Z * list Z)
}.

(** A whole zstd stream, reader.rs:76-77: an error of StreamingDecoder::new is unwrapped, i.e. becomes a panic. *)
Definition zstd_dec (cd : codecs) (bs : list Z) : res (list Z * list Z) :=
  match zstd_open cd bs with
  | Ok bs => zstd_read cd bs
  | Err _ => Panic
  | Panic => Panic
  | Diverge => Diverge
  end.

(** SectionIterator::read_header and read_ops, reader.rs:56-89. Algorithms 0 and 4..7 are read as plain sections. *)
Definition next_section (m : mode) (cd : codecs) (bs : list Z) : res (list op * header * list Z) :=
  do (h, bs) <- read_section_header m bs;
  if h_comp h =? 1 then
    match apply_no_sec_comp m None bs (mkSink [] 0) with
    | (s, Ok rest) => do (ops, h, _) <- read_ops_no_comp m h (sbuf s); Ok (ops, h, rest)
    | (_, Err e) => Err e
    | (_, Panic) => Panic
    | (_, Diverge) => Diverge
    end
  else if h_comp h =? 2 then
    do (dec, rest) <- zstd_dec cd bs;
    do (ops, h, _) <- read_ops_no_comp m h dec; Ok (ops, h, rest)
  else if h_comp h =? 3 then
    do (dec, rest) <- brotli_dec cd bs;
    do (ops, h, _) <- read_ops_no_comp m h dec; Ok (ops, h, rest)
  else read_ops_no_comp m h bs.

(** apply_patch, lib.rs:23-32 *)
Definition apply_patch (m : mode) (cd : codecs) (patch : list Z) (dict : option (list Z)) (s : sink)
  : sink * res unit :=
  let '(s', r) := apply_loop (next_section m cd) (S (length patch)) dict patch s 0 in
  (s', do _ <- r; Ok tt).
