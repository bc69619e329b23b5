(** Vocabulary of the theorem statements that refers to the API (what it means to write a patch with the API, to call
    the iterator repeatedly, ...). Definitions only; nothing here is used by the model of the code. *)
From Verif Require Import Base Spec SpecEnc MCommon MWriter MReader MDecoder MTrgtMatcher MSrcMatcher MEncInner MEncode.

(** A patch as the API produces it: sections written one after the other with write_section_header and write_ops,
    the continuation flag set on all but the last (as in smdiff-encoder/src/lib.rs:229-262 and writer.rs:24-31). *)
Inductive written (m : mode) : list (list op * header) -> list Z -> Prop :=
| written_last ops h hb ob : h_more h = false ->
    write_section_header m h = (hb, Ok tt) -> write_ops m ops h = (ob, Ok tt) -> written m [(ops, h)] (hb ++ ob)
| written_more ops h hb ob secs bs : h_more h = true ->
    write_section_header m h = (hb, Ok tt) -> write_ops m ops h = (ob, Ok tt) -> written m secs bs ->
    written m ((ops, h) :: secs) (hb ++ ob ++ bs).

(** What the header [h] of a written section with operations [ops] is read back as: everything but the add-byte count
    is the same; the count is doubled in segregated sections and 0 in interleaved ones (property C16). *)
Definition header_back (h : header) (ops : list op) (h' : header) : Prop :=
  h_comp h' = h_comp h /\ h_format h' = h_format h /\ h_more h' = h_more h /\ h_nops h' = h_nops h /\
  h_osize h' = h_osize h /\ h_nadd h' = match h_format h with Segregated => 2 * adds_len ops | Interleaved => 0 end.


(** ** Section iterator *)
(** The results of [k] successive calls of next. *)
Fixpoint calls (m : mode) (k : nat) (it : iter) : res (list (option (list op * header))) :=
  match k with
  | O => Ok []
  | S k => do (x, it') <- iter_next m it; do r <- calls m k it'; Ok (x :: r)
  end.

(** ** Reading sections of a patch with [next] (read_section or the decompressing reader) *)
Definition next_t := list Z -> res (list op * header * list Z).
(** [sections_read next bs l r]: reading whole non-final sections [l] from [bs] leaves [r]. *)
Inductive sections_read (next : next_t) : list Z -> list (list op) -> list Z -> Prop :=
| sr_nil bs : sections_read next bs [] bs
| sr_cons bs ops h r l r' : next bs = Ok (ops, h, r) -> h_more h = true -> sections_read next r l r' ->
    sections_read next bs (ops :: l) r'.


(** ** External codecs *)
(** The decoders yield bytes from bytes. *)
Definition codecs_bytes (cd : codecs) : Prop :=
  (forall bs dec rest, Forall is_byte bs -> zstd_dec cd bs = Ok (dec, rest) -> Forall is_byte dec /\ Forall is_byte rest) /\
  (forall bs dec rest, Forall is_byte bs -> brotli_dec cd bs = Ok (dec, rest) -> Forall is_byte dec /\ Forall is_byte rest).


(** The contract of the external codecs: decoding what was encoded yields it back and leaves what follows. Of empty data this is asked only if [what] is empty too: a section without
    operations asks the streaming decoder for nothing, and brotli then reports an error (property C95); such sections are written only for an empty target. *)
Definition codec_rt {A} (enc : Z -> list Z -> list Z) (dec : list Z -> res (list Z * list Z)) (what : list A) : Prop :=
  forall s x t, Forall is_byte x -> (x = [] -> what = []) -> dec (enc s x ++ t) = Ok (x, t).

Definition comp_value (sc : option sec_comp) : Z := match sc with None => 0 | Some s => algo_value s end.
(** [what]: the target of the patch, or the operations of the section. *)
Definition comp_lossless {A} (cd : codecs) (sc : option sec_comp) (what : list A) : Prop :=
  match sc with
  | Some (ZstdComp _) => codec_rt (zstd_enc cd) (zstd_dec cd) what
  | Some (BrotliComp _) => codec_rt (brotli_enc cd) (brotli_dec cd) what
  | _ => True
  end.

(** A patch written with section_writer, each section with its own (or no) secondary compression. *)
Inductive written_sc (m : mode) (cd : codecs) : list (list op * header * option sec_comp) -> list Z -> Prop :=
| wsc_last ops h sc b : h_more h = false -> section_writer m cd sc ops h = (b, Ok tt) -> written_sc m cd [(ops, h, sc)] b
| wsc_more ops h sc b secs bs : h_more h = true -> section_writer m cd sc ops h = (b, Ok tt) -> written_sc m cd secs bs ->
    written_sc m cd ((ops, h, sc) :: secs) (b ++ bs).

(** [patch_read next bs secs r]: reading sections until the one without continuation flag yields [secs] and leaves [r]. *)
Inductive patch_read (next : next_t) : list Z -> list (list op * header) -> list Z -> Prop :=
| pr_last bs ops h r : next bs = Ok (ops, h, r) -> h_more h = false -> patch_read next bs [(ops, h)] r
| pr_more bs ops h r secs r' : next bs = Ok (ops, h, r) -> h_more h = true -> patch_read next r secs r' ->
    patch_read next bs ((ops, h) :: secs) r'.

(** The source bytes encode works with: no dictionary is an empty source. *)
Definition source_of (dict : option (list Z)) : list Z := match dict with Some d => d | None => [] end.

(** The patch [bs] reads (with the decoder's section reader) as the operations [ops]. *)
Definition reads_as (m : mode) (cd : codecs) (bs : list Z) (ops : list op) : Prop :=
  exists secs r, patch_read (next_section m cd) bs secs r /\ ops = concat (map fst secs).
(** Applying [patch] to [src] with apply_patch and an empty sink succeeds and yields [out]. *)
Definition applies (m : mode) (cd : codecs) (patch src out : list Z) : Prop :=
  exists p, apply_patch m cd patch (Some src) (mkSink [] 0) = (mkSink out p, Ok tt).
(** A decoder leaves no more bytes than it was given. *)
Definition codecs_shrink (cd : codecs) : Prop :=
  (forall bs dec rest, zstd_dec cd bs = Ok (dec, rest) -> zlen rest <= zlen bs) /\
  (forall bs dec rest, brotli_dec cd bs = Ok (dec, rest) -> zlen rest <= zlen bs).

(** ** Legal settings of the encoder *)
(** The chain table of the target matcher has no or a power-of-two capacity; counts are not negative. *)
Definition legal_trgt (c : trgt_config) : Prop :=
  0 <= tc_chain_check c /\ match tc_capacity c with None => True | Some n => n = 0 \/ exists k, 0 <= k /\ n = 2 ^ k end.
(** In builds with overflow checks the source window is at most 2^63. *)
Definition legal_src (m : mode) (c : src_config) : Prop := match sc_win c with Some n => m = Debug -> n <= 2 ^ 63 | None => True end.
Definition legal_comp (sc : option sec_comp) : Prop := match sc with Some (SmdiffComp c) => legal_trgt c | _ => True end.
(** The lazy escape length in use. *)
Definition lazy_of (c : config) : Z := match cf_lazy c with Some n => n | None => 90 end.
