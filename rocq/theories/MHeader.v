(** Model of the SectionHeader builder, smdiff-common/src/lib.rs:56-106 (set_compression_algo is in MCommon.v). *)
From Verif Require Import Base Spec MCommon.

(** SectionHeader::new, lib.rs:81-83: the other fields are the defaults (no compression, interleaved, last section). *)
Definition header_new (nops nadd osize : Z) : header := mkHeader 0 Interleaved false nops nadd osize.
(** SectionHeader::set_format, lib.rs:90-93 *)
Definition set_format (h : header) (f : format) : header :=
  mkHeader (h_comp h) f (h_more h) (h_nops h) (h_nadd h) (h_osize h).
(** SectionHeader::set_more_sections, lib.rs:95-98 *)
Definition set_more_sections (h : header) (b : bool) : header :=
  mkHeader (h_comp h) (h_format h) b (h_nops h) (h_nadd h) (h_osize h).
(** SectionHeader::is_compressed, lib.rs:100-102 *)
Definition is_compressed (h : header) : bool := negb (h_comp h =? 0).
(** SectionHeader::is_interleaved, lib.rs:103-105 *)
Definition is_interleaved (h : header) : bool := match h_format h with Interleaved => true | Segregated => false end.
