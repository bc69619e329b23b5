(** The layout of sections and patches, written from spec.md sections 4 and 5 (operation byte: see [op_enc], Spec.v). Mentions no function
    of the model of the code. [num] is how numbers are written: any LEB128 form of at most 10 bytes, or only the shortest. *)
From Verif Require Import Base Spec.

Definition number (bs : list Z) (v : Z) : Prop := leb bs v /\ zlen bs <= 10.
Definition short_number (bs : list Z) (v : Z) : Prop := leb bs v /\ (1 < zlen bs -> 2 ^ (7 * (zlen bs - 1)) <= v).

(** 4.1.1: bits 0-2 version, 3-5 compression, 6 format, 7 continuation. *)
Definition control_byte (version : Z) (h : header) : Z :=
  version + 8 * h_comp h + match h_format h with Segregated => 64 | Interleaved => 0 end + (if h_more h then 128 else 0).
(** 4.1.2 *)
Inductive header_enc (num : list Z -> Z -> Prop) (version : Z) (h : header) : list Z -> Prop :=
| he_interleaved b1 b2 : h_format h = Interleaved -> num b1 (h_nops h) -> num b2 (h_osize h) ->
    header_enc num version h (control_byte version h :: b1 ++ b2)
| he_segregated b1 b2 b3 : h_format h = Segregated -> num b1 (h_nops h) -> num b2 (h_nadd h) -> num b3 (h_osize h - h_nadd h) ->
    header_enc num version h (control_byte version h :: b1 ++ b2 ++ b3).

(** 4.2, 5.1: the operations one after the other; [d], [o] are the last addresses used. In segregated sections an Add is only its operation byte
    and size. *)
Inductive ops_enc (f : format) : Z -> Z -> list Z -> list op -> Prop :=
| oe_nil d o : ops_enc f d o [] []
| oe_op d o b x bs r : f = Interleaved \/ is_add x = false -> op_enc d o b x -> ops_enc f (next_d d x) (next_o o x) bs r ->
    ops_enc f d o (b ++ bs) (x :: r)
| oe_seg d o s sb a bs r : f = Segregated -> size_enc s sb (zlen a) -> ops_enc f d o bs r ->
    ops_enc f d o (((64 * 2 + s) :: sb) ++ bs) (Add a :: r).
(** The literal bytes of all Adds, in order. *)
Definition literals (ops : list op) : list Z := flat_map (fun x => match x with Add bs => bs | _ => [] end) ops.
(** Addresses start at zero in each section; segregated sections end with the literal bytes. *)
Definition body_enc (f : format) (ops : list op) (bs : list Z) : Prop :=
  exists e, ops_enc f 0 0 e ops /\ bs = e ++ match f with Segregated => literals ops | Interleaved => [] end.
(** How the body of a section is stored, by compression value. Without secondary compression: as it is. *)
Definition plain_pack (a : Z) (body stored : list Z) : Prop := a = 0 /\ stored = body.
(** A true header: the counts are those of the operations; the output size is at most 2^24 - 1 (4.1.2). *)
Definition sec_true (s : list op * header) : Prop :=
  0 <= h_comp (snd s) <= 7 /\ h_nops (snd s) = zlen (fst s) /\ zlen (fst s) < 2 ^ 32 /\ h_osize (snd s) = ops_len (fst s) /\ ops_len (fst s) <= max_win_size /\
  (h_format (snd s) = Segregated -> h_nadd (snd s) = adds_len (fst s)).
Definition section_enc (pack : Z -> list Z -> list Z -> Prop) (num : list Z -> Z -> Prop) (version : Z) (s : list op * header) (bs : list Z) : Prop :=
  sec_true s /\ exists hb bb pb, header_enc num version (snd s) hb /\ body_enc (h_format (snd s)) (fst s) bb /\ pack (h_comp (snd s)) bb pb /\ bs = hb ++ pb.
(** A patch: sections one after the other, the continuation bit set on all but the last. *)
Inductive patch_enc (pack : Z -> list Z -> list Z -> Prop) (num : list Z -> Z -> Prop) (version : Z) : list (list op * header) -> list Z -> Prop :=
| pe_last s b : h_more (snd s) = false -> section_enc pack num version s b -> patch_enc pack num version [s] b
| pe_more s b r bs : h_more (snd s) = true -> section_enc pack num version s b -> patch_enc pack num version r bs ->
    patch_enc pack num version (s :: r) (b ++ bs).
(** Secondary compression (4.1.1): 0 none; 1 the body is itself the output of a plain patch without dictionary copies; 2 Zstd; 3 Brotli
    ([zstd b p], [brotli b p]: [p] is a compressed form of [b]). *)
Definition any_pack (zstd brotli : list Z -> list Z -> Prop) (num : list Z -> Z -> Prop) (version : Z) (a : Z) (body stored : list Z) : Prop :=
  match a with
  | 0 => stored = body
  | 1 => exists secs, patch_enc plain_pack num version secs stored /\ run_ops [] [] (concat (map fst secs)) = Some body /\
      existsb is_dict_copy (concat (map fst secs)) = false
  | 2 => zstd body stored
  | 3 => brotli body stored
  | _ => False
  end.
