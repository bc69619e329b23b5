(** Which bytes the reader takes as a section: the layout of SpecFmt.v with everything it does not check left open.
    Mentions no function of the model of the code. *)
From Verif Require Import Base Spec.
From Verif Require SpecFmt.

(** Seven bits per byte, or-ed together at the places a 64-bit shift register puts them: the [i]-th byte goes to bit (7 i) mod 64,
    what is shifted out at the top is lost. *)
Fixpoint or_bits (i : Z) (bs : list Z) : Z :=
  match bs with
  | [] => 0
  | b :: r => Z.lor ((b mod 128 * 2 ^ ((7 * i) mod 64)) mod 2 ^ 64) (or_bits (i + 1) r)
  end.
(** A 64-bit number as it is read. With overflow checks: at most ten bytes, reduced modulo 2^64.
    Without: any number of bytes. *)
Definition num64 (m : mode) (bs : list Z) (v : Z) : Prop :=
  exists n, leb bs n /\
  match m with
  | Debug => zlen bs <= 10 /\ v = n mod 2 ^ 64
  | Release => v = or_bits 0 bs
  end.
(** The counts of a section header are reduced modulo 2^32. *)
Definition num32 (m : mode) (bs : list Z) (v : Z) : Prop := exists w, num64 m bs w /\ v = w mod 2 ^ 32.
(** Sums are 32-bit: with overflow checks they must fit, without they are reduced. *)
Definition sum32 (m : mode) (v r : Z) : Prop :=
  match m with Debug => r = v /\ v < 2 ^ 32 | Release => r = v mod 2 ^ 32 end.

(** One operation: as [op_enc] (Spec.v), the literal bytes of an Add being elsewhere in segregated sections, the address difference any number. *)
Inductive op_acc (m : mode) (f : format) (d o : Z) : list Z -> op -> Prop :=
| acc_add s sb a : size_enc s sb (zlen a) ->
    op_acc m f d o ((64 * 2 + s) :: sb ++ match f with Interleaved => a | Segregated => [] end) (Add a)
| acc_run n b : 1 <= n <= 62 -> op_acc m f d o [64 * 3 + n; b] (Run b n)
| acc_copy src s sb n db delta :
    size_enc s sb n -> num64 m db (zigzag delta) -> - 2 ^ 63 <= delta < 2 ^ 63 -> (m = Debug -> delta <> - 2 ^ 63) ->
    op_acc m f d o ((64 * match src with Dict => 0 | Output => 1 end + s) :: sb ++ db)
           (Copy src ((last_addr d o src + delta) mod 2 ^ 64) n).
Inductive ops_acc (m : mode) (f : format) : Z -> Z -> list Z -> list op -> Prop :=
| oa_nil d o : ops_acc m f d o [] []
| oa_op d o b x bs r : op_acc m f d o b x -> ops_acc m f (next_d d x) (next_o o x) bs r -> ops_acc m f d o (b ++ bs) (x :: r).

(** The first byte: compression in bits 3-5, format bit 6, continuation bit 7; bits 0-2 are not looked at. *)
Definition control (c : Z) (h : header) : Prop :=
  is_byte c /\ h_comp h = (c / 8) mod 8 /\ (h_format h = Segregated <-> 64 <= c mod 128) /\ (h_more h = true <-> 128 <= c).
Inductive section_acc (m : mode) (ops : list op) (h : header) : list Z -> Prop :=
| sa_interleaved c b1 b2 e : control c h -> h_format h = Interleaved ->
    num32 m b1 (h_nops h) -> num32 m b2 (h_osize h) ->
    h_nops h = zlen ops -> h_nadd h = 0 -> sum32 m (ops_len ops) (h_osize h) ->
    ops_acc m Interleaved 0 0 e ops ->
    section_acc m ops h (c :: b1 ++ b2 ++ e)
| sa_segregated c b1 b2 b3 e adds other : control c h -> h_format h = Segregated ->
    num32 m b1 (h_nops h) -> num32 m b2 adds -> num32 m b3 other ->
    h_nops h = zlen ops -> sum32 m (adds + other) (h_osize h) -> sum32 m (ops_len ops) (h_osize h) ->
    sum32 m (adds + adds_len ops) (h_nadd h) ->
    ops_acc m Segregated 0 0 e ops ->
    section_acc m ops h (c :: b1 ++ b2 ++ b3 ++ e ++ SpecFmt.literals ops).
