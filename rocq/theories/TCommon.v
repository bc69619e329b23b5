(** Properties C01-C07: integer encodings of smdiff-common. *)
From Verif Require Import Base Spec MCommon PBase PCommon.

(** C01. Zig-zag coding is a bijection between i64 and u64 (and is the usual one). *)
Theorem C01_zigzag_bijection :
  (forall n, - 2 ^ 63 <= n < 2 ^ 63 ->
     zigzag_encode n = (if 0 <=? n then 2 * n else -2 * n - 1) /\
     0 <= zigzag_encode n < 2 ^ 64 /\ zigzag_decode (zigzag_encode n) = n) /\
  (forall z, 0 <= z < 2 ^ 64 -> - 2 ^ 63 <= zigzag_decode z < 2 ^ 63 /\ zigzag_encode (zigzag_decode z) = z).
Proof.
  split.
  - intros n H. rewrite (zigzag_encode_spec n H). split; [reflexivity|]. split; [now apply zigzag_range|].
    now apply zigzag_decode_zigzag.
  - intros z H. pose proof (zigzag_decode_range z H) as R. split; [exact R|].
    rewrite zigzag_encode_spec by exact R. now apply zigzag_zigzag_decode.
Qed.
Example C01_example : zigzag_encode (- 2 ^ 63) = 2 ^ 64 - 1 /\ zigzag_decode (2 ^ 64 - 1) = - 2 ^ 63 /\ zigzag_encode (-3) = 5.
Proof. vm_compute. auto. Qed.

(** C02. Unsigned varints round-trip, in both build modes, with exact consumption. *)
Theorem C02_u_varint_roundtrip : forall m n rest, 0 <= n < 2 ^ 64 ->
  exists bs, write_u_varint n = (bs, Ok tt) /\ read_u_varint m (bs ++ rest) = Ok (n, rest).
Proof. exact u_varint_roundtrip. Qed.
Example C02_example : write_u_varint 300 = ([172; 2], Ok tt) /\ read_u_varint Debug ([172; 2] ++ [9]) = Ok (300, [9]).
Proof. vm_compute. auto. Qed.

(** C03. The length predicted by u_varint_encode_size is the number of bytes written, 1..10, and it is minimal. *)
Theorem C03_u_varint_length : forall n, 0 <= n < 2 ^ 64 ->
  exists bs, write_u_varint n = (bs, Ok tt) /\ u_varint_encode_size n = Ok (zlen bs) /\
             1 <= zlen bs <= 10 /\ n < 2 ^ (7 * zlen bs) /\
             (forall k, 1 <= k -> n < 2 ^ (7 * k) -> zlen bs <= k).
Proof. exact write_u_varint_len. Qed.
Example C03_example : u_varint_encode_size 127 = Ok 1 /\ u_varint_encode_size 128 = Ok 2 /\ u_varint_encode_size (2 ^ 64 - 1) = Ok 10.
Proof. vm_compute. auto. Qed.

(** C04. The reader accepts every LEB128 encoding (also over-long ones) of a u64 in at most 10 bytes, with exact
    consumption; a sequence of continuation bytes is never a value: with at most 10 of them the result is an
    end-of-file error, and with more it is that or (overflow checks only) a panic. *)
Theorem C04_u_varint_reader_complete : forall m,
  (forall bs v rest, leb bs v -> zlen bs <= 10 -> v < 2 ^ 64 -> read_u_varint m (bs ++ rest) = Ok (v, rest)) /\
  (forall bs, Forall (fun b => 128 <= b < 256) bs -> zlen bs <= 10 -> read_u_varint m bs = Err EOF) /\
  (forall bs v, Forall (fun b => 128 <= b < 256) bs -> read_u_varint m bs <> Ok v).
Proof.
  intro m. split; [|split].
  - intros. now apply read_u_varint_leb.
  - intros bs Hb Hl. destruct (read_u_varint_no_end m bs Hb 0 0) as [H|(_ & _ & H)]; [exact H|lia].
  - intros bs v Hb. unfold read_u_varint. destruct (read_u_varint_no_end m bs Hb 0 0) as [H|(_ & H & _)]; rewrite H; discriminate.
Qed.
Example C04_example : leb [133; 128; 0] 5 /\ read_u_varint Debug [133; 128; 0; 77] = Ok (5, [77]).
Proof.
  split; [|reflexivity].
  apply (leb_more 133 [128; 0] 0); [lia|]. apply (leb_more 128 [0] 0); [lia|]. constructor. lia.
Qed.

(** C05. Signed varints round-trip. *)
Theorem C05_i_varint_roundtrip : forall m n rest, - 2 ^ 63 <= n < 2 ^ 63 ->
  exists bs, write_i_varint n = (bs, Ok tt) /\ read_i_varint m (bs ++ rest) = Ok (n, rest).
Proof. exact i_varint_roundtrip. Qed.
Example C05_example : write_i_varint (-65) = ([129; 1], Ok tt) /\ read_i_varint Release [129; 1; 0] = Ok (-65, [0]).
Proof. vm_compute. auto. Qed.

(** C06. Untrusted varints: up to 10 bytes the value is read modulo 2^64 (high bits are silently lost); ten continuation
    bytes followed by any byte panic with overflow checks; without them the reader never panics, but longer encodings
    are read as wrong values. So "never panics and never loses bits" is refuted in both build modes. *)
Theorem C06_untrusted_varint :
  (forall m bs v rest, leb bs v -> zlen bs <= 10 -> read_u_varint m (bs ++ rest) = Ok (v mod 2 ^ 64, rest)) /\
  (forall bs b rest, Forall (fun b => 128 <= b < 256) bs -> zlen bs = 10 -> read_u_varint Debug (bs ++ b :: rest) = Panic) /\
  (forall bs, (exists x, read_u_varint Release bs = Ok x) \/ read_u_varint Release bs = Err EOF).
Proof.
  split; [exact read_u_varint_leb_mod|]. split; [exact read_u_varint_eleven|].
  intro bs. unfold read_u_varint.
  enough (G : forall s r, (exists x, read_u_varint_loop Release r s bs = Ok x) \/ read_u_varint_loop Release r s bs = Err EOF)
    by apply G.
  induction bs as [|b bs IH]; intros s r; cbn [read_u_varint_loop]; [auto|].
  unfold shl_u64. destruct (s <? 64); cbn [bind]; (destruct (Z.land b 128 =? 0); [left; eexists; reflexivity|apply IH]).
Qed.
Theorem C06_refuted_loses_bits : exists bs v, leb bs v /\ v = 2 ^ 64 /\
  (forall m, read_u_varint m bs = Ok (0, [])).
Proof.
  exists (rep 128 9 ++ [2]), (2 ^ 64). split; [|split; [reflexivity|intros []; reflexivity]].
  change (rep 128 9 ++ [2]) with [128; 128; 128; 128; 128; 128; 128; 128; 128; 2].
  change (2 ^ 64) with ((128 - 128) + 128 * ((128 - 128) + 128 * ((128 - 128) + 128 * ((128 - 128) + 128 * ((128 - 128) + 128 *
    ((128 - 128) + 128 * ((128 - 128) + 128 * ((128 - 128) + 128 * ((128 - 128) + 128 * 2))))))))).
  do 9 (apply leb_more; [lia|]). constructor. lia.
Qed.
Theorem C06_refuted_panics : read_u_varint Debug (rep 128 10 ++ [1]) = Panic.
Proof. reflexivity. Qed.
Example C06_example_release : read_u_varint Release (rep 128 10 ++ [1]) = Ok (64, []).
Proof. reflexivity. Qed.

(** C07. Copy-address deltas round-trip for all pairs of addresses; the only exception is a distance of exactly 2^63 in
    builds with overflow checks, which panics. *)
Theorem C07_address_delta_roundtrip : forall m cur target, 0 <= cur < 2 ^ 64 -> 0 <= target < 2 ^ 64 ->
  (m = Release \/ Z.abs (target - cur) <> 2 ^ 63 ->
     exists i, diff_addresses_to_i64 m cur target = Ok i /\ - 2 ^ 63 <= i < 2 ^ 63 /\
               diff_addresses_to_u64 m cur i = Ok target) /\
  (m = Debug -> Z.abs (target - cur) = 2 ^ 63 ->
     (do i <- diff_addresses_to_i64 m cur target; diff_addresses_to_u64 m cur i) = Panic).
Proof.
  intros m cur t Hc Ht. split.
  - now apply delta_roundtrip.
  - intros ->. now apply delta_debug_panic.
Qed.
Example C07_example : diff_addresses_to_i64 Debug (2 ^ 64 - 1) 3 = Ok 4 /\ diff_addresses_to_u64 Debug (2 ^ 64 - 1) 4 = Ok 3.
Proof. vm_compute. auto. Qed.

Print Assumptions C01_zigzag_bijection.
Print Assumptions C02_u_varint_roundtrip.
Print Assumptions C03_u_varint_length.
Print Assumptions C04_u_varint_reader_complete.
Print Assumptions C05_i_varint_roundtrip.
Print Assumptions C06_untrusted_varint.
Print Assumptions C06_refuted_loses_bits.
Print Assumptions C06_refuted_panics.
Print Assumptions C07_address_delta_roundtrip.
