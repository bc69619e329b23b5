(** Proofs about MCommon.v. *)
From Verif Require Import Base Spec MCommon PBase.
Ltac Zify.zify_post_hook ::= Z.div_mod_to_equations.

(** ** Zig-zag *)
Lemma lxor_m1 a : Z.lxor a (-1) = - a - 1.
Proof. rewrite Z.lxor_m1_r. unfold Z.lnot. lia. Qed.

Lemma shiftr63_sign n : - 2 ^ 63 <= n < 2 ^ 63 -> Z.shiftr n 63 = if 0 <=? n then 0 else -1.
Proof. intro H; rewrite Z.shiftr_div_pow2 by lia. destruct (0 <=? n) eqn:E; lia. Qed.

Lemma to_u64_lxor_m1 a : to_u64 (Z.lxor (to_i64 a) (-1)) = to_u64 (- a - 1).
Proof.
  rewrite lxor_m1. unfold to_u64, to_i64. lia.
Qed.

Lemma zigzag_encode_spec n : - 2 ^ 63 <= n < 2 ^ 63 -> zigzag_encode n = zigzag n.
Proof.
  intro H; unfold zigzag_encode, zigzag. rewrite shiftr63_sign by lia.
  rewrite Z.shiftl_mul_pow2 by lia.
  destruct (0 <=? n) eqn:E.
  - rewrite Z.lxor_0_r. unfold to_u64, to_i64. lia.
  - rewrite to_u64_lxor_m1. unfold to_u64. lia.
Qed.

Lemma land1_mod z : Z.land z 1 = z mod 2.
Proof. change 1 with (Z.ones 1) at 1. rewrite Z.land_ones by lia. reflexivity. Qed.

Lemma zigzag_decode_even k : 0 <= k < 2 ^ 63 -> zigzag_decode (2 * k) = k.
Proof.
  intro H; unfold zigzag_decode. rewrite land1_mod, Z.shiftr_div_pow2 by lia.
  replace (2 * k / 2 ^ 1) with k by lia. replace (2 * k mod 2) with 0 by lia.
  rewrite Z.lxor_0_r. apply to_i64_id; lia.
Qed.
Lemma zigzag_decode_odd k : 0 <= k < 2 ^ 63 -> zigzag_decode (2 * k + 1) = - k - 1.
Proof.
  intro H; unfold zigzag_decode. rewrite land1_mod, Z.shiftr_div_pow2 by lia.
  replace ((2 * k + 1) / 2 ^ 1) with k by lia. replace ((2 * k + 1) mod 2) with 1 by lia.
  rewrite to_i64_id by lia. apply lxor_m1.
Qed.

Lemma zigzag_range n : - 2 ^ 63 <= n < 2 ^ 63 -> 0 <= zigzag n < 2 ^ 64.
Proof. intro H; unfold zigzag; destruct (0 <=? n) eqn:E; lia. Qed.

Lemma zigzag_decode_zigzag n : - 2 ^ 63 <= n < 2 ^ 63 -> zigzag_decode (zigzag n) = n.
Proof.
  intro H; unfold zigzag; destruct (0 <=? n) eqn:E.
  - apply zigzag_decode_even; lia.
  - replace (-2 * n - 1) with (2 * (- n - 1) + 1) by lia. rewrite zigzag_decode_odd by lia. lia.
Qed.
Lemma zigzag_decode_range z : 0 <= z < 2 ^ 64 -> - 2 ^ 63 <= zigzag_decode z < 2 ^ 63.
Proof.
  intro H. assert (E : z = 2 * (z / 2) \/ z = 2 * (z / 2) + 1) by lia.
  destruct E as [E|E]; rewrite E; [rewrite zigzag_decode_even|rewrite zigzag_decode_odd]; lia.
Qed.
Lemma zigzag_zigzag_decode z : 0 <= z < 2 ^ 64 -> zigzag (zigzag_decode z) = z.
Proof.
  intro H. assert (E : z = 2 * (z / 2) \/ z = 2 * (z / 2) + 1) by lia.
  destruct E as [E|E]; rewrite E at 1;
    [rewrite zigzag_decode_even by lia|rewrite zigzag_decode_odd by lia]; unfold zigzag;
    match goal with |- context[?a <=? ?b] => destruct (a <=? b) eqn:?; lia end.
Qed.

(** ** Bits of a byte *)
Lemma land127 n : Z.land n 127 = n mod 128.
Proof. change 127 with (Z.ones 7). rewrite Z.land_ones by lia. reflexivity. Qed.
Lemma land128_lt b : 0 <= b < 128 -> Z.land b 128 =? 0 = true.
Proof.
  intro H. pose proof (byte_sweep (fun b => implb (b <? 128) (Z.land b 128 =? 0)) eq_refl b ltac:(lia)) as E.
  cbv beta in E. replace (b <? 128) with true in E by lia. exact E.
Qed.
Lemma land128_ge b : 128 <= b < 256 -> Z.land b 128 =? 0 = false.
Proof.
  intro H. pose proof (byte_sweep (fun b => implb (128 <=? b) (negb (Z.land b 128 =? 0))) eq_refl b ltac:(lia)) as E.
  cbv beta in E. replace (128 <=? b) with true in E by lia. cbn [implb] in E. now destruct (Z.land b 128 =? 0).
Qed.
Lemma lor128 b : 0 <= b < 128 -> Z.lor b 128 = b + 128.
Proof.
  intro H. pose proof (byte_sweep (fun b => implb (b <? 128) (Z.lor b 128 =? b + 128)) eq_refl b ltac:(lia)) as E.
  cbv beta in E. replace (b <? 128) with true in E by lia. cbn [implb] in E. lia.
Qed.

Lemma lor_shift a v s : 0 <= s -> 0 <= a < 2 ^ s -> Z.lor a (Z.shiftl v s) = a + v * 2 ^ s.
Proof.
  intros Hs Ha. rewrite <- Z.shiftl_mul_pow2 by lia.
  assert (E : Z.land a (Z.shiftl v s) = 0).
  { apply Z.bits_inj'. intros n Hn. rewrite Z.land_spec, Z.bits_0, Z.shiftl_spec by lia.
    destruct (Z_lt_ge_dec n s) as [Hlt|Hge].
    - rewrite (Z.testbit_neg_r v) by lia. apply andb_false_r.
    - destruct (Z.eq_dec a 0) as [->|Hnz]; [now rewrite Z.bits_0|].
      rewrite (Z.bits_above_log2 a n); [reflexivity|lia|].
      apply Z.log2_lt_pow2; [lia|].
      apply Z.lt_le_trans with (2 ^ s); [lia|]. apply Z.pow_le_mono_r; lia. }
  rewrite <- Z.lxor_lor by exact E. symmetry. apply Z.add_nocarry_lxor, E.
Qed.

Lemma lor_mul a v s : 0 <= s -> 0 <= a < 2 ^ s -> Z.lor a (v * 2 ^ s) = a + v * 2 ^ s.
Proof. intros Hs Ha. rewrite <- (Z.shiftl_mul_pow2 v s) at 1 by lia. now apply lor_shift. Qed.

(** ** u-varint *)
Lemma leb_nonneg bs v : leb bs v -> 0 <= v.
Proof. induction 1; lia. Qed.
Lemma leb_bytes bs v : leb bs v -> Forall is_byte bs.
Proof.
  induction 1 as [b Hb|b bs v Hb Hl IH]; (constructor; [unfold is_byte; lia|]); [constructor|exact IH].
Qed.
Lemma leb_len bs v : leb bs v -> 1 <= zlen bs.
Proof. destruct 1 as [b Hb|b bs v Hb Hl]; rewrite zlen_cons; [rewrite zlen_nil; lia|]. pose proof (zlen_nonneg bs); lia. Qed.
Lemma leb_bound bs v : leb bs v -> v < 2 ^ (7 * zlen bs).
Proof.
  induction 1 as [b Hb|b bs v Hb Hl IH].
  - cbn. lia.
  - rewrite zlen_cons. replace (7 * (1 + zlen bs)) with (7 + 7 * zlen bs) by lia.
    pose proof (zlen_nonneg bs). rewrite Z.pow_add_r by lia. change (2 ^ 7) with 128. lia.
Qed.

Lemma read_u_varint_loop_leb m bs v :
  leb bs v -> forall r s rest, 0 <= s -> 0 <= r < 2 ^ s -> s + 7 * (zlen bs - 1) < 64 ->
  v * 2 ^ s < 2 ^ 64 ->
  read_u_varint_loop m r s (bs ++ rest) = Ok (r + v * 2 ^ s, rest).
Proof.
  induction 1 as [b Hb|b bs v Hb Hl IH]; intros r s rest Hs Hr Hlen Hv.
  - cbn [app read_u_varint_loop]. unfold shl_u64. rewrite zlen_cons, (@zlen_nil Z) in Hlen.
    replace (s <? 64) with true by lia. cbn [bind].
    rewrite land128_lt by lia. rewrite land127, Z.mod_small by lia.
    rewrite Z.shiftl_mul_pow2 by lia.
    rewrite to_u64_id by nia. rewrite lor_mul by lia. reflexivity.
  - cbn [app read_u_varint_loop]. unfold shl_u64. rewrite zlen_cons in Hlen.
    pose proof (leb_len _ _ Hl). pose proof (leb_nonneg _ _ Hl).
    replace (s <? 64) with true by lia. cbn [bind].
    rewrite land128_ge by lia. rewrite land127.
    replace (b mod 128) with (b - 128) by lia.
    assert (Hp : 0 < 2 ^ s) by (apply Z.pow_pos_nonneg; lia).
    rewrite Z.shiftl_mul_pow2 by lia.
    assert (Hb' : (b - 128) * 2 ^ s < 2 ^ 64) by nia.
    rewrite to_u64_id by nia.
    rewrite lor_mul by lia.
    assert (Hp7 : 2 ^ (s + 7) = 128 * 2 ^ s) by (rewrite Z.pow_add_r by lia; change (2 ^ 7) with 128; lia).
    rewrite IH; [do 2 f_equal; nia|lia|nia|lia|].
    rewrite Hp7. nia.
Qed.

Lemma read_u_varint_leb m bs v rest :
  leb bs v -> zlen bs <= 10 -> v < 2 ^ 64 -> read_u_varint m (bs ++ rest) = Ok (v, rest).
Proof.
  intros H Hl Hv. unfold read_u_varint.
  rewrite (read_u_varint_loop_leb m bs v H); rewrite ?Z.pow_0_r; try lia.
  do 2 f_equal; lia.
Qed.

Lemma u_varint_buf_spec k : forall n, (1 <= k)%nat -> 0 <= n < 2 ^ (7 * Z.of_nat k) ->
  exists bs, u_varint_buf k n = Ok bs /\ leb bs n /\ zlen bs <= Z.of_nat k /\
             (1 < zlen bs -> 2 ^ (7 * (zlen bs - 1)) <= n).
Proof.
  induction k as [|k IH]; intros n Hk Hn; [lia|].
  cbn [u_varint_buf]. destruct (n >=? 128) eqn:E.
  - assert (Hk1 : (1 <= k)%nat).
    { destruct k; [|lia]. exfalso. cbn in Hn. lia. }
    destruct (IH (Z.shiftr n 7) Hk1) as (bs & Hb & Hl & Hlen & Hmin).
    { rewrite Z.shiftr_div_pow2 by lia. change (2 ^ 7) with 128.
      replace (7 * Z.of_nat (S k)) with (7 + 7 * Z.of_nat k) in Hn by lia.
      rewrite Z.pow_add_r in Hn by lia. change (2 ^ 7) with 128 in Hn. lia. }
    rewrite Hb. cbn [bind]. eexists; split; [reflexivity|].
    rewrite land127, lor128 by lia. rewrite to_u8_id by lia.
    rewrite Z.shiftr_div_pow2 in Hl, Hmin by lia. change (2 ^ 7) with 128 in Hl, Hmin.
    split; [|split].
    + replace n with ((n mod 128 + 128 - 128) + 128 * (n / 128)) at 2 by lia. constructor; [lia|exact Hl].
    + rewrite zlen_cons; lia.
    + intros _. rewrite zlen_cons. replace (7 * (1 + zlen bs - 1)) with (7 * zlen bs) by lia.
      destruct (Z.eq_dec (zlen bs) 1) as [H1|H1].
      * rewrite H1. change (2 ^ (7 * 1)) with 128. lia.
      * pose proof (leb_len _ _ Hl). specialize (Hmin ltac:(lia)).
        replace (7 * zlen bs) with (7 + 7 * (zlen bs - 1)) by lia.
        rewrite Z.pow_add_r by lia. change (2 ^ 7) with 128. lia.
  - eexists; split; [reflexivity|]. rewrite to_u8_id by lia.
    split; [constructor; lia|]. rewrite zlen_cons, zlen_nil. split; lia.
Qed.

Lemma write_u_varint_spec n : 0 <= n < 2 ^ 64 ->
  exists bs, write_u_varint n = (bs, Ok tt) /\ leb bs n /\ zlen bs <= 10 /\
             (1 < zlen bs -> 2 ^ (7 * (zlen bs - 1)) <= n).
Proof.
  intro H. destruct (u_varint_buf_spec 10 n) as (bs & Hb & Hl & Hlen & Hm); [lia|cbn; lia|].
  exists bs. unfold write_u_varint. rewrite Hb. cbn. rewrite ?app_nil_r. auto.
Qed.

Lemma u_varint_size_loop_spec fuel : forall k s n, (k <= fuel)%nat -> 0 <= n < 2 ^ (7 * Z.of_nat k) ->
  exists r, u_varint_size_loop fuel s n = Ok (s + r) /\ 0 <= r <= Z.of_nat k /\ n < 2 ^ (7 * r) /\
            (1 <= r -> 2 ^ (7 * (r - 1)) <= n).
Proof.
  induction fuel as [|fuel IH]; intros k s n Hk Hn; cbn [u_varint_size_loop].
  - assert (k = O) as -> by lia. change (2 ^ (7 * Z.of_nat 0)) with 1 in Hn.
    replace (n >? 0) with false by lia. exists 0. rewrite Z.add_0_r. split; [reflexivity|]. cbn. lia.
  - destruct (n >? 0) eqn:E.
    + destruct k as [|k]; [change (2 ^ (7 * Z.of_nat 0)) with 1 in Hn; lia|].
      destruct (IH k (s + 1) (Z.shiftr n 7)) as (r & Hr & Hrk & Hlt & Hge); [lia| |].
      { rewrite Z.shiftr_div_pow2 by lia. change (2 ^ 7) with 128.
        replace (7 * Z.of_nat (S k)) with (7 + 7 * Z.of_nat k) in Hn by lia.
        rewrite Z.pow_add_r in Hn by lia. change (2 ^ 7) with 128 in Hn. lia. }
      rewrite Z.shiftr_div_pow2 in Hlt, Hge by lia. change (2 ^ 7) with 128 in Hlt, Hge.
      exists (r + 1). rewrite Hr. split; [f_equal; lia|]. split; [lia|].
      replace (7 * (r + 1)) with (7 + 7 * r) by lia. rewrite Z.pow_add_r by lia. change (2 ^ 7) with 128.
      split; [lia|]. intros _. replace (7 * (r + 1 - 1)) with (7 * r) by lia.
      destruct (Z.eq_dec r 0) as [->|Hr0]; [cbn; lia|]. specialize (Hge ltac:(lia)).
      replace (7 * r) with (7 + 7 * (r - 1)) by lia. rewrite Z.pow_add_r by lia. change (2 ^ 7) with 128. lia.
    + exists 0. rewrite Z.add_0_r. split; [reflexivity|]. cbn. lia.
Qed.

Lemma u_varint_encode_size_spec n : 0 <= n < 2 ^ 64 ->
  exists s, u_varint_encode_size n = Ok s /\ 1 <= s <= 10 /\ n < 2 ^ (7 * s) /\ (2 <= s -> 2 ^ (7 * (s - 1)) <= n).
Proof.
  intro H. destruct (u_varint_size_loop_spec 10 9 1 (Z.shiftr n 7)) as (r & Hr & Hk & Hlt & Hge); [lia| |].
  { rewrite Z.shiftr_div_pow2 by lia. cbn. lia. }
  exists (1 + r). split; [exact Hr|]. split; [lia|].
  rewrite Z.shiftr_div_pow2 in Hlt, Hge by lia. change (2 ^ 7) with 128 in Hlt, Hge.
  replace (7 * (1 + r)) with (7 + 7 * r) by lia. rewrite Z.pow_add_r by lia. change (2 ^ 7) with 128.
  split; [lia|]. intro Hr2. replace (7 * (1 + r - 1)) with (7 * r) by lia.
  specialize (Hge ltac:(lia)). replace (7 * r) with (7 + 7 * (r - 1)) by lia.
  rewrite Z.pow_add_r by lia. change (2 ^ 7) with 128. lia.
Qed.

(** minimal length is unique *)
Lemma pow7_unique n a b : 1 <= a -> 1 <= b -> n < 2 ^ (7 * a) -> n < 2 ^ (7 * b) ->
  (1 < a -> 2 ^ (7 * (a - 1)) <= n) -> (1 < b -> 2 ^ (7 * (b - 1)) <= n) -> a = b.
Proof.
  intros Ha Hb Hna Hnb Hma Hmb.
  destruct (Z.lt_trichotomy a b) as [H|[H|H]]; [|exact H|].
  - specialize (Hmb ltac:(lia)). assert (2 ^ (7 * a) <= 2 ^ (7 * (b - 1))) by (apply Z.pow_le_mono_r; lia). lia.
  - specialize (Hma ltac:(lia)). assert (2 ^ (7 * b) <= 2 ^ (7 * (a - 1))) by (apply Z.pow_le_mono_r; lia). lia.
Qed.

Lemma write_u_varint_len n : 0 <= n < 2 ^ 64 ->
  exists bs, write_u_varint n = (bs, Ok tt) /\ u_varint_encode_size n = Ok (zlen bs) /\
             1 <= zlen bs <= 10 /\ n < 2 ^ (7 * zlen bs) /\
             (forall k, 1 <= k -> n < 2 ^ (7 * k) -> zlen bs <= k).
Proof.
  intro H. destruct (write_u_varint_spec n H) as (bs & Hw & Hl & H10 & Hm).
  destruct (u_varint_encode_size_spec n H) as (s & Hs & Hs10 & Hlt & Hge).
  pose proof (leb_len _ _ Hl) as H1. pose proof (leb_bound _ _ Hl) as Hb.
  assert (E : s = zlen bs) by (apply (pow7_unique n); lia).
  exists bs. split; [exact Hw|]. split; [congruence|]. split; [lia|]. split; [exact Hb|].
  intros k Hk Hnk. destruct (Z.le_gt_cases (zlen bs) k) as [Hc|Hc]; [exact Hc|].
  specialize (Hm ltac:(lia)).
  assert (2 ^ (7 * k) <= 2 ^ (7 * (zlen bs - 1))) by (apply Z.pow_le_mono_r; lia). lia.
Qed.

Lemma u_varint_roundtrip m n rest : 0 <= n < 2 ^ 64 ->
  exists bs, write_u_varint n = (bs, Ok tt) /\ read_u_varint m (bs ++ rest) = Ok (n, rest).
Proof.
  intro H. destruct (write_u_varint_spec n H) as (bs & Hw & Hl & H10 & _).
  exists bs. split; [exact Hw|]. apply read_u_varint_leb; auto; lia.
Qed.

Lemma i_varint_roundtrip m n rest : - 2 ^ 63 <= n < 2 ^ 63 ->
  exists bs, write_i_varint n = (bs, Ok tt) /\ read_i_varint m (bs ++ rest) = Ok (n, rest).
Proof.
  intro H. pose proof (zigzag_range n H) as Hz.
  destruct (u_varint_roundtrip m (zigzag n) rest Hz) as (bs & Hw & Hr).
  exists bs. unfold write_i_varint, read_i_varint. rewrite zigzag_encode_spec by lia. split; [exact Hw|].
  rewrite Hr. cbn. now rewrite zigzag_decode_zigzag.
Qed.

(** Only continuation bytes: never a value. *)
Lemma read_u_varint_no_end m bs : Forall (fun b => 128 <= b < 256) bs ->
  forall r s, read_u_varint_loop m r s bs = Err EOF \/
              (m = Debug /\ read_u_varint_loop m r s bs = Panic /\ 64 <= s + 7 * (zlen bs - 1)).
Proof.
  induction 1 as [|b bs Hb Hbs IH]; intros r s; cbn [read_u_varint_loop].
  - left; reflexivity.
  - unfold shl_u64. rewrite zlen_cons. destruct (s <? 64) eqn:E.
    + cbn [bind]. rewrite land128_ge by lia.
      destruct (IH (Z.lor r (to_u64 (Z.shiftl (Z.land b 127) s))) (s + 7)) as [IH'|(Hm & IH' & Hs)]; [left; exact IH'|].
      right. split; [exact Hm|]. split; [exact IH'|lia].
    + destruct m.
      * right. split; [reflexivity|]. split; [reflexivity|]. pose proof (zlen_nonneg bs). lia.
      * cbn [bind]. rewrite land128_ge by lia.
        destruct (IH (Z.lor r (to_u64 (Z.shiftl (Z.land b 127) (s mod 64)))) (s + 7)) as [IH'|(Hm & _)];
          [left; exact IH'|discriminate].
Qed.

(** Exact behaviour of the reader when the first byte without continuation bit is among the first ten:
    the value modulo 2^64. *)
Lemma read_u_varint_loop_leb_mod m bs v :
  leb bs v -> forall r s rest, 0 <= s -> 0 <= r < 2 ^ s -> s + 7 * (zlen bs - 1) < 64 ->
  r + (v * 2 ^ s) mod 2 ^ 64 < 2 ^ 64 /\
  read_u_varint_loop m r s (bs ++ rest) = Ok (r + (v * 2 ^ s) mod 2 ^ 64, rest).
Proof.
  assert (Hsplit : forall x s, 0 <= s < 64 -> (x * 2 ^ s) mod 2 ^ 64 = (x mod 2 ^ (64 - s)) * 2 ^ s).
  { intros x s Hs. replace (2 ^ 64) with (2 ^ (64 - s) * 2 ^ s) by (rewrite <- Z.pow_add_r by lia; f_equal; lia).
    apply Z.mul_mod_distr_r; apply Z.pow_nonzero; lia. }
  assert (Hlor : forall r x s, 0 <= s < 64 -> 0 <= r < 2 ^ s ->
            Z.lor r (to_u64 (Z.shiftl x s)) = r + (x * 2 ^ s) mod 2 ^ 64 /\ r + (x * 2 ^ s) mod 2 ^ 64 < 2 ^ 64).
  { intros r x s Hs Hr. unfold to_u64. rewrite Z.shiftl_mul_pow2 by lia.
    rewrite Hsplit by lia. rewrite lor_mul by lia. split; [reflexivity|].
    pose proof (Z.mod_pos_bound x (2 ^ (64 - s)) ltac:(apply Z.pow_pos_nonneg; lia)) as Hb.
    assert (E : 2 ^ 64 = 2 ^ (64 - s) * 2 ^ s) by (rewrite <- Z.pow_add_r by lia; f_equal; lia).
    nia. }
  induction 1 as [b Hb|b bs v Hb Hl IH]; intros r s rest Hs Hr Hlen.
  - cbn [app read_u_varint_loop]. unfold shl_u64. rewrite zlen_cons, (@zlen_nil Z) in Hlen.
    replace (s <? 64) with true by lia. cbn [bind]. rewrite land128_lt by lia.
    rewrite land127, (Z.mod_small b 128) by lia.
    destruct (Hlor r b s ltac:(lia) Hr) as [-> Hlt]. auto.
  - cbn [app read_u_varint_loop]. unfold shl_u64. rewrite zlen_cons in Hlen.
    pose proof (leb_len _ _ Hl). pose proof (leb_nonneg _ _ Hl).
    replace (s <? 64) with true by lia. cbn [bind]. rewrite land128_ge by lia.
    rewrite land127. replace (b mod 128) with (b - 128) by lia.
    destruct (Hlor r (b - 128) s ltac:(lia) Hr) as [-> Hlt].
    assert (Hp : 0 < 2 ^ s) by (apply Z.pow_pos_nonneg; lia).
    assert (Hp7 : 2 ^ (s + 7) = 128 * 2 ^ s) by (rewrite Z.pow_add_r by lia; change (2 ^ 7) with 128; lia).
    assert (Hs56 : s + 7 < 64) by lia.
    assert (Hsm : (b - 128) * 2 ^ s < 2 ^ 64).
    { assert (2 ^ (s + 7) <= 2 ^ 64) by (apply Z.pow_le_mono_r; lia). nia. }
    rewrite (Z.mod_small ((b - 128) * 2 ^ s)) in Hlt |- * by nia.
    assert (Hq : 0 <= (b - 128) * 2 ^ s <= 127 * 2 ^ s).
    { split; [apply Z.mul_nonneg_nonneg; lia|apply Z.mul_le_mono_nonneg_r; lia]. }
    destruct (IH (r + (b - 128) * 2 ^ s) (s + 7) rest) as [IH1 IH2]; [lia|rewrite Hp7; lia|lia|].
    rewrite IH2. clear IH IH2.
    assert (E : ((b - 128 + 128 * v) * 2 ^ s) mod 2 ^ 64 = (b - 128) * 2 ^ s + (v * 2 ^ (s + 7)) mod 2 ^ 64).
    { replace ((b - 128 + 128 * v) * 2 ^ s) with ((b - 128) * 2 ^ s + v * 2 ^ (s + 7)) by (rewrite Hp7; lia).
      rewrite <- (Z.add_mod_idemp_r _ (v * 2 ^ (s + 7))) by lia. apply Z.mod_small.
      pose proof (Z.mod_pos_bound (v * 2 ^ (s + 7)) (2 ^ 64) ltac:(lia)). lia. }
    rewrite E. split; [lia|]. do 2 f_equal. lia.
Qed.

Lemma read_u_varint_leb_mod m bs v rest :
  leb bs v -> zlen bs <= 10 -> read_u_varint m (bs ++ rest) = Ok (v mod 2 ^ 64, rest).
Proof.
  intros H Hl. unfold read_u_varint.
  destruct (read_u_varint_loop_leb_mod m bs v H 0 0 rest) as [_ E]; rewrite ?Z.pow_0_r in *; try lia.
  rewrite E. do 2 f_equal. rewrite Z.mul_1_r. lia.
Qed.

(** Ten continuation bytes and one more: overflow. *)
Lemma read_u_varint_eleven bs b rest : Forall (fun b => 128 <= b < 256) bs -> zlen bs = 10 ->
  read_u_varint Debug (bs ++ b :: rest) = Panic.
Proof.
  intros Hbs Hlen. unfold read_u_varint.
  assert (G : forall bs, Forall (fun b => 128 <= b < 256) bs -> forall r s, 0 <= s -> s + 7 * zlen bs = 70 ->
              read_u_varint_loop Debug r s (bs ++ b :: rest) = Panic).
  { clear. induction 1 as [|c bs Hc Hbs IH]; intros r s Hs H.
    - rewrite (@zlen_nil Z) in H. cbn [app read_u_varint_loop]. unfold shl_u64. now replace (s <? 64) with false by lia.
    - rewrite zlen_cons in H. cbn [app read_u_varint_loop]. unfold shl_u64.
      destruct (s <? 64); [|reflexivity]. cbn [bind]. rewrite land128_ge by lia. apply IH; lia. }
  apply G; [exact Hbs|lia|lia].
Qed.

(** ** Address deltas *)
Lemma delta_roundtrip m cur t : 0 <= cur < 2 ^ 64 -> 0 <= t < 2 ^ 64 -> m = Release \/ Z.abs (t - cur) <> 2 ^ 63 ->
  exists i, diff_addresses_to_i64 m cur t = Ok i /\ - 2 ^ 63 <= i < 2 ^ 63 /\ diff_addresses_to_u64 m cur i = Ok t.
Proof.
  intros Hc Ht Hm. unfold diff_addresses_to_i64, diff_addresses_to_u64.
  assert (Hu : forall x, - 2 ^ 63 <= x < 2 ^ 63 ->
            (x = - 2 ^ 63 -> m = Release) -> to_u64 (cur + x) = t ->
            (if x >=? 0 then Ok (to_u64 (cur + x)) else do a <- arith m to_i64 (Z.abs x); Ok (to_u64 (cur - to_u64 a))) = Ok t).
  { intros x Hx Hmin Hxt. destruct (x >=? 0) eqn:E; [now rewrite Hxt|].
    unfold arith. destruct (to_i64 (Z.abs x) =? Z.abs x) eqn:E2.
    - cbn [bind]. rewrite (to_u64_id (Z.abs x)) by lia. f_equal. rewrite <- Hxt. f_equal. lia.
    - assert (x = - 2 ^ 63) as ->.
      { destruct (Z.eq_dec x (- 2 ^ 63)); [assumption|]. rewrite to_i64_id in E2 by lia. lia. }
      rewrite Hmin by reflexivity. cbn [bind].
      replace (to_u64 (to_i64 (Z.abs (- 2 ^ 63)))) with (2 ^ 63) by reflexivity.
      f_equal; rewrite <- Hxt; f_equal; lia. }
  destruct (t >? cur) eqn:E.
  - exists (to_i64 (t - cur)). split; [reflexivity|].
    assert (R : - 2 ^ 63 <= to_i64 (t - cur) < 2 ^ 63).
    { unfold to_i64. pose proof (Z.mod_pos_bound (t - cur + 2 ^ 63) (2 ^ 64) ltac:(lia)). lia. }
    split; [exact R|]. apply Hu; [exact R| |].
    + intro H. destruct Hm as [Hm|Hm]; [exact Hm|]. exfalso. apply Hm. unfold to_i64 in H. lia.
    + unfold to_u64, to_i64. lia.
  - assert (C : cur - t < 2 ^ 63 \/ cur - t = 2 ^ 63 \/ 2 ^ 63 < cur - t) by lia.
    destruct C as [C|[C|C]].
    + exists (t - cur). rewrite (to_i64_id (cur - t)) by lia.
      rewrite arith_ok by (rewrite to_i64_id; lia).
      split; [f_equal; lia|]. split; [lia|]. apply Hu; [lia|lia|].
      replace (cur + (t - cur)) with t by lia. apply to_u64_id; lia.
    + destruct Hm as [->|Hm]; [|lia].
      exists (- 2 ^ 63). rewrite C. split; [reflexivity|]. split; [lia|]. apply Hu; [lia|reflexivity|].
      unfold to_u64. lia.
    + assert (Ei : to_i64 (cur - t) = cur - t - 2 ^ 64) by (unfold to_i64; lia).
      exists (2 ^ 64 - (cur - t)). rewrite Ei.
      rewrite arith_ok by (rewrite to_i64_id; lia).
      split; [f_equal; lia|]. split; [lia|]. apply Hu; [lia|lia|]. unfold to_u64. lia.
Qed.

Lemma delta_debug_panic cur t : 0 <= cur < 2 ^ 64 -> 0 <= t < 2 ^ 64 -> Z.abs (t - cur) = 2 ^ 63 ->
  (do i <- diff_addresses_to_i64 Debug cur t; diff_addresses_to_u64 Debug cur i) = Panic.
Proof.
  intros Hc Ht H. unfold diff_addresses_to_i64. destruct (t >? cur) eqn:E.
  - replace (t - cur) with (2 ^ 63) by lia. reflexivity.
  - replace (cur - t) with (2 ^ 63) by lia. reflexivity.
Qed.

(** exactly when the encoder of a delta panics *)
Lemma delta_i64_cases m cur t : 0 <= cur < 2 ^ 64 -> 0 <= t < 2 ^ 64 ->
  (m = Debug /\ cur - t = 2 ^ 63 /\ diff_addresses_to_i64 m cur t = Panic) \/
  ((m = Release \/ cur - t <> 2 ^ 63) /\ exists i, diff_addresses_to_i64 m cur t = Ok i /\ - 2 ^ 63 <= i < 2 ^ 63).
Proof.
  intros Hc Ht. unfold diff_addresses_to_i64. destruct (t >? cur) eqn:E.
  - right. split; [lia|]. eexists; split; [reflexivity|]. unfold to_i64.
    pose proof (Z.mod_pos_bound (t - cur + 2 ^ 63) (2 ^ 64) ltac:(lia)). lia.
  - destruct (Z.eq_dec (cur - t) (2 ^ 63)) as [Hd|Hd].
    + rewrite Hd. destruct m.
      * left. auto.
      * right. split; [auto|]. eexists; split; [reflexivity|]. vm_compute. split; congruence.
    + right. split; [auto|]. eexists. split; [apply arith_ok; unfold to_i64; lia|]. unfold to_i64; lia.
Qed.
