(** The reader takes exactly the sections of SpecAcc.v. *)
From Verif Require Import Base Spec SpecFmt SpecAcc MCommon MWriter MReader PBase PCommon PStream PSection PFormat.
Ltac Zify.zify_post_hook ::= idtac.
Arguments Z.add : simpl never.
Arguments Z.sub : simpl never.
Arguments Z.mul : simpl never.
Arguments Z.pow : simpl never.
Arguments Z.modulo : simpl never.

(** ** Numbers *)
Lemma leb_split bs : Forall is_byte bs -> (exists b n rest, bs = b ++ rest /\ leb b n) \/ Forall (fun b => 128 <= b < 256) bs.
Proof.
  induction 1 as [|c bs Hc Hbs IH]; [now right|]. unfold is_byte in Hc. destruct (Z.ltb_spec c 128) as [E|E].
  - left. exists [c], c, bs. split; [reflexivity|]. constructor. lia.
  - destruct IH as [(b & n & rest & -> & Hl)|IH].
    + left. exists (c :: b), (c - 128 + 128 * n), rest. split; [reflexivity|]. constructor; [lia|exact Hl].
    + right. constructor; [lia|exact IH].
Qed.
Lemma leb_determined b n : leb b n -> forall b' n' r r', leb b' n' -> b ++ r = b' ++ r' -> b = b' /\ n = n' /\ r = r'.
Proof.
  induction 1 as [c Hc|c b n Hc Hb IH]; intros b' n' r r' H' E.
  - destruct H' as [c' Hc'|c' b' n' Hc' Hb']; cbn [app] in E; injection E as E1 E2; [subst; auto|lia].
  - destruct H' as [c' Hc'|c' b' n' Hc' Hb']; cbn [app] in E; injection E as E1 E2; [lia|].
    destruct (IH _ _ _ _ Hb' E2) as (-> & -> & ->). subst. auto.
Qed.
Lemma read_release_bits b n rest : leb b n -> forall r i, 0 <= i ->
  read_u_varint_loop Release r (7 * i) (b ++ rest) = Ok (Z.lor r (or_bits i b), rest).
Proof.
  assert (Hsh : forall c i, 0 <= i -> 0 <= c < 256 -> shl_u64 Release (Z.land c 127) (7 * i) = Ok ((c mod 128 * 2 ^ ((7 * i) mod 64)) mod 2 ^ 64)).
  { intros c i Hi Hc. unfold shl_u64. rewrite land127. pose proof (Z.mod_pos_bound (7 * i) 64 ltac:(lia)).
    destruct (Z.ltb_spec (7 * i) 64) as [E|E]; unfold to_u64; rewrite Z.shiftl_mul_pow2 by lia; [now rewrite (Z.mod_small (7 * i) 64) by lia|reflexivity]. }
  induction 1 as [c Hc|c b n Hc Hb IH]; intros r i Hi; cbn [app read_u_varint_loop or_bits]; rewrite Hsh by lia; cbn [bind].
  - rewrite land128_lt by lia. now rewrite Z.lor_0_r.
  - rewrite land128_ge by lia. replace (7 * i + 7) with (7 * (i + 1)) by lia. rewrite IH by lia. now rewrite Z.lor_assoc.
Qed.
Lemma leb_eleven b n : leb b n -> 10 < zlen b -> exists b1 c b2, b = b1 ++ c :: b2 /\ Forall (fun b => 128 <= b < 256) b1 /\ zlen b1 = 10.
Proof.
  assert (G : forall b n, leb b n -> forall k, 0 <= k < zlen b -> exists b1 c b2, b = b1 ++ c :: b2 /\ Forall (fun b => 128 <= b < 256) b1 /\ zlen b1 = k).
  { clear. induction 1 as [c Hc|c b n Hc Hb IH]; intros k Hk.
    - rewrite zlen_cons, (@zlen_nil Z) in Hk. exists [], c, []. split; [reflexivity|]. split; [constructor|]. rewrite (@zlen_nil Z). lia.
    - rewrite zlen_cons in Hk. destruct (Z.eqb_spec k 0) as [->|E].
      + exists [], c, b. split; [reflexivity|]. split; [constructor|]. apply zlen_nil.
      + destruct (IH (k - 1) ltac:(lia)) as (b1 & c' & b2 & -> & Hf & Hz). exists (c :: b1), c', b2. split; [reflexivity|]. split; [now constructor|]. rewrite zlen_cons. lia. }
  intros H Hl. exact (G b n H 10 ltac:(lia)).
Qed.
Lemma read_num64 m b v rest : num64 m b v -> read_u_varint m (b ++ rest) = Ok (v, rest).
Proof.
  intros (n & Hl & H). destruct m.
  - destruct H as [Hz ->]. now apply read_u_varint_leb_mod.
  - subst v. unfold read_u_varint. exact (read_release_bits b n rest Hl 0 0 ltac:(lia)).
Qed.
Lemma num64_of_read m bs v rest : Forall is_byte bs -> read_u_varint m bs = Ok (v, rest) -> exists b, bs = b ++ rest /\ num64 m b v.
Proof.
  intros Hb H. destruct (leb_split bs Hb) as [(b & n & r & -> & Hl)|Hc].
  - assert (D : m = Release \/ zlen b <= 10 \/ (m = Debug /\ 10 < zlen b)) by (destruct m; [destruct (Z.leb_spec (zlen b) 10); auto|auto]).
    destruct D as [->|[D|[-> D]]].
    + assert (E : num64 Release b (or_bits 0 b)) by (exists n; auto). rewrite (read_num64 _ _ _ r E) in H. injection H as <- <-. exists b. auto.
    + assert (E : num64 m b (n mod 2 ^ 64)).
      { exists n. split; [exact Hl|]. destruct m; [auto|]. pose proof (read_u_varint_leb_mod Release b n [] Hl D) as E1.
        pose proof (read_release_bits b n [] Hl 0 0 ltac:(lia)) as E2. unfold read_u_varint in E1. change (7 * 0) with 0 in E2. rewrite E2 in E1. injection E1 as <-. reflexivity. }
      rewrite (read_num64 _ _ _ r E) in H. injection H as <- <-. exists b. auto.
    + destruct (leb_eleven b n Hl D) as (b1 & c & b2 & -> & Hf & Hz). rewrite <- app_assoc in H. cbn [app] in H. rewrite read_u_varint_eleven in H by assumption. discriminate.
  - destruct (read_u_varint_no_end m bs Hc 0 0) as [E|(_ & E & _)]; unfold read_u_varint in H; rewrite E in H; discriminate.
Qed.
Lemma num64_range m b v : num64 m b v -> 0 <= v < 2 ^ 64.
Proof.
  intros (n & Hl & H). destruct m; [destruct H as [_ ->]; apply Z.mod_pos_bound; lia|]. subst v. clear Hl n.
  assert (G : forall b i, 0 <= or_bits i b < 2 ^ 64); [|apply G].
  clear. induction b as [|c b IH]; intro i; cbn [or_bits]; [lia|]. pose proof (Z.mod_pos_bound (c mod 128 * 2 ^ ((7 * i) mod 64)) (2 ^ 64) ltac:(lia)) as Hx.
  set (x := (c mod 128 * 2 ^ ((7 * i) mod 64)) mod 2 ^ 64) in *. specialize (IH (i + 1)). set (y := or_bits (i + 1) b) in *. clearbody x y.
  assert (0 <= Z.lor x y) by (apply Z.lor_nonneg; lia). split; [assumption|].
  destruct (Z.eqb_spec (Z.lor x y) 0) as [->|E]; [lia|]. apply Z.log2_lt_pow2; [lia|]. rewrite Z.log2_lor by lia.
  assert (Hlog : forall z, 0 <= z < 2 ^ 64 -> Z.log2 z < 64).
  { intros z Hz. destruct (Z.eqb_spec z 0) as [->|]; [cbn; lia|]. apply Z.log2_lt_pow2; lia. }
  apply Z.max_lub_lt; now apply Hlog.
Qed.
Lemma num32_range m b v : num32 m b v -> 0 <= v < 2 ^ 32.
Proof. intros (w & _ & ->). apply Z.mod_pos_bound. lia. Qed.

(** ** Sums *)
Lemma arith_sum32 m v r : 0 <= v -> (arith m to_u32 v = Ok r <-> sum32 m v r).
Proof.
  intro Hv. unfold arith, to_u32, sum32. destruct (Z.eqb_spec (v mod 2 ^ 32) v) as [E|E].
  - assert (Hlt : v < 2 ^ 32) by (pose proof (Z.mod_pos_bound v (2 ^ 32) ltac:(lia)); lia). destruct m; split; intro H.
    + injection H as <-. lia.
    + destruct H as [-> _]. reflexivity.
    + injection H as <-. auto.
    + rewrite H, E. reflexivity.
  - assert (Hge0 : 2 ^ 32 <= v) by (destruct (Z.ltb_spec v (2 ^ 32)) as [Hlt|Hge]; [exfalso; apply E; apply Z.mod_small; lia|assumption]). destruct m; split; intro H.
    + discriminate.
    + lia.
    + injection H as <-. reflexivity.
    + now rewrite H.
Qed.
Lemma sum32_range m v r : 0 <= v -> sum32 m v r -> 0 <= r < 2 ^ 32.
Proof. intros Hv H. destruct m; cbn [sum32] in H; [lia|]. subst r. apply Z.mod_pos_bound. lia. Qed.
Lemma sum32_step m a x a' y r : 0 <= y -> sum32 m (a + x) a' -> sum32 m (a' + y) r -> sum32 m (a + (x + y)) r.
Proof.
  intros Hy H1 H2. destruct m; cbn [sum32] in *.
  - destruct H1 as [-> H1]. destruct H2 as [-> H2]. split; lia.
  - subst. rewrite Z.add_mod_idemp_l by lia. f_equal. lia.
Qed.
Lemma sum32_split m a x y r : 0 <= y -> sum32 m (a + (x + y)) r -> exists a', sum32 m (a + x) a' /\ sum32 m (a' + y) r.
Proof.
  intros Hy H. destruct m; cbn [sum32] in *.
  - exists (a + x). lia.
  - exists ((a + x) mod 2 ^ 32). split; [reflexivity|]. subst. rewrite Z.add_mod_idemp_l by lia. f_equal. lia.
Qed.
Lemma sum32_id m a r : 0 <= a < 2 ^ 32 -> (sum32 m (a + 0) r <-> r = a).
Proof. intro Ha. rewrite Z.add_0_r. destruct m; cbn [sum32]; [lia|]. rewrite Z.mod_small by lia. tauto. Qed.

(** ** Operations *)
Lemma op_acc_lens m f d o b x : op_acc m f d o b x -> oal x = op_len x /\ 0 <= op_len x /\ 0 <= add_len x /\ 1 <= zlen b.
Proof.
  intro H. assert (G : forall (y : Z) l, 1 <= zlen (y :: l)) by (intros y l; rewrite zlen_cons; pose proof (zlen_nonneg l); lia).
  destruct H as [s sb a Hs|n b Hn|src s sb n db delta Hs Hl Hd Hm]; cbn [oal op_len add_len]; (split; [|split; [|split; [|apply G]]]);
    try (destruct (size_enc_range _ _ _ Hs) as (_ & Hr & _)); try (rewrite to_u16_id; lia); try lia.
Qed.
Lemma op_acc_next m f d o b x : 0 <= d < 2 ^ 64 -> 0 <= o < 2 ^ 64 -> op_acc m f d o b x -> 0 <= next_d d x < 2 ^ 64 /\ 0 <= next_o o x < 2 ^ 64.
Proof. intros Hd Ho H. destruct H as [| |src s sb n db delta Hs Hl Hr Hm]; cbn; auto. destruct src; cbn; split; auto; apply Z.mod_pos_bound; lia. Qed.
Lemma delta_read_min m cur delta : 0 <= cur < 2 ^ 64 -> - 2 ^ 63 <= delta < 2 ^ 63 -> (m = Debug -> delta <> - 2 ^ 63) ->
  diff_addresses_to_u64 m cur delta = Ok ((cur + delta) mod 2 ^ 64).
Proof.
  intros Hc Hd Hm. destruct (Z.eqb_spec delta (- 2 ^ 63)) as [->|E]; [|apply delta_read; lia].
  destruct m; [now specialize (Hm eq_refl)|]. unfold diff_addresses_to_u64. cbn [Z.geb]. change (- 2 ^ 63 >=? 0) with false. cbv iota.
  change (arith Release to_i64 (Z.abs (- 2 ^ 63))) with (Ok (- 2 ^ 63)). cbn [bind]. change (to_u64 (- 2 ^ 63)) with (2 ^ 63). reflexivity.
Qed.
Lemma read_op_acc m f d o b x rest : 0 <= d < 2 ^ 64 -> 0 <= o < 2 ^ 64 -> op_acc m f d o b x ->
  read_op m d o (negb (is_segregated f)) (b ++ rest) = Ok (hollow f x, next_d d x, next_o o x, rest).
Proof.
  intros Hd Ho H. unfold read_op. destruct H as [s sb a Hs|n b Hn|src s sb n db delta Hs Hl Hr Hm].
  - destruct (size_enc_range _ _ _ Hs) as (Hs1 & _ & _). cbn [app]. rewrite (read_op_byte_conf TAdd s) by exact Hs1. cbn [bind].
    rewrite <- app_assoc, (read_size _ _ _ (match f with Interleaved => a | Segregated => [] end ++ rest) Hs). cbn [bind].
    destruct f; cbn [is_segregated negb app hollow]; [rewrite read_exact_ok by reflexivity; reflexivity|reflexivity].
  - cbn [app]. rewrite (read_op_byte_conf TRun n) by lia. cbn [bind]. unfold size_routine. replace ((1 <=? n) && (n <=? 62)) with true by lia. cbn [bind read_u8]. now destruct f.
  - destruct (size_enc_range _ _ _ Hs) as (Hs1 & _ & _). cbn [app].
    change (64 * match src with Dict => 0 | Output => 1 end + s) with (64 * op_type_code (TCopy src) + s).
    rewrite (read_op_byte_conf (TCopy src) s) by exact Hs1. cbn [bind]. rewrite <- app_assoc, (read_size _ _ _ (db ++ rest) Hs). cbn [bind].
    unfold read_i_varint. rewrite (read_num64 _ _ _ rest Hl). cbn [bind]. rewrite zigzag_decode_zigzag by lia.
    destruct src; cbn [last_addr]; rewrite delta_read_min by assumption; cbn [bind]; now destruct f.
Qed.
Lemma Forall_app_r {A} (P : A -> Prop) a b : Forall P (a ++ b) -> Forall P b.
Proof. intro H. now apply Forall_app in H as [_ H]. Qed.
Lemma op_byte_split c : is_byte c -> exists t s, c = 64 * op_type_code t + s /\ 0 <= s <= 63.
Proof.
  unfold is_byte. intro H. pose proof (Z.div_mod c 64 ltac:(lia)) as E. pose proof (Z.mod_pos_bound c 64 ltac:(lia)).
  assert (D : c / 64 = 0 \/ c / 64 = 1 \/ c / 64 = 2 \/ c / 64 = 3) by (assert (0 <= c / 64) by (apply Z.div_pos; lia); assert (c / 64 < 4) by (apply Z.div_lt_upper_bound; lia); lia).
  exists (if c / 64 =? 0 then TCopy Dict else if c / 64 =? 1 then TCopy Output else if c / 64 =? 2 then TAdd else TRun), (c mod 64).
  destruct D as [D|[D|[D|D]]]; rewrite D in *; cbn; lia.
Qed.
Lemma size_of_read s bs n rest : 0 <= s <= 63 -> Forall is_byte bs ->
  match size_routine s with
  | Done n => Ok (n, bs)
  | U8And62 => do (b, bs) <- read_u8 bs; Ok (b + 62, bs)
  | U16 => read_u16 bs
  end = Ok (n, rest) -> exists sb, bs = sb ++ rest /\ size_enc s sb n.
Proof.
  intros Hs Hb H. unfold size_routine in H. destruct ((1 <=? s) && (s <=? 62)) eqn:E1.
  - injection H as <- <-. exists []. split; [reflexivity|]. constructor. lia.
  - destruct (Z.eqb_spec s 63) as [->|E2].
    + destruct bs as [|b r]; [discriminate|]. cbn [read_u8 bind] in H. injection H as <- <-. exists [b]. split; [reflexivity|]. constructor. now apply Forall_cons_iff in Hb as [Hb _].
    + assert (s = 0) by lia. subst s. destruct bs as [|lo [|hi r]]; try discriminate. cbn [read_u16] in H. injection H as <- <-. exists [lo; hi]. split; [reflexivity|].
      apply Forall_cons_iff in Hb as [Hb1 Hb]. apply Forall_cons_iff in Hb as [Hb2 _]. now constructor.
Qed.
Lemma op_acc_of_read m f d o bs x d' o' rest : 0 <= d < 2 ^ 64 -> 0 <= o < 2 ^ 64 -> Forall is_byte bs ->
  read_op m d o (negb (is_segregated f)) bs = Ok (x, d', o', rest) -> exists b, bs = b ++ rest /\ op_acc m f d o b x /\ d' = next_d d x /\ o' = next_o o x.
Proof.
  intros Hd Ho Hb H. unfold read_op in H. destruct bs as [|c bs]; [discriminate|]. apply Forall_cons_iff in Hb as [Hc Hb].
  destruct (op_byte_split c Hc) as (t & s & -> & Hs). rewrite (read_op_byte_conf t s bs Hs) in H. cbn [bind] in H.
  apply bind_ok in H as ([] & Ht & H). apply bind_ok in H as ([n r1] & Hn & H). destruct (size_of_read s bs n r1 Hs Hb Hn) as (sb & -> & Hsz).
  apply Forall_app_r in Hb. destruct t as [src| |]; cbn [op_type_code].
  - apply bind_ok in H as ([i r2] & Hi & H). unfold read_i_varint in Hi. apply bind_ok in Hi as ([z r3] & Hz & Hi). injection Hi as <- <-.
    destruct (num64_of_read _ _ _ _ Hb Hz) as (db & -> & Hdb). pose proof (num64_range _ _ _ Hdb) as Hzr.
    pose proof (zigzag_decode_range z Hzr) as Hir. rewrite <- (zigzag_zigzag_decode z Hzr) in Hdb. set (i := zigzag_decode z) in *. clearbody i.
    assert (Hm : m = Debug -> i <> - 2 ^ 63).
    { intros -> ->. destruct src; apply bind_ok in H as (a & Ha & _); discriminate Ha. }
    destruct src.
    + rewrite delta_read_min in H by assumption. cbn [bind] in H. injection H as <- <- <- <-.
      exists ((64 * 0 + s) :: sb ++ db). split; [cbn [app]; now rewrite <- app_assoc|]. split; [apply (acc_copy m f d o Dict); assumption|]. auto.
    + rewrite delta_read_min in H by assumption. cbn [bind] in H. injection H as <- <- <- <-.
      exists ((64 * 1 + s) :: sb ++ db). split; [cbn [app]; now rewrite <- app_assoc|]. split; [apply (acc_copy m f d o Output); assumption|]. auto.
  - destruct (size_enc_range _ _ _ Hsz) as (_ & Hnr & _). destruct f; cbn [is_segregated negb] in H.
    + apply bind_ok in H as ([a r2] & Ha & H). injection H as <- <- <- <-. unfold read_exact in Ha. destruct (Z.leb_spec n (zlen r1)) as [E|E]; [|discriminate]. injection Ha as <- <-.
      exists ((64 * 2 + s) :: sb ++ take n r1). split; [cbn [app]; now rewrite <- app_assoc, take_drop|]. split; [|auto]. apply (acc_add m Interleaved d o s sb (take n r1)). now rewrite zlen_take by lia.
    + injection H as <- <- <- <-. exists ((64 * 2 + s) :: sb ++ []). split; [cbn [app]; now rewrite app_nil_r|]. split; [|auto]. apply (acc_add m Segregated d o s sb (rep 0 n)).
      rewrite zlen_rep, Z.max_r by lia. exact Hsz.
  - destruct (size_routine s) as [k| |] eqn:Es; try discriminate Ht. injection Hn as -> Hsb. destruct r1 as [|b r2]; [discriminate H|]. cbn [read_u8 bind] in H. injection H as <- <- <- <-.
    assert (sb = []) by (destruct sb as [|y sb]; [reflexivity|]; apply (f_equal (@length Z)) in Hsb; cbn [app length] in Hsb; rewrite app_length in Hsb; cbn [length] in Hsb; lia). subst sb.
    exists [64 * 3 + s; b]. split; [reflexivity|]. split; [|auto]. unfold size_routine in Es. destruct ((1 <=? s) && (s <=? 62)) eqn:E1; [|destruct (s =? 63); discriminate]. injection Es as <-. constructor. lia.
Qed.

(** ** The loop *)
Lemma ops_acc_lens m f d o e ops : ops_acc m f d o e ops -> 0 <= adds_len ops /\ 0 <= ops_len ops.
Proof.
  induction 1 as [d o|d o b x bs r Hx Hr IH]; [cbn; lia|]. rewrite adds_len_cons, ops_len_cons. destruct (op_acc_lens _ _ _ _ _ _ Hx) as (_ & ? & ? & _). lia.
Qed.
Definition adds_sum (m : mode) (f : format) (start len r : Z) : Prop := match f with Interleaved => r = start | Segregated => sum32 m (start + len) r end.
Lemma hollow_oal f x : oal (hollow f x) = oal x.
Proof. destruct f, x; try reflexivity. cbn [hollow oal]. now rewrite zlen_rep, Z.max_r by apply zlen_nonneg. Qed.
Lemma hollow_is_add f x : is_add (hollow f x) = is_add x.
Proof. now destruct f, x. Qed.
Lemma read_loop_acc m f d o e ops : ops_acc m f d o e ops -> 0 <= d < 2 ^ 64 -> 0 <= o < 2 ^ 64 ->
  forall rest fuel cs nadd cs' nadd', (length e < fuel)%nat -> 0 <= cs < 2 ^ 32 -> 0 <= nadd < 2 ^ 32 ->
  sum32 m (cs + ops_len ops) cs' -> adds_sum m f nadd (adds_len ops) nadd' ->
  read_ops_loop fuel m f (zlen ops) d o cs nadd (e ++ rest) = Ok (map (hollow f) ops, cs', nadd', rest).
Proof.
  induction 1 as [d o|d o b x bs r Hx Hr IH]; intros Hd Ho rest fuel cs nadd cs' nadd' Hfu Hcs Hna Hs Ha.
  - change (ops_len []) with 0 in Hs. change (adds_len []) with 0 in Ha. apply sum32_id in Hs; [|exact Hcs]. subst cs'.
    assert (nadd' = nadd) by (destruct f; cbn [adds_sum] in Ha; [exact Ha|now apply sum32_id in Ha]). subst nadd'. destruct fuel; reflexivity.
  - destruct (op_acc_next _ _ _ _ _ _ Hd Ho Hx) as [Hd' Ho']. destruct (op_acc_lens _ _ _ _ _ _ Hx) as (Hoal & Hl0 & Ha0 & Hb1). destruct (ops_acc_lens _ _ _ _ _ _ Hr) as [Hr1 Hr2].
    rewrite ops_len_cons in Hs. rewrite adds_len_cons in Ha. destruct (sum32_split _ _ _ _ _ Hr2 Hs) as (c1 & S1 & S2).
    destruct fuel as [|fuel]; [lia|]. cbn [read_ops_loop]. rewrite zlen_cons. replace (1 + zlen r <=? 0) with false by (pose proof (zlen_nonneg r); lia).
    rewrite <- app_assoc, (read_op_acc m f d o b x (bs ++ rest) Hd Ho Hx). cbn [bind]. rewrite hollow_oal, hollow_is_add, Hoal, (proj2 (arith_sum32 m (cs + op_len x) c1 ltac:(lia)) S1). cbn [bind].
    assert (Hn : exists n1, (if is_segregated f && is_add x then arith m to_u32 (nadd + op_len x) else Ok nadd) = Ok n1 /\ 0 <= n1 < 2 ^ 32 /\ adds_sum m f n1 (adds_len r) nadd').
    { destruct f; cbn [is_segregated andb adds_sum] in *; [exists nadd; auto|]. destruct (sum32_split _ _ _ _ _ Hr1 Ha) as (n1 & N1 & N2). destruct x as [a|y n|src a n]; cbn [is_add add_len op_len] in *.
      - exists n1. split; [apply (arith_sum32 m (nadd + zlen a)); [lia|exact N1]|]. split; [eapply sum32_range; [|exact N1]; lia|exact N2].
      - exists nadd. apply sum32_id in N1; [|exact Hna]. subst n1. auto.
      - exists nadd. apply sum32_id in N1; [|exact Hna]. subst n1. auto. }
    destruct Hn as (n1 & -> & Hn1 & Hn2). cbn [bind]. replace (1 + zlen r - 1) with (zlen r) by lia.
    rewrite (IH Hd' Ho' rest fuel c1 n1 cs' nadd'); [reflexivity| | | |exact S2|exact Hn2].
    + rewrite app_length in Hfu. unfold zlen in Hb1. lia.
    + eapply sum32_range; [|exact S1]. lia.
    + exact Hn1.
Qed.
Lemma ops_acc_of_loop m f : forall fuel n d o cs nadd bs ops cs' nadd' rest, 0 <= n -> 0 <= d < 2 ^ 64 -> 0 <= o < 2 ^ 64 -> 0 <= cs < 2 ^ 32 -> 0 <= nadd < 2 ^ 32 -> Forall is_byte bs ->
  read_ops_loop fuel m f n d o cs nadd bs = Ok (ops, cs', nadd', rest) ->
  exists e, bs = e ++ rest /\ ops_acc m f d o e ops /\ zlen ops = n /\ sum32 m (cs + ops_len ops) cs' /\ adds_sum m f nadd (adds_len ops) nadd'.
Proof.
  induction fuel as [|fuel IH]; intros n d o cs nadd bs ops cs' nadd' rest Hn Hd Ho Hcs Hna Hb H; cbn [read_ops_loop] in H; destruct (n <=? 0) eqn:En.
  1, 3: injection H as <- <- <- <-; exists []; split; [reflexivity|]; split; [constructor|]; split; [rewrite (@zlen_nil op); lia|];
    (split; [now apply sum32_id|destruct f; [reflexivity|now apply sum32_id]]).
  - discriminate.
  - apply bind_ok in H as ([[[x d'] o'] r] & Hop & H). destruct (op_acc_of_read _ _ _ _ _ _ _ _ _ Hd Ho Hb Hop) as (b & -> & Hx & -> & ->).
    destruct (op_acc_next _ _ _ _ _ _ Hd Ho Hx) as [Hd' Ho']. destruct (op_acc_lens _ _ _ _ _ _ Hx) as (Hoal & Hl0 & Ha0 & Hb1). rewrite Hoal in H.
    apply bind_ok in H as (c1 & S1 & H). apply arith_sum32 in S1; [|lia].
    apply bind_ok in H as (n1 & N1 & H). apply bind_ok in H as ([[[ops1 c2] n2] r1] & Hloop & H). injection H as <- <- <- <-.
    assert (Hn1 : 0 <= n1 < 2 ^ 32 /\ (is_segregated f = true -> sum32 m (nadd + add_len x) n1) /\ (is_segregated f = false -> n1 = nadd)).
    { destruct f; cbn [is_segregated andb] in N1; [injection N1 as <-; repeat split; try lia; discriminate|]. destruct x as [a|y k|src a k]; cbn [is_add add_len op_len] in *.
      - apply arith_sum32 in N1; [|lia]. split; [eapply sum32_range; [|exact N1]; lia|]. split; [auto|discriminate].
      - injection N1 as <-. split; [lia|]. split; [|discriminate]. intros _. now apply sum32_id.
      - injection N1 as <-. split; [lia|]. split; [|discriminate]. intros _. now apply sum32_id. }
    destruct Hn1 as (Hn1 & Hseg & Hint). apply Forall_app_r in Hb.
    destruct (IH (n - 1) _ _ c1 n1 r ops1 c2 n2 r1 ltac:(lia) Hd' Ho' ltac:(eapply sum32_range; [|exact S1]; lia) Hn1 Hb Hloop) as (e & -> & He & Hz & Hs & Ha).
    destruct (ops_acc_lens _ _ _ _ _ _ He) as [Hr1 Hr2]. exists (b ++ e). split; [now rewrite app_assoc|]. split; [now constructor|]. split; [rewrite zlen_cons; lia|].
    rewrite ops_len_cons, adds_len_cons. split; [eapply sum32_step; eassumption|]. destruct f; cbn [adds_sum is_segregated] in *; [rewrite Ha; now apply Hint|]. eapply sum32_step; [exact Hr1|now apply Hseg|exact Ha].
Qed.

(** ** Literal bytes of segregated sections *)
Lemma fill_of_read : forall ops0 bs ops rest, fill_adds ops0 bs = Ok (ops, rest) ->
  bs = literals ops ++ rest /\ map (hollow Segregated) ops = map (hollow Segregated) ops0.
Proof.
  induction ops0 as [|x ops0 IH]; intros bs ops rest H; cbn [fill_adds] in H.
  - injection H as <- <-. auto.
  - destruct x as [z|b n|s a n].
    + apply bind_ok in H as ([a r] & Ha & H). apply bind_ok in H as ([ops1 r1] & Hf & H). injection H as <- <-. destruct (IH _ _ _ Hf) as [-> E].
      unfold read_exact in Ha. destruct (Z.leb_spec (zlen z) (zlen bs)) as [El|El]; [|discriminate]. injection Ha as E1 E2.
      assert (Hz : zlen a = zlen z) by (subst a; apply zlen_take; pose proof (zlen_nonneg z); lia).
      split; [|cbn [map hollow]; now rewrite E, Hz]. unfold literals. cbn [flat_map]. fold (literals ops1). rewrite <- app_assoc, <- E2, <- E1. symmetry. apply take_drop.
    + apply bind_ok in H as ([ops1 r1] & Hf & H). injection H as <- <-. destruct (IH _ _ _ Hf) as [-> E]. split; [reflexivity|]. cbn [map]. now rewrite E.
    + apply bind_ok in H as ([ops1 r1] & Hf & H). injection H as <- <-. destruct (IH _ _ _ Hf) as [-> E]. split; [reflexivity|]. cbn [map]. now rewrite E.
Qed.
Lemma hollow_inv x y : hollow Segregated x = hollow Segregated y -> op_len x = op_len y /\ add_len x = add_len y /\
  (x = y \/ exists a a', x = Add a /\ y = Add a' /\ zlen a = zlen a').
Proof.
  destruct x as [a|b n|s a n], y as [a'|b' n'|s' a' n']; cbn [hollow]; intro H; try discriminate H; [|injection H as <- <-; auto|injection H as <- <- <-; auto].
  assert (E : zlen a = zlen a').
  { injection H as H. apply (f_equal zlen) in H. rewrite !zlen_rep, !Z.max_r in H by apply zlen_nonneg. exact H. }
  cbn [op_len add_len]. split; [exact E|]. split; [exact E|]. right. eauto.
Qed.
Lemma ops_acc_refill m d o e ops0 : ops_acc m Segregated d o e ops0 -> forall ops, map (hollow Segregated) ops = map (hollow Segregated) ops0 ->
  ops_acc m Segregated d o e ops /\ ops_len ops = ops_len ops0 /\ adds_len ops = adds_len ops0 /\ zlen ops = zlen ops0.
Proof.
  induction 1 as [d o|d o b x bs r Hx Hr IH]; intros ops E.
  - destruct ops; [|discriminate]. split; [constructor|auto].
  - destruct ops as [|y ops]; [discriminate|]. cbn [map] in E. injection E as E1 E2. destruct (IH ops E2) as (I1 & I2 & I3 & I4).
    destruct (hollow_inv _ _ E1) as (H1 & H2 & H3). rewrite !ops_len_cons, !adds_len_cons, !zlen_cons, H1, H2, I2, I3, I4. split; [|auto].
    destruct H3 as [->|(a & a' & -> & -> & Hz)]; [now constructor|]. inversion Hx as [s sb a1 Hs| |]; subst. rewrite <- Hz in Hs.
    exact (oa_op m Segregated d o ((64 * 2 + s) :: sb ++ []) (Add a) bs ops (acc_add m Segregated d o s sb a Hs) I1).
Qed.

(** ** Sections *)
Lemma control_read c h : is_byte c ->
  (control c h <-> h_comp h = Z.shiftr (Z.land c SECTION_COMPRESSION_MASK) SECTION_COMPRESSION_RSHIFT /\
    h_format h = (if Z.land c SECTION_FORMAT_BIT =? SECTION_FORMAT_BIT then Segregated else Interleaved) /\
    h_more h = (Z.land c SECTION_CONTINUE_BIT =? SECTION_CONTINUE_BIT)).
Proof.
  intro Hc. pose proof (byte_sweep (fun c => (Z.shiftr (Z.land c SECTION_COMPRESSION_MASK) SECTION_COMPRESSION_RSHIFT =? (c / 8) mod 8) &&
     Bool.eqb (Z.land c SECTION_FORMAT_BIT =? SECTION_FORMAT_BIT) (64 <=? c mod 128) && Bool.eqb (Z.land c SECTION_CONTINUE_BIT =? SECTION_CONTINUE_BIT) (128 <=? c)) eq_refl c ltac:(unfold is_byte in Hc; lia)) as H.
  cbv beta in H. apply andb_true_iff in H as [H H3]. apply andb_true_iff in H as [H1 H2]. apply Z.eqb_eq in H1. apply Bool.eqb_prop in H2, H3. rewrite H1, H2, H3.
  unfold control. split.
  - intros (_ & A & B & C). split; [exact A|]. split.
    + destruct (Z.leb_spec 64 (c mod 128)) as [E|E]; [now apply B|]. destruct (h_format h); [reflexivity|]. assert (64 <= c mod 128) by now apply B. lia.
    + destruct (Z.leb_spec 128 c) as [E|E]; [now apply C|]. destruct (h_more h); [|reflexivity]. assert (128 <= c) by now apply C. lia.
  - intros (A & B & C). split; [exact Hc|]. split; [exact A|]. rewrite B, C. split.
    + destruct (Z.leb_spec 64 (c mod 128)); split; intro; try reflexivity; try assumption; try discriminate; lia.
    + apply Z.leb_le.
Qed.
Lemma read_num32 m b v rest : num32 m b v -> exists w, read_u_varint m (b ++ rest) = Ok (w, rest) /\ to_u32 w = v.
Proof. intros (w & H & ->). exists w. split; [now apply read_num64|reflexivity]. Qed.
Lemma num32_of_read m bs w rest : Forall is_byte bs -> read_u_varint m bs = Ok (w, rest) -> exists b, bs = b ++ rest /\ num32 m b (to_u32 w).
Proof. intros Hb H. destruct (num64_of_read _ _ _ _ Hb H) as (b & -> & Hn). exists b. split; [reflexivity|]. exists w. split; [exact Hn|reflexivity]. Qed.
Lemma section_acc_read m ops h b rest : section_acc m ops h b -> read_section m (b ++ rest) = Ok (ops, h, rest).
Proof.
  intro H. unfold read_section, read_section_header. destruct H as [c b1 b2 e Hc Hf N1 N2 Hn Ha Ho He|c b1 b2 b3 e adds other Hc Hf N1 N2 N3 Hn Ho Hol Ha He];
    pose proof (proj1 Hc) as Hcb; apply (control_read c h Hcb) in Hc as (C1 & C2 & C3); rewrite Hf in C2.
  - cbn [app read_u8 bind]. rewrite <- C1, <- C2, <- C3. cbv zeta. rewrite <- !app_assoc. destruct (read_num32 m b1 _ (b2 ++ e ++ rest) N1) as (w1 & -> & W1). cbn [bind is_segregated].
    destruct (read_num32 m b2 _ (e ++ rest) N2) as (w2 & -> & W2). cbn [bind]. rewrite W1, W2. unfold read_ops_no_comp. cbn [h_format h_nops h_nadd h_osize].
    rewrite Hn, (read_loop_acc m Interleaved 0 0 e ops He ltac:(lia) ltac:(lia) rest _ 0 0 (h_osize h) 0); [|rewrite app_length; lia|lia|lia|now rewrite Z.add_0_l|reflexivity].
    cbn [bind]. rewrite Z.eqb_refl. cbn [negb]. rewrite map_hollow_interleaved. destruct h as [comp f more nops nadd osize]. cbn in *. subst. reflexivity.
  - cbn [app read_u8 bind]. rewrite <- C1, <- C2, <- C3. cbv zeta. rewrite <- !app_assoc. destruct (read_num32 m b1 _ (b2 ++ b3 ++ e ++ literals ops ++ rest) N1) as (w1 & -> & W1). cbn [bind is_segregated].
    destruct (read_num32 m b2 _ (b3 ++ e ++ literals ops ++ rest) N2) as (w2 & -> & W2). cbn [bind].
    destruct (read_num32 m b3 _ (e ++ literals ops ++ rest) N3) as (w3 & -> & W3). cbn [bind]. rewrite W1, W2, W3.
    pose proof (num32_range _ _ _ N2) as R2. pose proof (num32_range _ _ _ N3) as R3.
    rewrite (proj2 (arith_sum32 m (adds + other) (h_osize h) ltac:(lia)) Ho). cbn [bind]. unfold read_ops_no_comp. cbn [h_format h_nops h_nadd h_osize].
    rewrite Hn, (read_loop_acc m Segregated 0 0 e ops He ltac:(lia) ltac:(lia) (literals ops ++ rest) _ 0 adds (h_osize h) (h_nadd h)); [|rewrite app_length; lia|lia|lia|now rewrite Z.add_0_l|exact Ha].
    cbn [bind]. rewrite Z.eqb_refl. cbn [negb]. rewrite literals_add_bytes, fill_adds_hollow. cbn [bind]. destruct h as [comp f more nops nadd osize]. cbn in *. subst. reflexivity.
Qed.
Lemma read_section_acc m ops h bs rest : Forall is_byte bs -> read_section m bs = Ok (ops, h, rest) -> exists b, bs = b ++ rest /\ section_acc m ops h b.
Proof.
  intros Hb H. unfold read_section in H. apply bind_ok in H as ([h0 r0] & Hh & H). unfold read_section_header in Hh. destruct bs as [|c bs]; [discriminate|]. cbn [read_u8 bind] in Hh.
  apply Forall_cons_iff in Hb as [Hc Hb]. cbv zeta in Hh.
  set (f := if Z.land c SECTION_FORMAT_BIT =? SECTION_FORMAT_BIT then Segregated else Interleaved) in *.
  apply bind_ok in Hh as ([w1 r1] & N1 & Hh). destruct (num32_of_read _ _ _ _ Hb N1) as (b1 & -> & M1). apply Forall_app_r in Hb.
  destruct f eqn:Ef; cbn [is_segregated bind] in Hh.
  - apply bind_ok in Hh as ([w2 r2] & N2 & Hh). destruct (num32_of_read _ _ _ _ Hb N2) as (b2 & -> & M2). apply Forall_app_r in Hb. injection Hh as <- <-.
    unfold read_ops_no_comp in H. cbn [h_format h_nops h_nadd h_osize] in H. apply bind_ok in H as ([[[ops1 cs] n1] r3] & HL & H).
    pose proof (num32_range _ _ _ M1) as R1.
    destruct (ops_acc_of_loop m Interleaved _ (to_u32 w1) 0 0 0 0 _ _ _ _ _ ltac:(lia) ltac:(lia) ltac:(lia) ltac:(lia) ltac:(lia) Hb HL) as (e & -> & He & Hz & Hs & Ha).
    destruct (Z.eqb_spec cs (to_u32 w2)) as [->|]; [|discriminate]. cbn [negb] in H. injection H as <- <- <-. rewrite Z.add_0_l in Hs.
    exists (c :: b1 ++ b2 ++ e). split; [cbn [app]; now rewrite <- !app_assoc|]. constructor; cbn [h_format h_nops h_nadd h_osize]; auto.
    apply control_read; [exact Hc|]. auto.
  - apply bind_ok in Hh as ([adds r2] & N2 & Hh). apply bind_ok in N2 as ([w2 r2'] & N2 & N2'). injection N2' as <- <-. destruct (num32_of_read _ _ _ _ Hb N2) as (b2 & -> & M2). apply Forall_app_r in Hb.
    apply bind_ok in Hh as ([w3 r3] & N3 & Hh). destruct (num32_of_read _ _ _ _ Hb N3) as (b3 & -> & M3). apply Forall_app_r in Hb.
    pose proof (num32_range _ _ _ M1) as R1. pose proof (num32_range _ _ _ M2) as R2. pose proof (num32_range _ _ _ M3) as R3.
    apply bind_ok in Hh as (osize & Ho & Hh). apply arith_sum32 in Ho; [|lia]. injection Hh as <- <-.
    unfold read_ops_no_comp in H. cbn [h_format h_nops h_nadd h_osize] in H. apply bind_ok in H as ([[[ops1 cs] n1] r4] & HL & H).
    destruct (ops_acc_of_loop m Segregated _ (to_u32 w1) 0 0 0 (to_u32 w2) _ _ _ _ _ ltac:(lia) ltac:(lia) ltac:(lia) ltac:(lia) ltac:(lia) Hb HL) as (e & -> & He & Hz & Hs & Ha).
    destruct (Z.eqb_spec cs osize) as [->|]; [|discriminate]. cbn [negb] in H. apply bind_ok in H as ([ops2 r5] & HF & H). injection H as <- <- <-.
    destruct (fill_of_read _ _ _ _ HF) as [-> Eh]. destruct (ops_acc_refill _ _ _ _ _ He ops2 Eh) as (A1 & A2 & A3 & A4). rewrite Z.add_0_l in Hs. cbn [adds_sum] in Ha.
    exists (c :: b1 ++ b2 ++ b3 ++ e ++ literals ops2). split; [cbn [app]; now rewrite <- !app_assoc|].
    apply (sa_segregated m ops2 (set_nadd _ n1) c b1 b2 b3 e (to_u32 w2) (to_u32 w3)); cbn [set_nadd h_format h_nops h_nadd h_osize]; auto; try congruence.
    apply control_read; [exact Hc|]. cbn [set_nadd h_comp h_format h_more]. auto.
Qed.
