(** The writer writes, and the reader reads, the documented layout. *)
From Verif Require Import Base Spec SpecFmt MCommon MWriter MReader MDecoder SpecApi PBase PCommon PStream PSection PWriter PDecoder PPatch.
Ltac Zify.zify_post_hook ::= idtac.
Arguments Z.add : simpl never.
Arguments Z.sub : simpl never.
Arguments Z.mul : simpl never.
Arguments Z.pow : simpl never.

Lemma literals_add_bytes ops : literals ops = add_bytes ops.
Proof. induction ops as [|x r IH]; [reflexivity|]. destruct x; cbn; unfold literals in IH; rewrite IH; reflexivity. Qed.
Lemma short_is_number n bs : 0 <= n < 2 ^ 64 -> short_number bs n -> number bs n.
Proof.
  intros Hn [H Hs]. split; [exact H|]. destruct (Z.leb_spec (zlen bs) 10) as [|Hl]; [assumption|exfalso].
  specialize (Hs ltac:(lia)). assert (2 ^ 70 <= 2 ^ (7 * (zlen bs - 1))) by (apply Z.pow_le_mono_r; lia).
  assert (2 ^ 64 < 2 ^ 70) by (apply Z.pow_lt_mono_r; lia). lia.
Qed.

(** ** Control byte *)
Lemma ctl_written comp : 0 <= comp <= 7 -> forall f more,
  (let c := to_u8 (Z.shiftl comp SECTION_COMPRESSION_RSHIFT) in
   let c := if is_segregated f then Z.lor c SECTION_FORMAT_BIT else c in
   if (more : bool) then Z.lor c SECTION_CONTINUE_BIT else c) =
  0 + 8 * comp + match f with Segregated => 64 | Interleaved => 0 end + (if more then 128 else 0).
Proof.
  intros H f more.
  assert (C : comp = 0 \/ comp = 1 \/ comp = 2 \/ comp = 3 \/ comp = 4 \/ comp = 5 \/ comp = 6 \/ comp = 7) by lia.
  destruct f, more; repeat (destruct C as [->|C]; [vm_compute; auto|]); subst; vm_compute; auto.
Qed.
Lemma ctl_read v comp : 0 <= v <= 7 -> 0 <= comp <= 7 -> forall f (more : bool),
  let c := v + 8 * comp + match f with Segregated => 64 | Interleaved => 0 end + (if more then 128 else 0) in
  Z.shiftr (Z.land c SECTION_COMPRESSION_MASK) SECTION_COMPRESSION_RSHIFT = comp /\
  (Z.land c SECTION_FORMAT_BIT =? SECTION_FORMAT_BIT) = is_segregated f /\
  (Z.land c SECTION_CONTINUE_BIT =? SECTION_CONTINUE_BIT) = more.
Proof.
  intros Hv H f more.
  assert (C : comp = 0 \/ comp = 1 \/ comp = 2 \/ comp = 3 \/ comp = 4 \/ comp = 5 \/ comp = 6 \/ comp = 7) by lia.
  assert (D : v = 0 \/ v = 1 \/ v = 2 \/ v = 3 \/ v = 4 \/ v = 5 \/ v = 6 \/ v = 7) by lia.
  destruct f, more; repeat (destruct C as [->|C]); subst; repeat (destruct D as [->|D]); subst; vm_compute; auto.
Qed.

(** ** Writing *)
Lemma written_header m h hb : header_typed h -> (h_format h = Segregated -> h_nadd h <= h_osize h) -> write_section_header m h = (hb, Ok tt) ->
  header_enc short_number 0 h hb.
Proof.
  intros (Hc & Hn & Ha & Ho) Hle H. destruct h as [comp f more nops nadd osize]. cbn [h_comp h_format h_more h_nops h_nadd h_osize] in *.
  unfold write_section_header in H. cbn [h_comp h_format h_more h_nops h_nadd h_osize] in H. pose proof (ctl_written comp Hc f more) as Hctl. cbv zeta in Hctl, H.
  rewrite Hctl in H. clear Hctl. set (c := 0 + _ + _ + _) in *.
  destruct (write_u_varint_spec nops ltac:(lia)) as (b1 & W1 & L1 & _ & S1). unfold write_u8, wput in H. cbn [wbind] in H. rewrite W1 in H. cbn [wbind] in H.
  destruct f; cbn [is_segregated] in H.
  - destruct (write_u_varint_spec osize ltac:(lia)) as (b2 & W2 & L2 & _ & S2). unfold wlift in H. cbn [wbind] in H. rewrite W2 in H. cbn [app] in H. injection H as <-.
    apply (he_interleaved short_number 0 (mkHeader comp Interleaved more nops nadd osize)); [reflexivity|split; assumption|split; assumption].
  - specialize (Hle eq_refl). destruct (write_u_varint_spec nadd ltac:(lia)) as (b2 & W2 & L2 & _ & S2).
    destruct (write_u_varint_spec (osize - nadd) ltac:(lia)) as (b3 & W3 & L3 & _ & S3).
    rewrite W2 in H. unfold wlift in H. cbn [wbind] in H. rewrite arith_ok in H by (apply to_u32_id; lia). cbn [wbind] in H. rewrite W3 in H.
    cbn [app] in H. rewrite app_nil_r in H. injection H as <-.
    apply (he_segregated short_number 0 (mkHeader comp Segregated more nops nadd osize)); [reflexivity|split; assumption..].
Qed.

Lemma delta_enc m cur a : 0 <= cur < 2 ^ 64 -> 0 <= a < 2 ^ 64 -> Z.abs (a - cur) <> 2 ^ 63 ->
  exists i db, diff_addresses_to_i64 m cur a = Ok i /\ write_i_varint i = (db, Ok tt) /\ leb db (zigzag i) /\ zlen db <= 10 /\ - 2 ^ 63 < i < 2 ^ 63 /\
    (cur + i) mod 2 ^ 64 = a.
Proof.
  intros Hc Ha Hd. destruct (delta_roundtrip m cur a Hc Ha (or_intror Hd)) as (i & Hi & Hir & _).
  assert (Hi2 : (cur + i) mod 2 ^ 64 = a /\ i <> - 2 ^ 63).
  { unfold diff_addresses_to_i64 in Hi. destruct (a >? cur) eqn:E.
    - injection Hi as <-. unfold to_i64. split; [|Z.div_mod_to_equations; lia].
      rewrite Zplus_mod, Zminus_mod, Zmod_mod, <- Zminus_mod, <- Zplus_mod. replace (cur + (a - cur + 2 ^ 63 - 2 ^ 63)) with a by lia. apply Z.mod_small. lia.
    - assert (Hx : to_i64 (cur - a) = cur - a \/ to_i64 (cur - a) = cur - a - 2 ^ 64) by (unfold to_i64; Z.div_mod_to_equations; lia).
      assert (Hy : - 2 ^ 63 < to_i64 (cur - a) < 2 ^ 63) by (unfold to_i64; Z.div_mod_to_equations; lia).
      rewrite arith_ok in Hi by (rewrite to_i64_id; lia). injection Hi as <-. split; [|lia].
      destruct Hx as [->| ->]; [replace (cur + (cur - a) * -1) with a by lia; apply Z.mod_small; lia|].
      replace (cur + (cur - a - 2 ^ 64) * -1) with (a + 1 * 2 ^ 64) by lia. rewrite Z.mod_add by lia. apply Z.mod_small. lia. }
  pose proof (zigzag_range i Hir). destruct (write_u_varint_spec (zigzag i) ltac:(lia)) as (db & Hw & Hl & Hlen & _).
  exists i, db. split; [exact Hi|]. split; [unfold write_i_varint; now rewrite (zigzag_encode_spec i Hir)|]. repeat (split; [assumption || lia|]). apply Hi2.
Qed.

Lemma written_ops_enc m f : forall ops d o total addw adds enc r, 0 <= d < 2 ^ 64 -> 0 <= o < 2 ^ 64 -> Forall op_ok ops -> deltas_ok d o ops ->
  write_ops_loop m f ops d o total addw adds = (enc, Ok r) -> ops_enc f d o enc ops /\ snd r = adds ++ match f with Segregated => literals ops | Interleaved => [] end.
Proof.
  induction ops as [|x ops IH]; intros d o total addw adds enc r Hd Ho Hok Hm H.
  - cbn in H. injection H as <- <-. split; [constructor|]. cbn. destruct f; now rewrite app_nil_r.
  - apply Forall_cons_iff in Hok as [Hx Hops]. destruct Hm as [Hm Hms]. destruct (next_typed d o x Hd Ho (proj1 Hx)) as [Hd' Ho'].
    destruct (write_op_head x Hx) as (s & sb & Hw & Hs & Hrun).
    destruct (is_segregated f && is_add x) eqn:Ecase.
    + destruct f; [discriminate|]. destruct x as [bs|b n|s' a n]; try discriminate. cbn [next_d next_o] in *.
      cbn [write_ops_loop] in H. rewrite Hw in H. cbn [wbind] in H.
      destruct (write_ops_loop m Segregated ops d o _ _ (adds ++ bs)) as [e' r'] eqn:E. destruct r' as [r'|?| |]; try discriminate H. injection H as <- <-.
      destruct (IH _ _ _ _ _ _ _ Hd' Ho' Hops Hms E) as [I1 I2]. split; [now apply oe_seg|]. rewrite I2. cbn [literals flat_map]. now rewrite <- app_assoc.
    + assert (Hnot : f = Interleaved \/ is_add x = false) by (destruct f; [now left|right; destruct x; [discriminate|reflexivity|reflexivity]]).
      assert (Hstep : write_ops_loop m f (x :: ops) d o total addw adds =
                 dow _ <- write_op_byte_and_size x; dow da <- write_op_addtl m x d o;
                 write_ops_loop m f ops (fst da) (snd da) (total + oal x) addw adds).
      { destruct f; [destruct x; reflexivity|]. destruct x; [discriminate Ecase|reflexivity|reflexivity]. }
      rewrite Hstep, Hw in H. clear Hstep. cbn [wbind] in H.
      assert (Hadd : exists tl, write_op_addtl m x d o = (tl, Ok (next_d d x, next_o o x)) /\ op_enc d o (((64 * type_code x + s) :: sb) ++ tl) x).
      { destruct x as [bs|b n|src a n].
        - exists bs. split; [cbn; now rewrite app_nil_r|]. cbn [app]. now constructor.
        - exists [b]. split; [reflexivity|]. rewrite (Hrun eq_refl) in *. cbn [op_len] in Hs. inversion Hs as [k Hk| |]; subst. cbn [app]. apply enc_run. exact Hk.
        - assert (Ha : 0 <= a < 2 ^ 64) by (destruct Hx as [[Ht _] _]; exact Ht).
          assert (Hm' : Z.abs (a - last_addr d o src) <> 2 ^ 63) by (destruct src; exact Hm).
          assert (Hcur : 0 <= last_addr d o src < 2 ^ 64) by (destruct src; assumption).
          destruct (delta_enc m _ a Hcur Ha Hm') as (i & db & Hi & Hwi & Hl & Hlen & Hir & Hmod). exists db. split.
          + destruct src; cbn [write_op_addtl last_addr next_d next_o] in *; rewrite Hi; cbn [wlift wbind]; rewrite Hwi; cbn; now rewrite app_nil_r.
          + rewrite <- Hmod. cbn [app type_code]. replace (match src with Dict => 0 | Output => 1 end) with (match src with Dict => 0 | Output => 1 end) by reflexivity.
            apply enc_copy; assumption. }
      destruct Hadd as (tl & Ha & He). rewrite Ha in H. cbn [wbind fst snd] in H.
      destruct (write_ops_loop m f ops (next_d d x) (next_o o x) _ _ _) as [e' r'] eqn:E. destruct r' as [r'|?| |]; try discriminate H. injection H as <- <-.
      destruct (IH _ _ _ _ _ _ _ Hd' Ho' Hops Hms E) as [I1 I2]. split.
      * rewrite app_comm_cons, app_assoc. now apply oe_op.
      * rewrite I2. destruct f; [reflexivity|]. destruct x; [discriminate Ecase|reflexivity|reflexivity].
Qed.
Lemma written_body m ops h ob : Forall op_ok ops -> deltas_ok 0 0 ops -> write_ops m ops h = (ob, Ok tt) -> body_enc (h_format h) ops ob.
Proof.
  intros Hok Hm H. unfold write_ops in H. destruct (h_osize h >? MAX_WIN_SIZE); [discriminate|]. destruct (negb (zlen ops =? h_nops h)); [discriminate|].
  destruct (write_ops_loop m (h_format h) ops 0 0 0 0 []) as [enc r] eqn:E. destruct r as [[[total addw] adds]|?| |]; try discriminate H. cbn [wbind] in H.
  destruct (written_ops_enc m (h_format h) ops 0 0 0 0 [] enc _ ltac:(lia) ltac:(lia) Hok Hm E) as [He Ha]. cbn [snd app] in Ha. exists enc. split; [exact He|]. rewrite <- Ha.
  destruct (h_format h); cbn [is_segregated] in H.
  - subst adds. unfold wlift in H. cbn [wbind] in H. destruct (negb (total =? h_osize h)); injection H as <-; now rewrite ?app_nil_r.
  - unfold wlift, wput in H. cbn [wbind] in H. destruct (negb (addw =? h_nadd h)); cbn [wbind] in H; [discriminate H|].
    destruct (negb (total =? h_osize h)); [discriminate H|]. injection H as <-. now rewrite !app_nil_r.
Qed.

(** ** Reading *)
Lemma read_header_enc m v h hb rest : 0 <= v <= 7 -> header_typed h -> (h_format h = Segregated -> h_nadd h <= h_osize h) -> header_enc number v h hb ->
  read_section_header m (hb ++ rest) = Ok (read_back h, rest).
Proof.
  intros Hv (Hc & Hn & Ha & Ho) Hle H. destruct h as [comp f more nops nadd osize]. cbn [h_comp h_format h_more h_nops h_nadd h_osize] in *.
  pose proof (ctl_read v comp Hv Hc f more) as Hctl. cbv zeta in Hctl. destruct Hctl as (C1 & C2 & C3).
  unfold read_section_header. inversion H as [b1 b2 Ef [L1 K1] [L2 K2]|b1 b2 b3 Ef [L1 K1] [L2 K2] [L3 K3]]; subst; cbn [h_format] in Ef; subst f;
    cbn [control_byte h_comp h_format h_more h_nops h_nadd h_osize app read_u8 bind is_segregated] in *; unfold control_byte; cbn [h_comp h_format h_more];
    rewrite C1, C2, C3; cbv zeta; rewrite <- ?app_assoc, (read_u_varint_leb m b1 nops) by (assumption || lia); cbn [bind is_segregated].
  - rewrite (read_u_varint_leb m b2 osize) by (assumption || lia). cbn [bind]. rewrite !to_u32_id by lia. reflexivity.
  - specialize (Hle eq_refl). rewrite (read_u_varint_leb m b2 nadd) by (assumption || lia). cbn [bind].
    rewrite (read_u_varint_leb m b3 (osize - nadd)) by (assumption || lia). cbn [bind]. rewrite !to_u32_id by lia.
    rewrite arith_ok by (apply to_u32_id; lia). cbn [bind]. unfold read_back, set_nadd. cbn. do 3 f_equal; lia.
Qed.

Lemma op_enc_nonempty d o b x : op_enc d o b x -> 1 <= zlen b.
Proof.
  intro H. assert (G : forall (y : Z) l, 1 <= zlen (y :: l)) by (intros y l; rewrite zlen_cons; pose proof (zlen_nonneg l); lia). destruct H; apply G.
Qed.
Lemma enc_oal d o b x : op_enc d o b x -> oal x = op_len x /\ 0 <= op_len x.
Proof.
  intro H. destruct H as [s sb bs Hs|n b Hn|src s sb n db delta Hs Hl Hlen Hdl]; cbn [oal op_len].
  - destruct (size_enc_range _ _ _ Hs) as (_ & Hr & _). rewrite to_u16_id by lia. lia.
  - lia.
  - destruct (size_enc_range _ _ _ Hs) as (_ & Hr & _). lia.
Qed.
Lemma next_range d o b x : 0 <= d < 2 ^ 64 -> 0 <= o < 2 ^ 64 -> op_enc d o b x -> 0 <= next_d d x < 2 ^ 64 /\ 0 <= next_o o x < 2 ^ 64.
Proof. intros Hd Ho H. destruct H as [| |src s sb n db delta Hs Hl Hlen Hdl]; cbn; auto. destruct src; cbn; split; auto; apply Z.mod_pos_bound; lia. Qed.
Lemma ops_enc_lens f d o e ops : ops_enc f d o e ops -> 0 <= adds_len ops /\ 0 <= ops_len ops.
Proof.
  induction 1 as [d o|d o b x bs r Hf He Hr IH|d o s sb a bs r Hf Hs Hr IH]; [cbn; lia| |].
  - rewrite adds_len_cons, ops_len_cons. pose proof (proj2 (enc_oal _ _ _ _ He)). assert (0 <= add_len x) by (destruct x; cbn; try lia; apply zlen_nonneg). lia.
  - rewrite adds_len_cons, ops_len_cons. cbn [add_len op_len]. pose proof (zlen_nonneg a). lia.
Qed.
Lemma read_loop_enc m f d o e ops : ops_enc f d o e ops -> 0 <= d < 2 ^ 64 -> 0 <= o < 2 ^ 64 ->
  forall rest fuel cs nadd, (length e < fuel)%nat -> 0 <= cs -> cs + ops_len ops < 2 ^ 32 -> 0 <= nadd -> m = Release \/ f = Interleaved \/ nadd + adds_len ops < 2 ^ 32 ->
  exists nadd', read_ops_loop fuel m f (zlen ops) d o cs nadd (e ++ rest) = Ok (map (hollow f) ops, cs + ops_len ops, nadd', rest) /\
    (f = Interleaved -> nadd' = nadd) /\ (f = Segregated -> nadd + adds_len ops < 2 ^ 32 -> nadd' = nadd + adds_len ops).
Proof.
  induction 1 as [d o|d o b x bs r Hf He Hr IH|d o s sb a bs r Hf Hs Hr IH]; intros Hd Ho rest fuel cs nadd Hfu Hcs1 Hcs2 Hna1 Hna2.
  - exists nadd. split; [|split; [auto|intros; cbn; lia]]. destruct fuel; cbn; rewrite Z.add_0_r; reflexivity.
  - destruct (next_range _ _ _ _ Hd Ho He) as [Hd' Ho']. destruct (enc_oal _ _ _ _ He) as [Hoal Hxl].
    pose proof (ops_enc_lens _ _ _ _ _ Hr) as [Hl1 Hl2]. pose proof (op_enc_nonempty _ _ _ _ He) as Hb1. rewrite ops_len_cons in *. rewrite adds_len_cons in *.
    assert (Hax : 0 <= add_len x) by (destruct x; cbn; try lia; apply zlen_nonneg).
    destruct fuel as [|fuel]; [lia|]. cbn [read_ops_loop]. rewrite zlen_cons. replace (1 + zlen r <=? 0) with false by (pose proof (zlen_nonneg r); lia).
    rewrite <- app_assoc, (read_op_conf m d o (negb (is_segregated f)) b x (bs ++ rest) Hd Ho He) by (destruct Hf as [->|Hf]; [now left|now right]).
    cbn [bind]. rewrite Hoal, arith_ok by (apply to_u32_id; lia). cbn [bind].
    replace (is_segregated f && is_add x) with false by (destruct Hf as [->|Hf]; [reflexivity|rewrite Hf; now rewrite andb_false_r]). cbn [bind].
    replace (1 + zlen r - 1) with (zlen r) by lia.
    assert (Hseg0 : f = Segregated -> add_len x = 0) by (intros ->; destruct Hf as [Hf|Hf]; [discriminate|]; destruct x; [discriminate|reflexivity|reflexivity]).
    destruct (IH Hd' Ho' rest fuel (cs + op_len x) nadd) as (nadd' & E & I1 & I2).
    { rewrite app_length in Hfu. unfold zlen in Hb1. lia. } { lia. } { lia. } { lia. } { destruct Hna2 as [Hx|[Hx|Hx]]; [auto|auto|]. right; right. lia. }
    rewrite E. cbn [bind]. exists nadd'. split; [|split; [exact I1|]].
    + cbn [map]. assert (E0 : hollow f x = x) by (destruct f; [reflexivity|]; destruct Hf as [Hf|Hf]; [discriminate|]; destruct x; [discriminate|reflexivity|reflexivity]).
      rewrite E0. do 4 f_equal. lia.
    + intros Es Hb. rewrite (Hseg0 Es) in *. rewrite (I2 Es) by lia. lia.
  - subst f. destruct (size_enc_range _ _ _ Hs) as (Hs1 & Hs2 & _). pose proof (ops_enc_lens _ _ _ _ _ Hr) as [Hl1 Hl2]. rewrite ops_len_cons in *. rewrite adds_len_cons in *. cbn [op_len add_len] in *.
    destruct fuel as [|fuel]; [lia|]. cbn [read_ops_loop]. rewrite zlen_cons. replace (1 + zlen r <=? 0) with false by (pose proof (zlen_nonneg r); lia).
    cbn [is_segregated negb]. unfold read_op. cbn [app]. rewrite (read_op_byte_conf TAdd s) by exact Hs1. cbn [bind].
    rewrite <- app_assoc, (read_size _ _ _ (bs ++ rest) Hs). cbn [bind].
    assert (Hz : oal (Add (rep 0 (zlen a))) = zlen a).
    { cbn [oal]. rewrite zlen_rep. pose proof (zlen_nonneg a). rewrite Z.max_r by lia. apply to_u16_id. lia. }
    rewrite Hz, arith_ok by (apply to_u32_id; lia). cbn [bind is_add andb].
    destruct (Z.ltb_spec (nadd + zlen a + adds_len r) (2 ^ 32)) as [Hb|Hb].
    + rewrite arith_ok by (apply to_u32_id; lia). cbn [bind]. replace (1 + zlen r - 1) with (zlen r) by lia.
      destruct (IH Hd Ho rest fuel (cs + zlen a) (nadd + zlen a)) as (nadd' & E & _ & I2).
      { cbn [app length] in Hfu. rewrite app_length in Hfu. lia. } { lia. } { lia. } { lia. } { right; right. lia. }
      rewrite E. cbn [bind map hollow]. exists nadd'. split; [do 4 f_equal; lia|]. split; [discriminate|]. intros _ _. rewrite I2 by (auto; lia). lia.
    + destruct Hna2 as [->|[Hx|Hx]]; [|discriminate|lia].
      assert (Hq : exists q, arith Release to_u32 (nadd + zlen a) = Ok q /\ 0 <= q).
      { unfold arith. destruct (to_u32 (nadd + zlen a) =? nadd + zlen a); eexists; (split; [reflexivity|]); [lia|]. unfold to_u32. apply Z.mod_pos_bound. lia. }
      destruct Hq as (q & -> & Hq). cbn [bind]. replace (1 + zlen r - 1) with (zlen r) by lia.
      destruct (IH Hd Ho rest fuel (cs + zlen a) q) as (nadd' & E & _ & _).
      { cbn [app length] in Hfu. rewrite app_length in Hfu. lia. } { lia. } { lia. } { lia. } { now left. }
      rewrite E. cbn [bind map hollow]. exists nadd'. split; [do 4 f_equal; lia|]. split; [discriminate|]. intros _ Hcon. lia.
Qed.

Lemma read_body_enc m h ops bb rest : body_enc (h_format h) ops bb -> h_nops h = zlen ops -> h_osize h = ops_len ops -> h_osize h < 2 ^ 32 ->
  0 <= h_nadd h -> m = Release \/ h_format h = Interleaved \/ h_nadd h + adds_len ops < 2 ^ 32 ->
  exists n, read_ops_no_comp m h (bb ++ rest) = Ok (ops, set_nadd h n, rest) /\ (h_format h = Interleaved -> n = h_nadd h) /\
    (h_format h = Segregated -> h_nadd h + adds_len ops < 2 ^ 32 -> n = h_nadd h + adds_len ops).
Proof.
  intros (e & He & ->) Hn Ho Hlt Hna Hm. unfold read_ops_no_comp. rewrite <- app_assoc, Hn, Ho.
  destruct (read_loop_enc m _ _ _ _ _ He ltac:(lia) ltac:(lia) (match h_format h with Segregated => literals ops | Interleaved => [] end ++ rest)
    (S (length (e ++ match h_format h with Segregated => literals ops | Interleaved => [] end ++ rest))) 0 (h_nadd h)) as (n & E & I1 & I2).
  { rewrite app_length. lia. } { lia. } { lia. } { lia. } { exact Hm. }
  rewrite E. cbn [bind]. rewrite Z.add_0_l, Z.eqb_refl. cbn [negb]. destruct (h_format h) eqn:Ef.
  - rewrite map_hollow_interleaved. cbn [app]. exists n. split; [|auto]. rewrite (I1 eq_refl). unfold set_nadd. now destruct h.
  - rewrite literals_add_bytes, fill_adds_hollow. cbn [bind]. exists n. split; [reflexivity|auto].
Qed.
