(** Writer / reader round trips, validation, sectioning. *)
From Verif Require Import Base Spec MCommon MWriter MReader PBase PCommon.
Ltac Zify.zify_post_hook ::= idtac.

(** ** Section header *)
Lemma to_u32_u64 v : 0 <= v < 2 ^ 32 -> 0 <= v < 2 ^ 64.
Proof. lia. Qed.

Definition read_back (h : header) : header :=
  set_nadd h (match h_format h with Segregated => h_nadd h | Interleaved => 0 end).

Lemma ctl_byte comp : 0 <= comp <= 7 -> forall f more,
  let c := to_u8 (Z.shiftl comp SECTION_COMPRESSION_RSHIFT) in
  let c := if is_segregated f then Z.lor c SECTION_FORMAT_BIT else c in
  let c := if (more : bool) then Z.lor c SECTION_CONTINUE_BIT else c in
  Z.shiftr (Z.land c SECTION_COMPRESSION_MASK) SECTION_COMPRESSION_RSHIFT = comp /\
  (Z.land c SECTION_FORMAT_BIT =? SECTION_FORMAT_BIT) = is_segregated f /\
  (Z.land c SECTION_CONTINUE_BIT =? SECTION_CONTINUE_BIT) = more.
Proof.
  intros H f more.
  assert (C : comp = 0 \/ comp = 1 \/ comp = 2 \/ comp = 3 \/ comp = 4 \/ comp = 5 \/ comp = 6 \/ comp = 7) by lia.
  destruct f, more; repeat (destruct C as [->|C]; [vm_compute; auto|]); subst; vm_compute; auto.
Qed.

Lemma header_roundtrip m h rest : header_typed h -> (h_format h = Segregated -> h_nadd h <= h_osize h) ->
  exists bs, write_section_header m h = (bs, Ok tt) /\ bs <> [] /\
             read_section_header m (bs ++ rest) = Ok (read_back h, rest).
Proof.
  intros (Hc & Hn & Ha & Ho) Hle. destruct h as [comp f more nops nadd osize]. cbn [h_comp h_format h_more h_nops h_nadd h_osize] in *.
  pose proof (ctl_byte comp Hc f more) as Hctl. cbv zeta in Hctl.
  unfold write_section_header, read_section_header. cbn [h_comp h_format h_more h_nops h_nadd h_osize].
  set (c := if more then _ else _) in *. destruct Hctl as (Hc1 & Hc2 & Hc3).
  destruct (u_varint_roundtrip m nops [] (to_u32_u64 _ Hn)) as (b1 & Hw1 & _).
  assert (Hr1 : forall t, read_u_varint m (b1 ++ t) = Ok (nops, t)).
  { intro t. destruct (u_varint_roundtrip m nops t (to_u32_u64 _ Hn)) as (b1' & Hw1' & Hr). congruence. }
  destruct f; cbn [is_segregated] in *.
  - destruct (u_varint_roundtrip m osize rest (to_u32_u64 _ Ho)) as (b2 & Hw2 & Hr2).
    exists (c :: b1 ++ b2). split; [|split; [discriminate|]].
    + change (c :: b1 ++ b2) with ([c] ++ (b1 ++ b2)). apply wbind_put. eapply wbind_step; [exact Hw1|].
      rewrite (wbind_lift _ _ osize) by reflexivity. exact Hw2.
    + cbn [app read_u8 bind]. rewrite Hc1, Hc2, Hc3. cbv zeta. rewrite <- app_assoc, Hr1. cbn [bind is_segregated].
      rewrite Hr2. cbn [bind]. rewrite !to_u32_id by lia. reflexivity.
  - destruct (u_varint_roundtrip m nadd [] (to_u32_u64 _ Ha)) as (b3 & Hw3 & _).
    assert (Hr3 : forall t, read_u_varint m (b3 ++ t) = Ok (nadd, t)).
    { intro t. destruct (u_varint_roundtrip m nadd t (to_u32_u64 _ Ha)) as (b3' & Hw3' & Hr). congruence. }
    specialize (Hle eq_refl).
    destruct (u_varint_roundtrip m (osize - nadd) rest ltac:(lia)) as (b2 & Hw2 & Hr2).
    exists (c :: b1 ++ b3 ++ b2). split; [|split; [discriminate|]].
    + change (c :: b1 ++ b3 ++ b2) with ([c] ++ (b1 ++ b3 ++ b2)). apply wbind_put. eapply wbind_step; [exact Hw1|].
      eapply (wbind_step _ _ b3 (osize - nadd)); [|exact Hw2]. rewrite <- (app_nil_r b3).
      eapply wbind_step; [exact Hw3|]. unfold wlift. rewrite arith_ok by (apply to_u32_id; lia). reflexivity.
    + cbn [app read_u8 bind]. rewrite Hc1, Hc2, Hc3. cbv zeta. rewrite <- !app_assoc, Hr1. cbn [bind is_segregated].
      rewrite Hr3. cbn [bind]. rewrite Hr2. cbn [bind]. rewrite !to_u32_id by lia.
      rewrite arith_ok by (apply to_u32_id; lia). cbn [bind]. unfold read_back, set_nadd. cbn.
      do 3 f_equal; lia.
Qed.

(** ** Reading an operation: every conforming encoding *)
Lemma op_byte_bits t s : 0 <= t <= 3 -> 0 <= s <= 63 ->
  Z.land (64 * t + s) SIZE_MASK = s /\ Z.land (64 * t + s) OP_MASK = 64 * t.
Proof.
  intros Ht Hs.
  pose proof (byte_sweep (fun b => (Z.land b SIZE_MASK =? b mod 64) && (Z.land b OP_MASK =? 64 * (b / 64))) eq_refl
                (64 * t + s) ltac:(lia)) as H.
  cbv beta in H. apply andb_true_iff in H as [H1 H2]. apply Z.eqb_eq in H1, H2. rewrite H1, H2.
  rewrite (Z.mul_comm 64 t), Z.add_comm. rewrite Z.mod_add, Z.div_add by lia.
  rewrite Z.mod_small, Z.div_small by lia. lia.
Qed.

Lemma size_enc_range s sb n : size_enc s sb n -> 0 <= s <= 63 /\ 0 <= n <= 65535 /\ Forall is_byte sb.
Proof.
  destruct 1 as [n H|b H|lo hi Hl Hh]; unfold is_byte in *; (split; [lia|split; [lia|]]);
    repeat constructor; unfold is_byte; lia.
Qed.

Lemma read_size s sb n rest : size_enc s sb n ->
  match size_routine s with
  | Done n => Ok (n, sb ++ rest)
  | U8And62 => do (b, bs) <- read_u8 (sb ++ rest); Ok (b + 62, bs)
  | U16 => read_u16 (sb ++ rest)
  end = Ok (n, rest).
Proof.
  destruct 1 as [n H|b H|lo hi Hl Hh]; unfold size_routine.
  - now replace ((1 <=? n) && (n <=? 62)) with true by lia.
  - reflexivity.
  - reflexivity.
Qed.

Definition op_type_code (t : op_type) : Z := match t with TCopy Dict => 0 | TCopy Output => 1 | TAdd => 2 | TRun => 3 end.
Lemma read_op_byte_conf t s rest : 0 <= s <= 63 ->
  read_op_byte ((64 * op_type_code t + s) :: rest) = Ok (t, size_routine s, rest).
Proof.
  intro Hs. unfold read_op_byte. cbn [read_u8 bind].
  destruct (op_byte_bits (op_type_code t) s) as [H1 H2]; [destruct t as [[]| |]; cbn; lia|exact Hs|].
  rewrite H1, H2. destruct t as [[]| |]; reflexivity.
Qed.

Lemma delta_read m cur delta : 0 <= cur < 2 ^ 64 -> - 2 ^ 63 < delta < 2 ^ 63 ->
  diff_addresses_to_u64 m cur delta = Ok ((cur + delta) mod 2 ^ 64).
Proof.
  intros Hc Hd. unfold diff_addresses_to_u64. destruct (delta >=? 0) eqn:E; [reflexivity|].
  rewrite arith_ok by (apply to_i64_id; lia). cbn [bind]. rewrite (to_u64_id (Z.abs delta)) by lia.
  unfold to_u64. do 2 f_equal. lia.
Qed.

Lemma read_op_conf m d o inter bs x rest : 0 <= d < 2 ^ 64 -> 0 <= o < 2 ^ 64 -> op_enc d o bs x ->
  inter = true \/ is_add x = false ->
  read_op m d o inter (bs ++ rest) = Ok (x, next_d d x, next_o o x, rest).
Proof.
  intros Hd Ho He Hi. destruct He as [s sb bs Hs|n b Hn|src s sb n db delta Hs Hl Hlen Hdl]; unfold read_op.
  - destruct Hi as [->|Hi]; [|discriminate]. destruct (size_enc_range _ _ _ Hs) as (Hs1 & _ & _).
    cbn [app]. rewrite (read_op_byte_conf TAdd s) by exact Hs1. cbn [bind].
    rewrite <- app_assoc. rewrite (read_size _ _ _ (bs ++ rest) Hs). cbn [bind].
    rewrite read_exact_ok by reflexivity. reflexivity.
  - cbn [app]. rewrite (read_op_byte_conf TRun n) by lia. cbn [bind].
    unfold size_routine. replace ((1 <=? n) && (n <=? 62)) with true by lia. reflexivity.
  - destruct (size_enc_range _ _ _ Hs) as (Hs1 & _ & _). cbn [app].
    change (64 * match src with Dict => 0 | Output => 1 end + s) with (64 * op_type_code (TCopy src) + s).
    rewrite (read_op_byte_conf (TCopy src) s) by exact Hs1. cbn [bind].
    rewrite <- app_assoc. rewrite (read_size _ _ _ (db ++ rest) Hs). cbn [bind].
    unfold read_i_varint. rewrite (read_u_varint_leb m db (zigzag delta)); [|exact Hl|exact Hlen|].
    2: { pose proof (zigzag_range delta ltac:(lia)). lia. }
    cbn [bind]. rewrite zigzag_decode_zigzag by lia.
    destruct src; cbn [last_addr]; rewrite delta_read by lia; reflexivity.
Qed.

(** ** Writing one operation *)
Lemma lor_flag x n : 0 <= n <= 63 -> Z.lor (bit_flag x) n = 64 * type_code x + n.
Proof.
  intro Hn.
  assert (G : forall t, 0 <= t <= 3 -> Z.lor (64 * t) n = 64 * t + n).
  { intros t Ht. rewrite Z.lor_comm, (Z.mul_comm 64 t). change 64 with (2 ^ 6). rewrite lor_mul by (cbn; lia). lia. }
  destruct x as [bs|b k|[] a k]; cbn [bit_flag type_code]; [apply (G 2)|apply (G 3)|apply (G 0)|apply (G 1)]; lia.
Qed.

Lemma oal_op_ok x : op_ok x -> oal x = op_len x /\ 0 <= op_len x <= 65535.
Proof.
  intros [Ht Hl]. destruct x as [bs|b n|s a n]; cbn in *.
  - pose proof (zlen_nonneg bs). rewrite to_u16_id by lia. lia.
  - lia.
  - lia.
Qed.

Lemma write_op_head x : op_ok x ->
  exists s sb, write_op_byte_and_size x = ((64 * type_code x + s) :: sb, Ok tt) /\ size_enc s sb (op_len x) /\
    (is_run x = true -> sb = []).
Proof.
  intro H. destruct (oal_op_ok x H) as [Ho Hr]. destruct H as [Ht Hl].
  unfold write_op_byte_and_size. rewrite Ho. unfold size_routine.
  assert (Hrun : (if is_run x then op_len x <=? 62 else true) = true).
  { destruct x as [bs|b n|s a n]; cbn in *; lia. }
  rewrite Hrun. cbn [wlift assert_ wbind].
  destruct ((1 <=? op_len x) && (op_len x <=? 62)) eqn:E.
  - exists (op_len x), []. cbn. rewrite lor_flag by lia. split; [reflexivity|]. split; [constructor; lia|reflexivity].
  - assert (Hnr : is_run x = false) by (destruct x as [bs|b n|s a n]; cbn in *; [reflexivity|lia|reflexivity]).
    destruct (op_len x =? 63) eqn:E2; rewrite Hnr; cbn [negb assert_ wlift wbind write_u8 wput app write_u16 SIZE_MASK].
    + exists 63, [1]. replace (op_len x) with 63 by lia.
      rewrite lor_flag by (unfold SIZE_MASK; lia). split; [reflexivity|].
      split; [apply (size_u8 1); unfold is_byte; lia|congruence].
    + exists 0, [op_len x mod 256; op_len x / 256]. split; [|split; [|congruence]].
      * do 2 f_equal. rewrite <- (lor_flag x 0) by lia. now rewrite Z.lor_0_r.
      * pose proof (Z.mod_pos_bound (op_len x) 256 ltac:(lia)).
        replace (op_len x) with (op_len x mod 256 + 256 * (op_len x / 256)) at 3 by (rewrite (Z.div_mod (op_len x) 256) at 3; lia).
        apply size_u16; unfold is_byte; [lia|].
        split; [apply Z.div_pos; lia|apply Z.div_lt_upper_bound; lia].
Qed.

Definition delta_ok (d o : Z) (x : op) : Prop :=
  match x with
  | Copy Dict a _ => Z.abs (a - d) <> 2 ^ 63
  | Copy Output a _ => Z.abs (a - o) <> 2 ^ 63
  | _ => True
  end.

Lemma copy_rt m cur a : 0 <= cur < 2 ^ 64 -> 0 <= a < 2 ^ 64 -> m = Release \/ Z.abs (a - cur) <> 2 ^ 63 ->
  exists i db, diff_addresses_to_i64 m cur a = Ok i /\ write_i_varint i = (db, Ok tt) /\
    forall t, (do (j, r) <- read_i_varint m (db ++ t); do a' <- diff_addresses_to_u64 m cur j; Ok (a', r)) = Ok (a, t).
Proof.
  intros Hc Ha Hm. destruct (delta_roundtrip m cur a Hc Ha Hm) as (i & Hi & Hir & Hu).
  destruct (i_varint_roundtrip m i [] Hir) as (db & Hw & _).
  exists i, db. split; [exact Hi|]. split; [exact Hw|]. intro t.
  destruct (i_varint_roundtrip m i t Hir) as (db' & Hw' & Hr). assert (db' = db) as -> by congruence.
  rewrite Hr. cbn [bind]. rewrite Hu. reflexivity.
Qed.

Lemma op_roundtrip m d o x : 0 <= d < 2 ^ 64 -> 0 <= o < 2 ^ 64 -> op_ok x -> m = Release \/ delta_ok d o x ->
  exists hd tl, write_op_byte_and_size x = (hd, Ok tt) /\ hd <> [] /\
    write_op_addtl m x d o = (tl, Ok (next_d d x, next_o o x)) /\
    (forall inter rest, inter = true \/ is_add x = false ->
       read_op m d o inter (hd ++ tl ++ rest) = Ok (x, next_d d x, next_o o x, rest)) /\
    (forall rest, is_add x = true ->
       read_op m d o false (hd ++ rest) = Ok (Add (rep 0 (op_len x)), d, o, rest)).
Proof.
  intros Hd Ho Hok Hm. destruct (write_op_head x Hok) as (s & sb & Hw & Hs & Hrun).
  destruct (size_enc_range _ _ _ Hs) as (Hs1 & _ & _).
  destruct x as [bs|b n|src a n].
  - exists ((64 * 2 + s) :: sb), bs. split; [exact Hw|]. split; [discriminate|]. split.
    { cbn. now rewrite app_nil_r. }
    split.
    + intros inter rest Hi.
      rewrite app_assoc. apply read_op_conf; auto. cbn [app]. now constructor.
    + intros rest _. unfold read_op. cbn [app].
      rewrite (read_op_byte_conf TAdd s) by exact Hs1. cbn [bind].
      rewrite (read_size _ _ _ rest Hs). reflexivity.
  - exists ((64 * 3 + s) :: sb), [b]. split; [exact Hw|]. split; [discriminate|]. split; [reflexivity|].
    split; [|discriminate]. intros inter rest Hi.
    assert (Hn : 1 <= n <= 62) by (destruct Hok as [_ Hl]; exact Hl).
    rewrite (Hrun eq_refl) in *. cbn [op_len] in Hs. inversion Hs as [k Hk| |]; subst.
    cbn [app]. unfold read_op. rewrite (read_op_byte_conf TRun n) by lia. cbn [bind].
    unfold size_routine. replace ((1 <=? n) && (n <=? 62)) with true by lia. reflexivity.
  - assert (Ha : 0 <= a < 2 ^ 64) by (destruct Hok as [[Ht _] _]; exact Ht).
    assert (Hm' : m = Release \/ Z.abs (a - last_addr d o src) <> 2 ^ 63) by (destruct src; exact Hm).
    assert (Hcur : 0 <= last_addr d o src < 2 ^ 64) by (destruct src; assumption).
    destruct (copy_rt m _ a Hcur Ha Hm') as (i & db & Hi & Hwi & Hr).
    exists ((64 * type_code (Copy src a n) + s) :: sb), db. split; [exact Hw|]. split; [discriminate|]. split.
    { destruct src; cbn [write_op_addtl last_addr next_d next_o] in *; rewrite Hi; cbn [wlift wbind]; rewrite Hwi; cbn;
        now rewrite app_nil_r. }
    split; [|discriminate]. intros inter rest Hin. unfold read_op. cbn [app].
    replace (64 * type_code (Copy src a n) + s) with (64 * op_type_code (TCopy src) + s) by (destruct src; reflexivity).
    rewrite (read_op_byte_conf (TCopy src) s) by exact Hs1. cbn [bind].
    rewrite (read_size _ _ _ (db ++ rest) Hs). cbn [bind].
    specialize (Hr rest). destruct (read_i_varint m (db ++ rest)) as [[j r]|e| |]; try discriminate.
    cbn [bind] in *. cbn [op_len].
    destruct src; cbn [last_addr] in Hr;
      match goal with |- context[diff_addresses_to_u64 m ?c j] => destruct (diff_addresses_to_u64 m c j) as [a'|e| |] end;
      try discriminate; cbn [bind] in *; injection Hr as -> ->; reflexivity.
Qed.

(** ** Writing and reading lists of operations *)
Definition hollow (f : format) (x : op) : op :=
  match f, x with Segregated, Add bs => Add (rep 0 (zlen bs)) | _, _ => x end.
Fixpoint add_bytes (ops : list op) : list Z :=
  match ops with [] => [] | Add bs :: r => bs ++ add_bytes r | _ :: r => add_bytes r end.
Definition seg (f : format) (n : Z) : Z := match f with Segregated => n | Interleaved => 0 end.
Definition seg_bytes (f : format) (l : list Z) : list Z := match f with Segregated => l | Interleaved => [] end.

Lemma ops_len_nonneg ops : Forall op_ok ops -> 0 <= ops_len ops.
Proof.
  induction 1 as [|x ops Hx Hops IH]; cbn; [lia|]. destruct (oal_op_ok x Hx). unfold ops_len in IH. lia.
Qed.
Lemma adds_len_bounds ops : Forall op_ok ops -> 0 <= adds_len ops <= ops_len ops.
Proof.
  induction 1 as [|x ops Hx Hops IH]; cbn; [lia|]. destruct (oal_op_ok x Hx) as [_ Hx2].
  unfold ops_len, adds_len in *. destruct x as [bs|b n|s a n]; cbn [add_len op_len] in *; lia.
Qed.
Lemma ops_len_cons x ops : ops_len (x :: ops) = op_len x + ops_len ops.
Proof. reflexivity. Qed.
Lemma adds_len_cons x ops : adds_len (x :: ops) = add_len x + adds_len ops.
Proof. reflexivity. Qed.
Lemma ops_len_app a b : ops_len (a ++ b) = ops_len a + ops_len b.
Proof. induction a as [|x a IH]; [reflexivity|]. cbn [app]. rewrite !ops_len_cons, IH. lia. Qed.
Lemma adds_len_app a b : adds_len (a ++ b) = adds_len a + adds_len b.
Proof. induction a as [|x a IH]; [reflexivity|]. cbn [app]. rewrite !adds_len_cons, IH. lia. Qed.

Lemma next_typed d o x : 0 <= d < 2 ^ 64 -> 0 <= o < 2 ^ 64 -> op_typed x ->
  0 <= next_d d x < 2 ^ 64 /\ 0 <= next_o o x < 2 ^ 64.
Proof. intros Hd Ho Ht. destruct x as [bs|b n|[] a n]; cbn in *; lia. Qed.

Lemma deltas_ok_cons d o x r : deltas_ok d o (x :: r) <-> delta_ok d o x /\ deltas_ok (next_d d x) (next_o o x) r.
Proof. reflexivity. Qed.

Lemma ops_roundtrip m f : forall ops d o, 0 <= d < 2 ^ 64 -> 0 <= o < 2 ^ 64 -> Forall op_ok ops ->
  m = Release \/ deltas_ok d o ops ->
  exists enc, zlen ops <= zlen enc /\
    (forall total addw adds, write_ops_loop m f ops d o total addw adds =
       (enc, Ok (total + ops_len ops, addw + seg f (adds_len ops), adds ++ seg_bytes f (add_bytes ops)))) /\
    (forall rest fuel cs nadd, (length enc < fuel)%nat -> 0 <= cs -> cs + ops_len ops < 2 ^ 32 ->
       0 <= nadd -> nadd + adds_len ops < 2 ^ 32 ->
       read_ops_loop fuel m f (zlen ops) d o cs nadd (enc ++ rest) =
       Ok (map (hollow f) ops, cs + ops_len ops, nadd + seg f (adds_len ops), rest)).
Proof.
  induction ops as [|x ops IH]; intros d o Hd Ho Hok Hm.
  - exists []. split; [cbn; lia|]. split.
    + intros. cbn. destruct f; cbn; rewrite ?Z.add_0_r, ?app_nil_r; reflexivity.
    + intros rest fuel cs nadd Hf _ _ _ _. destruct fuel; cbn; destruct f; cbn; rewrite ?Z.add_0_r; reflexivity.
  - apply Forall_cons_iff in Hok as [Hx Hops].
    assert (Hmx : m = Release \/ delta_ok d o x) by (destruct Hm as [Hm|[Hm _]]; auto).
    assert (Hmr : m = Release \/ deltas_ok (next_d d x) (next_o o x) ops) by (destruct Hm as [Hm|[_ Hm]]; auto).
    destruct (next_typed d o x Hd Ho (proj1 Hx)) as [Hd' Ho'].
    destruct (op_roundtrip m d o x Hd Ho Hx Hmx) as (hd & tl & Hw1 & Hne & Hw2 & Hr & Hra).
    destruct (IH _ _ Hd' Ho' Hops Hmr) as (enc & Hle & Hwl & Hrl).
    destruct (oal_op_ok x Hx) as [Hoal Hxlen].
    pose proof (ops_len_nonneg ops Hops) as Hol. pose proof (adds_len_bounds ops Hops) as Hal.
    assert (Hhd : 1 <= zlen hd).
    { destruct hd; [contradiction|]. rewrite zlen_cons. pose proof (zlen_nonneg hd). lia. }
    (* is this an Add of a segregated section? *)
    destruct (is_segregated f && is_add x) eqn:Ecase.
    + destruct f; [discriminate|]. destruct x as [bs|b n|s a n]; try discriminate.
      cbn [next_d next_o] in *.
      exists (hd ++ enc). split; [rewrite zlen_cons, zlen_app; lia|]. split.
      * intros total addw adds. cbn [write_ops_loop]. rewrite Hw1. cbn [wbind]. rewrite Hwl. cbn [op_len] in Hoal.
        rewrite Hoal. cbn [seg seg_bytes add_bytes]. rewrite ops_len_cons, adds_len_cons. cbn [op_len add_len].
        rewrite <- app_assoc. do 4 f_equal; lia.
      * intros rest fuel cs nadd Hf Hcs1 Hcs2 Hna1 Hna2.
        rewrite ops_len_cons in Hcs2. rewrite adds_len_cons in Hna2. cbn [op_len add_len] in *.
        destruct fuel as [|fuel]; [lia|]. cbn [read_ops_loop].
        rewrite zlen_cons. replace (1 + zlen ops <=? 0) with false by (pose proof (zlen_nonneg ops); lia).
        cbn [is_segregated negb]. rewrite <- app_assoc, (Hra (enc ++ rest) eq_refl). cbn [bind].
        assert (Hz : oal (Add (rep 0 (zlen bs))) = zlen bs).
        { cbn [oal]. rewrite zlen_rep. pose proof (zlen_nonneg bs). rewrite Z.max_r by lia. exact Hoal. }
        rewrite Hz. rewrite arith_ok by (apply to_u32_id; lia). cbn [bind is_add andb].
        rewrite arith_ok by (apply to_u32_id; lia). cbn [bind].
        replace (1 + zlen ops - 1) with (zlen ops) by lia.
        rewrite Hrl; [|rewrite app_length in Hf; unfold zlen in Hhd; lia|lia|lia|lia|lia].
        cbn [bind map hollow seg]. rewrite ops_len_cons, adds_len_cons. cbn [op_len add_len]. do 3 f_equal; [f_equal|]; lia.
    + assert (Hnot : (match f with Segregated => match x with Add _ => False | _ => True end | Interleaved => True end)).
      { destruct f; [exact I|]. destruct x; [discriminate|exact I|exact I]. }
      exists (hd ++ tl ++ enc). split; [rewrite zlen_cons, !zlen_app; pose proof (zlen_nonneg tl); lia|].
      assert (Hsegx : seg f (add_len x) = 0) by (destruct f; [reflexivity|]; destruct x; [destruct Hnot|reflexivity|reflexivity]).
      split.
      * intros total addw adds.
        assert (Hstep : write_ops_loop m f (x :: ops) d o total addw adds =
                 dow _ <- write_op_byte_and_size x; dow da <- write_op_addtl m x d o;
                 write_ops_loop m f ops (fst da) (snd da) (total + oal x) addw adds).
        { destruct f; [destruct x; reflexivity|]. destruct x; [destruct Hnot|reflexivity|reflexivity]. }
        rewrite Hstep, Hw1. cbn [wbind]. rewrite Hw2. cbn [wbind fst snd]. rewrite Hwl. rewrite Hoal.
        rewrite ops_len_cons, adds_len_cons.
        assert (E1 : addw + seg f (adds_len ops) = addw + seg f (add_len x + adds_len ops)).
        { destruct f; cbn [seg] in *; lia. }
        assert (E2 : seg_bytes f (add_bytes (x :: ops)) = seg_bytes f (add_bytes ops)).
        { destruct f; [reflexivity|]. destruct x; [destruct Hnot|reflexivity|reflexivity]. }
        rewrite E2, <- E1. do 4 f_equal. lia.
      * intros rest fuel cs nadd Hf Hcs1 Hcs2 Hna1 Hna2.
        rewrite ops_len_cons in Hcs2. rewrite adds_len_cons in Hna2.
        destruct fuel as [|fuel]; [lia|]. cbn [read_ops_loop].
        rewrite zlen_cons. replace (1 + zlen ops <=? 0) with false by (pose proof (zlen_nonneg ops); lia).
        rewrite <- !app_assoc, Hr.
        2: { destruct f; cbn; [auto|]. right. destruct x; [destruct Hnot|reflexivity|reflexivity]. }
        cbn [bind]. rewrite Hoal. rewrite arith_ok by (apply to_u32_id; lia). cbn [bind].
        rewrite Ecase. cbn [bind]. replace (1 + zlen ops - 1) with (zlen ops) by lia.
        assert (0 <= add_len x) by (destruct x; cbn; try lia; apply zlen_nonneg).
        rewrite Hrl; [|rewrite !app_length in Hf; unfold zlen in Hhd; lia|lia|lia|lia|lia].
        cbn [bind map]. rewrite ops_len_cons, adds_len_cons.
        assert (E0 : hollow f x = x) by (destruct f; [reflexivity|]; destruct x; [destruct Hnot|reflexivity|reflexivity]).
        rewrite E0.
        assert (E1 : seg f (add_len x + adds_len ops) = seg f (adds_len ops)) by (destruct f; cbn [seg] in *; lia).
        rewrite E1. do 4 f_equal; lia.
Qed.

Lemma fill_adds_hollow ops rest : fill_adds (map (hollow Segregated) ops) (add_bytes ops ++ rest) = Ok (ops, rest).
Proof.
  induction ops as [|x ops IH]; [reflexivity|]. destruct x as [bs|b n|s a n]; cbn [map hollow fill_adds add_bytes].
  - rewrite zlen_rep, Z.max_r by apply zlen_nonneg. rewrite <- app_assoc, read_exact_ok by reflexivity.
    cbn [bind]. now rewrite IH.
  - now rewrite IH.
  - now rewrite IH.
Qed.
Lemma map_hollow_interleaved ops : map (hollow Interleaved) ops = ops.
Proof. induction ops as [|x ops IH]; cbn; [reflexivity|]. now rewrite IH. Qed.

(** What the writer checks, for operations within the limits. *)
Definition header_matches (h : header) (ops : list op) : Prop :=
  h_osize h <= max_win_size /\ h_nops h = zlen ops /\ h_osize h = ops_len ops /\
  (h_format h = Segregated -> h_nadd h = adds_len ops).

Lemma write_ops_roundtrip m ops h : Forall op_ok ops -> m = Release \/ deltas_ok 0 0 ops -> header_matches h ops ->
  exists enc, write_ops m ops h = (enc, Ok tt) /\
    forall h' rest, h_format h' = h_format h -> h_nops h' = h_nops h -> h_osize h' = h_osize h ->
      0 <= h_nadd h' <= max_win_size ->
      read_ops_no_comp m h' (enc ++ rest) =
      Ok (ops, match h_format h with Segregated => set_nadd h' (h_nadd h' + adds_len ops) | Interleaved => h' end, rest).
Proof.
  intros Hok Hm (Hmax & Hn & Hs & Ha).
  destruct (ops_roundtrip m (h_format h) ops 0 0 ltac:(lia) ltac:(lia) Hok Hm) as (enc & Hle & Hw & Hr).
  pose proof (adds_len_bounds ops Hok) as Hal. unfold max_win_size in *.
  exists (enc ++ seg_bytes (h_format h) (add_bytes ops)). split.
  - unfold write_ops. rewrite Hs in *. replace (ops_len ops >? MAX_WIN_SIZE) with false by (unfold MAX_WIN_SIZE; lia).
    rewrite Hn, Z.eqb_refl. cbn [negb]. rewrite Hw. cbn [wbind]. rewrite !Z.add_0_l. cbn [app].
    destruct (h_format h) eqn:Ef; cbn [is_segregated seg seg_bytes] in *.
    + cbn. rewrite Z.eqb_refl. cbn. now rewrite !app_nil_r.
    + rewrite (Ha eq_refl), Z.eqb_refl. cbn. rewrite Z.eqb_refl. cbn. now rewrite !app_nil_r.
  - intros h' rest Ef En Eo Hna. unfold read_ops_no_comp. rewrite Ef, En, Eo, Hn, Hs.
    rewrite <- app_assoc. rewrite Hr; [|rewrite app_length; lia|lia|lia|lia|lia].
    cbn [bind]. rewrite Z.add_0_l, Z.eqb_refl. cbn [negb].
    destruct (h_format h); cbn [seg_bytes seg app].
    + now rewrite map_hollow_interleaved.
    + rewrite fill_adds_hollow. reflexivity.
Qed.

Lemma section_roundtrip m ops h : Forall op_ok ops -> m = Release \/ deltas_ok 0 0 ops ->
  0 <= h_comp h <= 7 -> 0 <= h_nadd h < 2 ^ 32 -> zlen ops < 2 ^ 32 -> header_matches h ops ->
  exists hb ob, write_section_header m h = (hb, Ok tt) /\ write_ops m ops h = (ob, Ok tt) /\ hb <> [] /\
    (forall rest, read_section_header m (hb ++ rest) = Ok (read_back h, rest)) /\
    forall rest, exists h', read_section m (hb ++ ob ++ rest) = Ok (ops, h', rest) /\
      h_comp h' = h_comp h /\ h_format h' = h_format h /\ h_more h' = h_more h /\ h_nops h' = h_nops h /\
      h_osize h' = h_osize h /\
      h_nadd h' = match h_format h with Segregated => 2 * adds_len ops | Interleaved => 0 end.
Proof.
  intros Hok Hm Hc Hna Hlen Hmat.
  destruct (write_ops_roundtrip m ops h Hok Hm Hmat) as (ob & Hw & Hr).
  pose proof (adds_len_bounds ops Hok) as Hal.
  destruct Hmat as (Hmax & Hn & Hs & Ha). unfold max_win_size in *.
  assert (Hht : header_typed h).
  { unfold header_typed. pose proof (zlen_nonneg ops). lia. }
  assert (Hseg : h_format h = Segregated -> h_nadd h <= h_osize h) by (intro E; rewrite (Ha E); lia).
  destruct (header_roundtrip m h [] Hht Hseg) as (hb & Hwh & Hne & _).
  assert (Hrh : forall rest, read_section_header m (hb ++ rest) = Ok (read_back h, rest)).
  { intro rest. destruct (header_roundtrip m h rest Hht Hseg) as (hb' & Hwh' & _ & Hrh). congruence. }
  exists hb, ob. split; [exact Hwh|]. split; [exact Hw|]. split; [exact Hne|]. split; [exact Hrh|].
  intro rest. unfold read_section. rewrite Hrh. cbn [bind].
  rewrite (Hr (read_back h) rest); try reflexivity.
  2: { unfold read_back, set_nadd. cbn. destruct (h_format h) eqn:E; [lia|]. rewrite (Ha eq_refl). lia. }
  eexists. split; [reflexivity|]. destruct (h_format h) eqn:E; unfold read_back, set_nadd; cbn; rewrite ?E; cbn;
    repeat (split; [reflexivity|]); try reflexivity.
  rewrite (Ha eq_refl). destruct (adds_len ops); lia.
Qed.

(** Boolean check, for concrete examples. *)
Definition byteb (b : Z) : bool := (0 <=? b) && (b <? 256).
Definition op_okb (o : op) : bool :=
  match o with
  | Add bs => forallb byteb bs && (zlen bs <=? 65535)
  | Run b n => byteb b && (1 <=? n) && (n <=? 62)
  | Copy _ a n => (0 <=? a) && (a <? 2 ^ 64) && (0 <=? n) && (n <=? 65535)
  end.
Lemma byteb_ok bs : forallb byteb bs = true -> Forall is_byte bs.
Proof. rewrite forallb_forall, Forall_forall. intros H x Hx. specialize (H x Hx). unfold byteb in H. unfold is_byte. lia. Qed.
Lemma op_okb_ok o : op_okb o = true -> op_ok o.
Proof.
  destruct o as [bs|b n|s a n]; cbn [op_okb]; intro H.
  - apply andb_true_iff in H as [H1 H2]. split; cbn; [now apply byteb_ok|lia].
  - unfold byteb in H. split; cbn; unfold is_byte; lia.
  - split; cbn; lia.
Qed.
Lemma ops_okb_ok ops : forallb op_okb ops = true -> Forall op_ok ops.
Proof. rewrite forallb_forall, Forall_forall. intros H x Hx. apply op_okb_ok. auto. Qed.
