(** Exact outcome of write_ops; make_sections; what a successful read guarantees. *)
From Verif Require Import Base Spec MCommon MWriter MReader PBase PCommon PSection.
Ltac Zify.zify_post_hook ::= idtac.

Arguments Z.mul : simpl never.
Arguments Z.pow : simpl never.
Arguments Z.add : simpl never.
Arguments Z.sub : simpl never.
Arguments Z.modulo : simpl never.
Arguments Z.div : simpl never.
(** ** Outcome of the writer *)
(** A run the format cannot express. *)
Definition bad_run (o : op) : bool := match o with Run _ n => (n =? 0) || (62 <? n) | _ => false end.
(** The length the writer puts on the wire. *)
Definition wire_len (o : op) : Z := match o with Add bs => zlen bs mod 65536 | _ => op_len o end.
Definition wires_len (ops : list op) : Z := fold_right (fun o s => wire_len o + s) 0 ops.

Lemma oal_wire x : oal x = wire_len x.
Proof. now destruct x. Qed.

Lemma write_head_cases x : op_typed x ->
  if bad_run x then snd (write_op_byte_and_size x) = Panic else exists hd, write_op_byte_and_size x = (hd, Ok tt).
Proof.
  intro Ht. destruct x as [bs|b n|s a n]; cbn [bad_run].
  - unfold write_op_byte_and_size. cbn [is_run assert_ negb].
    destruct (size_routine (oal (Add bs))); cbn; eexists; reflexivity.
  - destruct Ht as [_ Hn]. unfold write_op_byte_and_size, size_routine. cbn [is_run oal].
    destruct (n <=? 62) eqn:E1; cbn [assert_ wlift wbind].
    + destruct (1 <=? n) eqn:E2; cbn [andb].
      * replace ((n =? 0) || (62 <? n)) with false by lia. cbn. eexists; reflexivity.
      * replace ((n =? 0) || (62 <? n)) with true by lia. replace (n =? 63) with false by lia. reflexivity.
    + replace ((n =? 0) || (62 <? n)) with true by lia. reflexivity.
  - unfold write_op_byte_and_size. cbn [is_run assert_ negb].
    destruct (size_routine (oal (Copy s a n))); cbn; eexists; reflexivity.
Qed.

Definition min_delta (d o : Z) (x : op) : bool :=
  match x with Copy Dict a _ => d - a =? 2 ^ 63 | Copy Output a _ => o - a =? 2 ^ 63 | _ => false end.
Definition is_debug (m : mode) : bool := match m with Debug => true | Release => false end.

Lemma wbind_snd_panic {A B} (w : W A) (f : A -> W B) : snd w = Panic -> snd (wbind w f) = Panic.
Proof. destruct w as [o [a|e| |]]; cbn; congruence. Qed.

Lemma write_addtl_cases m x d o : op_typed x -> 0 <= d < 2 ^ 64 -> 0 <= o < 2 ^ 64 ->
  if is_debug m && min_delta d o x then snd (write_op_addtl m x d o) = Panic
  else exists tl, write_op_addtl m x d o = (tl, Ok (next_d d x, next_o o x)).
Proof.
  intros Ht Hd Ho.
  destruct x as [bs|b n|s a n]; cbn [min_delta]; rewrite ?andb_false_r.
  - cbn. eexists; reflexivity.
  - cbn. eexists; reflexivity.
  - destruct Ht as [Ha Hn].
    assert (G : forall cur, 0 <= cur < 2 ^ 64 ->
      if is_debug m && (cur - a =? 2 ^ 63) then diff_addresses_to_i64 m cur a = Panic
      else exists i db, diff_addresses_to_i64 m cur a = Ok i /\ write_i_varint i = (db, Ok tt)).
    { intros cur Hcur. destruct (delta_i64_cases m cur a Hcur Ha) as [(-> & E & H)|(E & i & H & Hi)].
      - cbn [is_debug andb]. now rewrite E.
      - replace (is_debug m && (cur - a =? 2 ^ 63)) with false by (destruct m; cbn; destruct E; lia || congruence).
        destruct (i_varint_roundtrip m i [] Hi) as (db & Hw & _). exists i, db. auto. }
    destruct s; cbn [write_op_addtl next_d next_o].
    + specialize (G d Hd). destruct (is_debug m && (d - a =? 2 ^ 63)).
      * rewrite G. reflexivity.
      * destruct G as (i & db & -> & Hw). cbn [wlift wbind]. rewrite Hw. cbn. eexists; reflexivity.
    + specialize (G o Ho). destruct (is_debug m && (o - a =? 2 ^ 63)).
      * rewrite G. reflexivity.
      * destruct G as (i & db & -> & Hw). cbn [wlift wbind]. rewrite Hw. cbn. eexists; reflexivity.
Qed.

Lemma has_min_delta_cons d o x r :
  has_min_delta d o (x :: r) = min_delta d o x || has_min_delta (next_d d x) (next_o o x) r.
Proof. reflexivity. Qed.

Lemma write_loop_cases m f : forall ops d o total addw adds, Forall op_typed ops -> 0 <= d < 2 ^ 64 -> 0 <= o < 2 ^ 64 ->
  if existsb bad_run ops || is_debug m && has_min_delta d o ops
  then snd (write_ops_loop m f ops d o total addw adds) = Panic
  else exists enc adds', write_ops_loop m f ops d o total addw adds =
         (enc, Ok (total + wires_len ops, addw + seg f (adds_len ops), adds')).
Proof.
  induction ops as [|x ops IH]; intros d o total addw adds Ht Hd Ho.
  - cbn. rewrite andb_false_r. exists [], adds. destruct f; cbn; rewrite ?Z.add_0_r; reflexivity.
  - apply Forall_cons_iff in Ht as [Hx Hops]. destruct (next_typed d o x Hd Ho Hx) as [Hd' Ho'].
    cbn [existsb write_ops_loop]. rewrite has_min_delta_cons.
    pose proof (write_head_cases x Hx) as Hh. destruct (bad_run x); cbn [orb].
    { apply wbind_snd_panic. exact Hh. }
    destruct Hh as (hd & Hh).
    assert (Hgen : forall (k : Z * Z -> W (Z * Z * list Z)),
       (forall da, da = (next_d d x, next_o o x) ->
          if existsb bad_run ops || is_debug m && has_min_delta (next_d d x) (next_o o x) ops then snd (k da) = Panic
          else exists enc adds', k da = (enc, Ok (total + wires_len (x :: ops), addw + seg f (adds_len (x :: ops)), adds'))) ->
       if existsb bad_run ops || is_debug m && (min_delta d o x || has_min_delta (next_d d x) (next_o o x) ops)
       then snd (dow _ <- write_op_byte_and_size x; dow da <- write_op_addtl m x d o; k da) = Panic
       else exists enc adds', (dow _ <- write_op_byte_and_size x; dow da <- write_op_addtl m x d o; k da) =
                (enc, Ok (total + wires_len (x :: ops), addw + seg f (adds_len (x :: ops)), adds'))).
    { intros k Hk. pose proof (write_addtl_cases m x d o Hx Hd Ho) as Ha.
      specialize (Hk _ eq_refl). rewrite Hh.
      destruct (is_debug m && min_delta d o x) eqn:Em.
      - apply andb_true_iff in Em as [-> ->]. cbn [andb orb]. rewrite orb_true_r.
        cbn [wbind]. destruct (write_op_addtl m x d o) as [w [y|e| |]]; cbn in Ha |- *; congruence.
      - destruct Ha as (tl & Ha). rewrite Ha.
        replace (is_debug m && (min_delta d o x || has_min_delta (next_d d x) (next_o o x) ops))
          with (is_debug m && has_min_delta (next_d d x) (next_o o x) ops)
          by (destruct (is_debug m), (min_delta d o x); cbn in *; congruence).
        destruct (existsb bad_run ops || is_debug m && has_min_delta (next_d d x) (next_o o x) ops).
        + cbn [wbind]. destruct (k (next_d d x, next_o o x)) as [w r]. cbn in Hk |- *. exact Hk.
        + destruct Hk as (enc & adds' & Hk). cbn [wbind]. rewrite Hk. eexists; eexists; reflexivity. }
    destruct (is_segregated f && is_add x) eqn:Ecase.
    + destruct f; [discriminate|]. destruct x as [bs|b n|s a n]; try discriminate.
      cbn [min_delta orb next_d next_o] in *.
      specialize (IH d o (total + oal (Add bs)) (addw + zlen bs) (adds ++ bs) Hops Hd Ho).
      destruct (existsb bad_run ops || is_debug m && has_min_delta d o ops).
      * rewrite Hh. cbn [wbind]. destruct (write_ops_loop m Segregated ops d o _ _ _) as [w r]. cbn in IH |- *. exact IH.
      * destruct IH as (enc & adds' & IH). rewrite Hh. cbn [wbind]. rewrite IH. eexists; exists adds'.
        rewrite oal_wire. cbn [seg wires_len fold_right]. rewrite adds_len_cons. cbn [add_len].
        fold (wires_len ops). rewrite <- !Z.add_assoc. reflexivity.
    + assert (Hstep : forall (w : W (Z * Z * list Z)), match f, x with
                 | Segregated, Add bs => w
                 | _, _ => dow da <- write_op_addtl m x d o;
                           write_ops_loop m f ops (fst da) (snd da) (total + oal x) addw adds end =
                 (dow da <- write_op_addtl m x d o;
                 write_ops_loop m f ops (fst da) (snd da) (total + oal x) addw adds)).
      { intro w. destruct f; [destruct x; reflexivity|]. destruct x; [discriminate|reflexivity|reflexivity]. }
      destruct f; [destruct x as [bs|b n|s a n]|destruct x as [bs|b n|s a n]; [discriminate| |]];
        (apply Hgen; intros da ->; cbn [fst snd];
         match goal with |- context[write_ops_loop m ?ff ops ?dd ?oo ?t ?aw ?ads] =>
           specialize (IH dd oo t aw ads Hops Hd' Ho') end;
         match goal with |- if ?c then _ else _ => destruct c end; [exact IH|];
         destruct IH as (enc & adds' & IH); exists enc, adds'; rewrite IH; rewrite oal_wire;
         rewrite adds_len_cons; cbn [seg wires_len fold_right add_len]; fold (wires_len ops);
         rewrite ?Z.add_0_l, <- ?Z.add_assoc; reflexivity).
Qed.

(** The five checks of the writer, in order, and its three outcomes. *)
Lemma write_ops_cases m ops h : Forall op_typed ops ->
  snd (write_ops m ops h) =
  if max_win_size <? h_osize h then Err InvalidData else
  if negb (zlen ops =? h_nops h) then Err InvalidData else
  if existsb bad_run ops || is_debug m && has_min_delta 0 0 ops then Panic else
  if is_segregated (h_format h) && negb (adds_len ops =? h_nadd h) then Err InvalidData else
  if negb (wires_len ops =? h_osize h) then Err InvalidData else Ok tt.
Proof.
  intro Ht. unfold write_ops, MAX_WIN_SIZE, max_win_size. rewrite Z.gtb_ltb.
  destruct (16777215 <? h_osize h); [reflexivity|].
  destruct (negb (zlen ops =? h_nops h)); [reflexivity|].
  pose proof (write_loop_cases m (h_format h) ops 0 0 0 0 [] Ht ltac:(lia) ltac:(lia)) as H.
  destruct (existsb bad_run ops || is_debug m && has_min_delta 0 0 ops).
  - destruct (write_ops_loop _ _ _ _ _ _ _ _) as [w r]. cbn in H |- *. now rewrite H.
  - destruct H as (enc & adds' & H). rewrite H. cbn [wbind]. rewrite !Z.add_0_l.
    destruct (is_segregated (h_format h)) eqn:Ef; cbn [andb].
    + destruct (h_format h); [discriminate|]. cbn [seg].
      destruct (negb (adds_len ops =? h_nadd h)); [reflexivity|].
      destruct (negb (wires_len ops =? h_osize h)); reflexivity.
    + destruct (negb (wires_len ops =? h_osize h)); reflexivity.
Qed.

Lemma wires_len_short ops : Forall (fun o => add_len o <= 65535) ops -> wires_len ops = ops_len ops.
Proof.
  induction 1 as [|x ops Hx _ IH]; [reflexivity|]. cbn [wires_len ops_len fold_right].
  fold (wires_len ops) (ops_len ops). rewrite IH. f_equal. destruct x as [bs|b n|s a n]; cbn in *; try reflexivity.
  apply Z.mod_small. pose proof (zlen_nonneg bs). lia.
Qed.

(** ** make_sections *)
Definition sections_ok (max : Z) (secs : list (list op * header)) : Prop :=
  Forall (fun s => h_comp (snd s) = 0 /\ h_format (snd s) = Interleaved /\ header_for (snd s) (fst s) /\
                   0 <= h_osize (snd s) <= max) secs /\
  flags_ok (map snd secs).

Lemma make_sections_loop_spec max : 65535 <= max < 2 ^ 32 -> forall ops cur osize nadd,
  (zlen cur + zlen ops < 2 ^ 32 \/ zlen cur <= osize /\ Forall (fun o => 1 <= op_len o) ops) -> Forall op_ok ops -> osize = ops_len cur -> nadd = adds_len cur -> 0 <= osize <= max ->
  exists s r, make_sections_loop max ops cur osize nadd = s :: r /\
    (exists t, fst s = cur ++ t /\ (cur = [] -> t = [] -> ops = [])) /\
    Forall (fun x => fst x <> []) r /\
    sections_ok max (s :: r) /\ concat (map fst (s :: r)) = cur ++ ops.
Proof.
  intro Hmax. induction ops as [|x ops IH]; intros cur osize nadd Hlen Hok Ho Ha Hr.
  - cbn. eexists; eexists. split; [reflexivity|]. split; [exists []; cbn; rewrite app_nil_r; auto|].
    split; [constructor|]. rewrite (@zlen_nil op) in Hlen. pose proof (zlen_nonneg cur).
    split; [|cbn; now rewrite !app_nil_r]. split; [|reflexivity].
    apply Forall_cons; [|apply Forall_nil]. cbn. unfold header_for. cbn. rewrite to_u32_id by lia. repeat (split; [reflexivity|]). auto.
  - apply Forall_cons_iff in Hok as [Hx Hops]. destruct (oal_op_ok x Hx) as [Hoal Hxl].
    cbn [make_sections_loop]. rewrite Hoal. rewrite zlen_cons in Hlen.
    pose proof (zlen_nonneg cur) as Hcur. pose proof (zlen_nonneg ops) as Hops'.
    assert (Hadd : (if is_add x then op_len x else 0) = add_len x) by (destruct x; reflexivity).
    destruct (osize + op_len x >? max) eqn:E.
    + destruct (IH [x] (op_len x) (if is_add x then op_len x else 0)) as (s & r & Hs & (t & Hst & Hne) & Hr2 & (Hsec & Hfl) & Hcat).
      * rewrite zlen_cons, (@zlen_nil op). destruct Hlen as [Hlen|[Hlen Hp]]; [left; lia|right]. inversion Hp; subst. split; [lia|assumption].
      * exact Hops.
      * cbn. lia.
      * rewrite Hadd. cbn. lia.
      * lia.
      * rewrite Hs. eexists; eexists. split; [reflexivity|].
        split; [exists []; cbn [fst section_of]; rewrite app_nil_r; split; [reflexivity|]|].
        { intros -> _. cbn in Ho. subst. lia. }
        split; [constructor; [rewrite Hst; discriminate|exact Hr2]|].
        split; [split|].
        -- constructor; [|exact Hsec]. cbn. repeat (split; [reflexivity|]). unfold header_for. cbn.
           rewrite to_u32_id by lia. auto.
        -- cbn [map snd section_of flags_ok]. destruct r; split; try reflexivity; exact Hfl.
        -- cbn [map concat fst section_of]. cbn [map concat fst] in Hcat. rewrite Hcat. reflexivity.
    + destruct (IH (cur ++ [x]) (osize + op_len x) (if is_add x then nadd + op_len x else nadd))
        as (s & r & Hs & (t & Hst & Hne) & Hr2 & Hsec & Hcat).
      * rewrite zlen_app, zlen_cons, (@zlen_nil op). destruct Hlen as [Hlen|[Hlen Hp]]; [left; lia|right]. inversion Hp; subst. split; [lia|assumption].
      * exact Hops.
      * rewrite ops_len_app. cbn. lia.
      * rewrite adds_len_app. cbn. destruct x; cbn in *; lia.
      * lia.
      * rewrite Hs. eexists; eexists. split; [reflexivity|].
        split; [exists (x :: t); rewrite Hst, <- app_assoc; split; [reflexivity|discriminate]|].
        split; [exact Hr2|]. split; [exact Hsec|]. rewrite Hcat, <- app_assoc. reflexivity.
Qed.

Lemma make_sections_spec ops n : Forall op_ok ops -> (zlen ops < 2 ^ 32 \/ Forall (fun o => 1 <= op_len o) ops) ->
  sections_ok (clamp_section n) (make_sections ops n) /\
  concat (map fst (make_sections ops n)) = ops /\
  (ops = [] -> make_sections ops n = [([], mkHeader 0 Interleaved false 0 0 0)]) /\
  (ops <> [] -> Forall (fun x => fst x <> []) (make_sections ops n)).
Proof.
  intros Hok Hlen. unfold make_sections.
  assert (E : to_u32 (Z.min (Z.max n MAX_INST_SIZE) MAX_WIN_SIZE) = clamp_section n).
  { unfold MAX_INST_SIZE, MAX_WIN_SIZE, clamp_section, max_inst_size, max_win_size. apply to_u32_id. lia. }
  rewrite E. assert (65535 <= clamp_section n < 2 ^ 32) by (unfold clamp_section, max_inst_size, max_win_size; lia).
  destruct (make_sections_loop_spec (clamp_section n) H ops [] 0 0) as (s & r & Hs & (t & Hst & Hne) & Hr2 & Hsec & Hcat);
    try (cbn; lia); try assumption; try reflexivity.
  { rewrite (@zlen_nil op). destruct Hlen as [Hlen|Hlen]; [left; lia|right; split; [lia|exact Hlen]]. }
  rewrite Hs. split; [exact Hsec|]. split; [exact Hcat|]. split.
  - intros ->. cbn in Hs. injection Hs as <- <-. reflexivity.
  - intro Hops. constructor; [|exact Hr2]. rewrite Hst. cbn. intro Ht. apply Hops. auto.
Qed.
Lemma make_sections_loop_nonempty max : forall ops cur osize nadd, make_sections_loop max ops cur osize nadd <> [].
Proof. induction ops as [|x ops IH]; intros; cbn; [discriminate|]. destruct (_ >? _); [discriminate|apply IH]. Qed.
Lemma make_sections_nonempty ops n : make_sections ops n <> [].
Proof. apply make_sections_loop_nonempty. Qed.

(** ** What a successful read guarantees *)
Lemma arith_debug wrap v x : arith Debug wrap v = Ok x -> x = v /\ wrap v = v.
Proof. unfold arith. destruct (wrap v =? v) eqn:E; intro H; [|discriminate]. injection H as <-. lia. Qed.
Lemma arith_u32 m v x : arith m to_u32 v = Ok x -> x = v mod 2 ^ 32 /\ (m = Debug -> x = v).
Proof.
  unfold arith. destruct (to_u32 v =? v) eqn:E.
  - intro H. injection H as <-. unfold to_u32 in E. lia.
  - destruct m; intro H; [discriminate|]. injection H as <-. split; [reflexivity|discriminate].
Qed.

Lemma Forall_byte_inv bs c r : Forall is_byte bs -> bs = c ++ r -> Forall is_byte c /\ Forall is_byte r.
Proof. intros H ->. now apply Forall_app in H. Qed.

Lemma read_u_varint_loop_bytes m bs : forall r s v rest, Forall is_byte bs -> read_u_varint_loop m r s bs = Ok (v, rest) ->
  Forall is_byte rest.
Proof.
  induction bs as [|b bs IH]; intros r s v rest Hb H; cbn [read_u_varint_loop] in H; [discriminate|].
  apply bind_ok in H as (x & Hx & H). apply Forall_cons_iff in Hb as [_ Hb].
  destruct (Z.land b 128 =? 0); [injection H as <- <-; exact Hb|]. exact (IH _ _ _ _ Hb H).
Qed.
Lemma read_exact_bytes n bs c r : Forall is_byte bs -> read_exact n bs = Ok (c, r) -> Forall is_byte c /\ Forall is_byte r /\
  zlen c = Z.max 0 n.
Proof.
  intros Hb H. unfold read_exact in H. destruct (n <=? zlen bs) eqn:E; [|discriminate]. injection H as <- <-.
  split; [now apply Forall_take|]. split; [now apply Forall_drop|]. rewrite zlen_take_min. pose proof (zlen_nonneg bs). lia.
Qed.
Lemma diff_u64_range m c i a : diff_addresses_to_u64 m c i = Ok a -> 0 <= a < 2 ^ 64.
Proof.
  unfold diff_addresses_to_u64. destruct (i >=? 0).
  - intro H. injection H as <-. apply to_u64_range.
  - intro H. apply bind_ok in H as (x & _ & H). injection H as <-. apply to_u64_range.
Qed.

Lemma land_63_range b : is_byte b -> 0 <= Z.land b SIZE_MASK <= 63.
Proof.
  intro H. pose proof (byte_sweep (fun b => (0 <=? Z.land b SIZE_MASK) && (Z.land b SIZE_MASK <=? 63)) eq_refl b H) as E.
  cbv beta in E. lia.
Qed.

Lemma read_op_ok m d o inter bs x d' o' rest : Forall is_byte bs -> read_op m d o inter bs = Ok (x, d', o', rest) ->
  op_ok x /\ Forall is_byte rest.
Proof.
  intros Hb H. unfold read_op in H. apply bind_ok in H as ([[ot sz] bs1] & H1 & H).
  unfold read_op_byte in H1. destruct bs as [|b bs]; [discriminate|]. cbn [read_u8 bind] in H1.
  apply Forall_cons_iff in Hb as [Hb0 Hb].
  assert (E1 : bs1 = bs /\ sz = size_routine (Z.land b SIZE_MASK)).
  { repeat match type of H1 with context[if ?c then _ else _] => destruct c end; try discriminate; injection H1 as _ <- <-; auto. }
  destruct E1 as [-> ->]. clear H1. pose proof (land_63_range b Hb0) as Hs.
  apply bind_ok in H as ([] & H2 & H). apply bind_ok in H as ([n bs2] & H3 & H).
  assert (Hn : 0 <= n <= 65535 /\ Forall is_byte bs2 /\ (ot = TRun -> 1 <= n <= 62)).
  { unfold size_routine in *. destruct ((1 <=? Z.land b SIZE_MASK) && (Z.land b SIZE_MASK <=? 62)) eqn:E1.
    - injection H3 as <- <-. split; [lia|]. split; [assumption|lia].
    - destruct (Z.land b SIZE_MASK =? 63).
      + destruct bs as [|c bs]; cbn in H3; [discriminate|]. injection H3 as <- <-.
        apply Forall_cons_iff in Hb as [Hc Hb]. unfold is_byte in Hc. split; [lia|]. split; [assumption|].
        intros ->. discriminate.
      + destruct bs as [|c [|c2 bs]]; cbn in H3; try discriminate. injection H3 as <- <-.
        apply Forall_cons_iff in Hb as [Hc Hb]. apply Forall_cons_iff in Hb as [Hc2 Hb]. unfold is_byte in *.
        split; [lia|]. split; [assumption|]. intros ->. discriminate. }
  clear H3. destruct Hn as (Hn & Hb2 & Hrun). destruct ot as [s| |].
  - apply bind_ok in H as ([i bs3] & H4 & H).
    assert (Hb3 : Forall is_byte bs3).
    { unfold read_i_varint in H4. apply bind_ok in H4 as ([z r] & H4 & H5). injection H5 as _ <-.
      exact (read_u_varint_loop_bytes _ _ _ _ _ _ Hb2 H4). }
    destruct s; apply bind_ok in H as (a & Ha & H); apply diff_u64_range in Ha; injection H as <- <- <- <-;
      (split; [|exact Hb3]); split; cbn; lia.
  - destruct inter.
    + apply bind_ok in H as ([c r] & H4 & H). injection H as <- <- <- <-.
      destruct (read_exact_bytes _ _ _ _ Hb2 H4) as (Hc & Hr & Hl). split; [|exact Hr]. split; cbn; [exact Hc|lia].
    + injection H as <- <- <- <-. split; [|exact Hb2]. split; cbn.
      * apply Forall_rep. unfold is_byte; lia.
      * rewrite zlen_rep. lia.
  - destruct bs2 as [|c bs2]; cbn in H; [discriminate|]. injection H as <- <- <- <-.
    apply Forall_cons_iff in Hb2 as [Hc Hb2]. split; [|exact Hb2]. specialize (Hrun eq_refl).
    split; cbn; [unfold is_byte in *; lia|lia].
Qed.

Lemma read_loop_ok m f : forall fuel n d o cs nadd bs ops cs' nadd' rest, Forall is_byte bs ->
  read_ops_loop fuel m f n d o cs nadd bs = Ok (ops, cs', nadd', rest) ->
  zlen ops = Z.max 0 n /\ Forall op_ok ops /\ Forall is_byte rest /\
  cs' mod 2 ^ 32 = (cs + ops_len ops) mod 2 ^ 32 /\ (m = Debug -> cs' = cs + ops_len ops) /\
  (0 <= cs < 2 ^ 32 -> 0 <= cs' < 2 ^ 32).
Proof.
  induction fuel as [|k IH]; intros n d o cs nadd bs ops cs' nadd' rest Hb H; cbn [read_ops_loop] in H;
    destruct (n <=? 0) eqn:En; try discriminate.
  1-2: injection H as <- <- <- <-; cbn; repeat split; auto; try lia; try (f_equal; lia).
  apply bind_ok in H as ([[[x d'] o'] bs1] & H1 & H). destruct (read_op_ok _ _ _ _ _ _ _ _ _ Hb H1) as [Hx Hb1].
  apply bind_ok in H as (cs1 & H2 & H). apply bind_ok in H as (na1 & H3 & H).
  apply bind_ok in H as ([[[ops2 cs2] na2] bs2] & H4 & H). injection H as <- <- <- <-.
  destruct (IH _ _ _ _ _ _ _ _ _ _ Hb1 H4) as (Hl & Hok & Hbr & Hcs & Hcd & Hrg).
  destruct (oal_op_ok x Hx) as [Hoal Hxl]. rewrite Hoal in H2. apply arith_u32 in H2 as [E1 E2].
  rewrite zlen_cons, ops_len_cons.
  split; [lia|]. split; [now constructor|]. split; [exact Hbr|]. split; [|split].
  - rewrite Hcs, E1, Zplus_mod_idemp_l. f_equal. lia.
  - intro Hm. rewrite (Hcd Hm), (E2 Hm). lia.
  - intro Hc. apply Hrg. rewrite E1. pose proof (Z.mod_pos_bound (cs + op_len x) (2 ^ 32) ltac:(lia)). lia.
Qed.

Lemma fill_adds_ok : forall ops bs ops' rest, Forall op_ok ops -> Forall is_byte bs -> fill_adds ops bs = Ok (ops', rest) ->
  Forall op_ok ops' /\ zlen ops' = zlen ops /\ ops_len ops' = ops_len ops /\ adds_len ops' = adds_len ops.
Proof.
  induction ops as [|x ops IH]; intros bs ops' rest Hok Hb H.
  - injection H as <- <-. auto.
  - apply Forall_cons_iff in Hok as [Hx Hok].
    destruct x as [z|b n|s a n]; cbn [fill_adds] in H.
    + apply bind_ok in H as ([c r] & H1 & H). apply bind_ok in H as ([ops2 r2] & H2 & H). injection H as <- <-.
      destruct (read_exact_bytes _ _ _ _ Hb H1) as (Hc & Hr & Hl). pose proof (zlen_nonneg z).
      destruct (IH _ _ _ Hok Hr H2) as (G1 & G2 & G3 & G4). destruct Hx as [Hx1 Hx2]. cbn in Hx2.
      split; [constructor; [split; cbn; [exact Hc|lia]|exact G1]|].
      rewrite !zlen_cons, !ops_len_cons, !adds_len_cons. cbn [op_len add_len]. lia.
    + apply bind_ok in H as ([ops2 r2] & H2 & H). injection H as <- <-.
      destruct (IH _ _ _ Hok Hb H2) as (G1 & G2 & G3 & G4). split; [now constructor|].
      rewrite !zlen_cons, !ops_len_cons, !adds_len_cons. cbn [op_len add_len]. lia.
    + apply bind_ok in H as ([ops2 r2] & H2 & H). injection H as <- <-.
      destruct (IH _ _ _ Hok Hb H2) as (G1 & G2 & G3 & G4). split; [now constructor|].
      rewrite !zlen_cons, !ops_len_cons, !adds_len_cons. cbn [op_len add_len]. lia.
Qed.

Lemma read_ops_no_comp_ok m h bs ops h' rest : Forall is_byte bs -> 0 <= h_nops h -> 0 <= h_osize h < 2 ^ 32 ->
  read_ops_no_comp m h bs = Ok (ops, h', rest) ->
  zlen ops = h_nops h /\ h_nops h' = h_nops h /\ h_osize h' = h_osize h /\ h_more h' = h_more h /\
  h_format h' = h_format h /\ h_comp h' = h_comp h /\
  h_osize h = ops_len ops mod 2 ^ 32 /\ (m = Debug -> h_osize h = ops_len ops) /\ Forall op_ok ops.
Proof.
  intros Hb Hn Ho H. unfold read_ops_no_comp in H. apply bind_ok in H as ([[[ops1 cs] nadd] bs1] & H1 & H).
  destruct (read_loop_ok _ _ _ _ _ _ _ _ _ _ _ _ _ Hb H1) as (Hl & Hok & Hb1 & Hcs & Hcd & Hrg).
  destruct (negb (cs =? h_osize h)) eqn:E; [discriminate|].
  assert (cs = h_osize h) by lia. rewrite Z.add_0_l in *. rewrite (Z.mod_small cs) in Hcs by lia.
  destruct (h_format h) eqn:Ef.
  - injection H as <- <- <-. repeat split; auto; try lia.
  - apply bind_ok in H as ([ops2 r2] & H2 & H). injection H as <- <- <-.
    destruct (fill_adds_ok _ _ _ _ Hok Hb1 H2) as (G1 & G2 & G3 & G4).
    cbn. rewrite G2, G3. repeat split; auto; try lia.
Qed.

Lemma read_header_ok m bs h rest : Forall is_byte bs -> read_section_header m bs = Ok (h, rest) ->
  0 <= h_nops h < 2 ^ 32 /\ 0 <= h_osize h < 2 ^ 32 /\ 0 <= h_comp h <= 7 /\ 0 <= h_nadd h < 2 ^ 32 /\ Forall is_byte rest /\
  (h_format h = Interleaved -> h_nadd h = 0).
Proof.
  intros Hb H. unfold read_section_header in H. destruct bs as [|b bs]; [discriminate|]. cbn [read_u8 bind] in H.
  apply Forall_cons_iff in Hb as [Hb0 Hb].
  apply bind_ok in H as ([n bs1] & H1 & H). pose proof (read_u_varint_loop_bytes _ _ _ _ _ _ Hb H1) as Hb1.
  apply bind_ok in H as ([na bs2] & H2 & H). apply bind_ok in H as ([s bs3] & H3 & H).
  apply bind_ok in H as (osz & H4 & H). injection H as <- <-. cbn [h_nops h_osize h_comp h_nadd h_format].
  pose proof (byte_sweep (fun b => let c := Z.shiftr (Z.land b SECTION_COMPRESSION_MASK) SECTION_COMPRESSION_RSHIFT in
                          (0 <=? c) && (c <=? 7)) eq_refl b Hb0) as Hc. cbv beta zeta in Hc.
  assert (Hna : 0 <= na < 2 ^ 32 /\ Forall is_byte bs2 /\
    ((if Z.land b SECTION_FORMAT_BIT =? SECTION_FORMAT_BIT then Segregated else Interleaved) = Interleaved -> na = 0)).
  { destruct (Z.land b SECTION_FORMAT_BIT =? SECTION_FORMAT_BIT); cbn [is_segregated] in H2.
    - apply bind_ok in H2 as ([a r] & H5 & H2). injection H2 as <- <-. split; [apply to_u32_range|].
      split; [exact (read_u_varint_loop_bytes _ _ _ _ _ _ Hb1 H5)|discriminate].
    - injection H2 as <- <-. split; [lia|]. auto. }
  destruct Hna as (Hna & Hb2 & Hna0).
  split; [apply to_u32_range|]. split; [|split; [|split; [exact Hna|split; [exact (read_u_varint_loop_bytes _ _ _ _ _ _ Hb2 H3)|exact Hna0]]]].
  - destruct (is_segregated _).
    + apply arith_u32 in H4 as [-> _]. apply to_u32_range.
    + injection H4 as <-. apply to_u32_range.
  - lia.
Qed.

Lemma read_section_ok m bs ops h rest : Forall is_byte bs -> read_section m bs = Ok (ops, h, rest) ->
  zlen ops = h_nops h /\ h_osize h = ops_len ops mod 2 ^ 32 /\ (m = Debug -> h_osize h = ops_len ops) /\ Forall op_ok ops.
Proof.
  intros Hb H. unfold read_section in H. apply bind_ok in H as ([h0 bs1] & H1 & H).
  destruct (read_header_ok _ _ _ _ Hb H1) as (Hn & Ho & _ & _ & Hb1 & _).
  destruct (read_ops_no_comp_ok _ _ _ _ _ _ Hb1 (proj1 Hn) Ho H) as (G1 & G2 & G3 & _ & _ & _ & G4 & G5 & G6).
  rewrite G2, G3. auto.
Qed.
