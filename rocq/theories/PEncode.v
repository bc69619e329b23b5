(** Proofs about encode (lib.rs) and section_writer (writer.rs): what a successful encode wrote. *)
From Verif Require Import Base Spec SpecEnc MCommon MWriter MReader MDecoder MOpMaker MTrgtMatcher MSrcMatcher MEncInner MEncode
  SpecApi PBase PCommon PStream PSection PWriter PDecoder PPatch POpMaker PEncInner.
Ltac Zify.zify_post_hook ::= idtac.
Arguments Z.add : simpl never.
Arguments Z.sub : simpl never.
Arguments Z.mul : simpl never.
Arguments Z.pow : simpl never.

Lemma wlift_inv {A} (r : res A) o a : wlift r = (o, Ok a) -> o = [] /\ r = Ok a.
Proof. unfold wlift. intro H. inversion H. auto. Qed.

(** ** What is written does not depend on the build mode *)
Lemma arith_mono m wrap v x : arith Debug wrap v = Ok x -> arith m wrap v = Ok x.
Proof. unfold arith. destruct (wrap v =? v); [auto|discriminate]. Qed.
Lemma diff_i64_mono m c t x : diff_addresses_to_i64 Debug c t = Ok x -> diff_addresses_to_i64 m c t = Ok x.
Proof. unfold diff_addresses_to_i64. destruct (t >? c); [auto|apply arith_mono]. Qed.
Lemma write_addtl_mono m x d o b r : write_op_addtl Debug x d o = (b, Ok r) -> write_op_addtl m x d o = (b, Ok r).
Proof.
  intro H. destruct x as [bs|c n|[] a n]; cbn [write_op_addtl] in *; try exact H;
    apply wbind_ok in H as (o1 & i & o2 & Hi & Hr & ->); apply wlift_inv in Hi as [-> Hi];
    apply (diff_i64_mono m) in Hi; rewrite Hi; unfold wlift at 1; cbn [wbind app]; rewrite Hr; reflexivity.
Qed.
Lemma write_loop_mono m f : forall ops d o t a ad b r, write_ops_loop Debug f ops d o t a ad = (b, Ok r) ->
  write_ops_loop m f ops d o t a ad = (b, Ok r).
Proof.
  induction ops as [|x ops IH]; intros d o t a ad b r H; cbn [write_ops_loop] in *; [exact H|].
  apply wbind_ok in H as (o1 & u & o2 & Hh & Hr & ->). rewrite Hh.
  assert (G : forall w, w = (o2, Ok r) -> wbind (o1, Ok u) (fun _ => w) = (o1 ++ o2, Ok r)) by (intros w ->; reflexivity).
  destruct f, x as [bs|c n|s ad' n]; apply G; try (apply IH; exact Hr);
    apply wbind_ok in Hr as (o3 & da & o4 & Hw & Hr & ->); apply (write_addtl_mono m) in Hw; rewrite Hw; cbn [wbind];
    apply IH in Hr; rewrite Hr; reflexivity.
Qed.
Lemma write_ops_mono m ops h b : write_ops Debug ops h = (b, Ok tt) -> write_ops m ops h = (b, Ok tt).
Proof.
  unfold write_ops. destruct (h_osize h >? MAX_WIN_SIZE); [discriminate|].
  destruct (negb (zlen ops =? h_nops h)); [discriminate|]. intro H.
  apply wbind_ok in H as (o1 & [[t a] ad] & o2 & Hh & Hr & ->). apply (write_loop_mono m) in Hh. rewrite Hh.
  cbn [wbind]. rewrite Hr. reflexivity.
Qed.

(** ** Bytes and size of what is written *)
Lemma u_varint_buf_bytes : forall k n b, 0 <= n -> u_varint_buf k n = Ok b -> Forall is_byte b /\ zlen b <= Z.of_nat k.
Proof.
  induction k as [|k IH]; intros n b Hn H; cbn [u_varint_buf] in H; [discriminate|].
  destruct (n >=? 128).
  - apply bind_ok in H as (r & Hr & H). injection H as <-. apply IH in Hr as [H1 H2]; [|apply Z.shiftr_nonneg; exact Hn].
    split; [constructor; [apply to_u8_range|exact H1]|]. rewrite zlen_cons. lia.
  - injection H as <-. split; [constructor; [apply to_u8_range|constructor]|]. rewrite zlen_cons, (@zlen_nil Z). lia.
Qed.
Lemma write_u_varint_bytes n b : 0 <= n -> write_u_varint n = (b, Ok tt) -> Forall is_byte b /\ zlen b <= 10.
Proof.
  unfold write_u_varint. intros Hn H. apply wbind_ok in H as (o1 & x & o2 & Hx & Hr & ->).
  apply wlift_inv in Hx as [-> Hx]. unfold wput in Hr. injection Hr as <-. cbn [app].
  apply (u_varint_buf_bytes 10 n x Hn Hx).
Qed.
Lemma zigzag_encode_nonneg i : 0 <= zigzag_encode i.
Proof. unfold zigzag_encode. pose proof (to_u64_range (Z.lxor (to_i64 (Z.shiftl i 1)) (Z.shiftr i 63))). lia. Qed.

Lemma write_addtl_bytes m x d o b r : op_ok x -> write_op_addtl m x d o = (b, Ok r) -> Forall is_byte b /\ zlen b <= 10 + add_len x.
Proof.
  intros Hok H. destruct x as [bs|c n|[] a n]; cbn [write_op_addtl] in H.
  - unfold wput, wlift in H. cbn [wbind] in H. rewrite app_nil_r in H. injection H as <- _. split; [apply Hok|]. cbn. lia.
  - unfold write_u8, wput, wlift in H. cbn [wbind app] in H. injection H as <- _. destruct Hok as [[Hb _] _].
    split; [constructor; [exact Hb|constructor]|]. cbn [add_len]. rewrite zlen_cons, (@zlen_nil Z). lia.
  - apply wbind_ok in H as (o1 & i & o2 & Hi & Hr & ->). apply wlift_inv in Hi as [-> Hi]. cbn [app].
    apply wbind_ok in Hr as (o3 & [] & o4 & Hw & Hr & ->). apply wlift_inv in Hr as [-> _]. rewrite app_nil_r.
    unfold write_i_varint in Hw. apply write_u_varint_bytes in Hw; [|apply zigzag_encode_nonneg]. cbn [add_len]. split; [apply Hw|lia].
  - apply wbind_ok in H as (o1 & i & o2 & Hi & Hr & ->). apply wlift_inv in Hi as [-> Hi]. cbn [app].
    apply wbind_ok in Hr as (o3 & [] & o4 & Hw & Hr & ->). apply wlift_inv in Hr as [-> _]. rewrite app_nil_r.
    unfold write_i_varint in Hw. apply write_u_varint_bytes in Hw; [|apply zigzag_encode_nonneg]. cbn [add_len]. split; [apply Hw|lia].
Qed.
Lemma write_head_bytes x b : op_ok x -> write_op_byte_and_size x = (b, Ok tt) -> Forall is_byte b /\ zlen b <= 3.
Proof.
  intros Hok H. destruct (write_op_head x Hok) as (s & sb & E & Hs & _). rewrite H in E. injection E as ->.
  destruct (size_enc_range _ _ _ Hs) as (H1 & _ & H2).
  assert (0 <= type_code x <= 3) by (destruct x as [| |[]]; cbn; lia).
  split; [constructor; [unfold is_byte; lia|exact H2]|]. rewrite zlen_cons.
  destruct Hs; rewrite ?zlen_cons, (@zlen_nil Z); lia.
Qed.
Lemma write_loop_bytes m f : forall ops d o t a ad b t' a' ad', Forall op_ok ops -> Forall is_byte ad ->
  write_ops_loop m f ops d o t a ad = (b, Ok (t', a', ad')) ->
  Forall is_byte b /\ Forall is_byte ad' /\ zlen b + zlen ad' <= 13 * zlen ops + adds_len ops + zlen ad.
Proof.
  induction ops as [|x ops IH]; intros d o t a ad b t' a' ad' Hok Had H; cbn [write_ops_loop] in H.
  - unfold wlift in H. injection H as <- <- <- <-. split; [constructor|]. split; [exact Had|].
    rewrite (@zlen_nil Z), (@zlen_nil op). unfold adds_len. cbn [fold_right]. lia.
  - apply Forall_cons_iff in Hok as [Hx Hok]. apply wbind_ok in H as (o1 & [] & o2 & Hh & Hr & ->).
    apply write_head_bytes in Hh as [Hh1 Hh2]; [|exact Hx]. rewrite zlen_app, (zlen_cons x), adds_len_cons.
    assert (G : forall d o t, (dow da <- write_op_addtl m x d o; write_ops_loop m f ops (fst da) (snd da) t a ad) = (o2, Ok (t', a', ad')) ->
       Forall is_byte (o1 ++ o2) /\ Forall is_byte ad' /\ zlen o1 + zlen o2 + zlen ad' <= 13 * (1 + zlen ops) + (add_len x + adds_len ops) + zlen ad).
    { clear Hr. intros d1 o1' t1 Hr. apply wbind_ok in Hr as (o3 & da & o4 & Hw & Hr & ->).
      apply write_addtl_bytes in Hw as [Hw1 Hw2]; [|exact Hx]. apply IH in Hr as (H1 & H2 & H3); [|exact Hok|exact Had].
      split; [repeat (apply Forall_app; split); assumption|]. split; [exact H2|]. rewrite zlen_app. lia. }
    destruct f; [eapply G; exact Hr|]. destruct x as [bs|c n|s a1 n]; try (eapply G; exact Hr).
    apply IH in Hr as (H1 & H2 & H3); [|exact Hok|apply Forall_app; split; [exact Had|apply Hx]].
    split; [apply Forall_app; split; assumption|]. split; [exact H2|]. rewrite zlen_app in H3. cbn [add_len]. lia.
Qed.
Lemma write_ops_bytes m ops h b : Forall op_ok ops -> write_ops m ops h = (b, Ok tt) ->
  Forall is_byte b /\ zlen b <= 13 * zlen ops + adds_len ops.
Proof.
  unfold write_ops. intros Hok H. destruct (h_osize h >? MAX_WIN_SIZE); [discriminate|].
  destruct (negb (zlen ops =? h_nops h)); [discriminate|].
  apply wbind_ok in H as (o1 & [[t a] ad] & o2 & Hh & Hr & ->).
  apply write_loop_bytes in Hh as (H1 & H2 & H3); [|exact Hok|constructor]. rewrite (@zlen_nil Z) in H3.
  assert (E : o2 = [] \/ o2 = ad).
  { apply wbind_ok in Hr as (o3 & [] & o4 & Hs & Hr & ->).
    destruct (negb (t =? h_osize h)); unfold wlift in Hr; [discriminate|]. injection Hr as <-. rewrite app_nil_r.
    destruct (is_segregated (h_format h)).
    - unfold wput in Hs. cbn [wbind] in Hs. destruct (negb (a =? h_nadd h)); unfold wlift in Hs; [discriminate|].
      rewrite app_nil_r in Hs. injection Hs as <-. auto.
    - unfold wlift in Hs. injection Hs as <-. auto. }
  pose proof (zlen_nonneg ad). destruct E as [->| ->].
  - rewrite app_nil_r. split; [exact H1|lia].
  - split; [apply Forall_app; auto|]. rewrite zlen_app. lia.
Qed.

(** ** Sections an encoder writes *)
(** One section to be written: legal operations, a matching header. *)
Definition sec_in (f : format) (max : Z) (s : list op * header) : Prop :=
  Forall op_ok (fst s) /\ deltas_ok 0 0 (fst s) /\ h_comp (snd s) = 0 /\ h_format (snd s) = f /\
  header_typed (snd s) /\ header_matches (snd s) (fst s) /\ h_osize (snd s) <= max.

Definition sec_good (next : next_t) (b : list Z) (ops : list op) (h : header) : Prop :=
  b <> [] /\ forall t, exists h', next (b ++ t) = Ok (ops, h', t) /\ header_back h ops h'.

Lemma good_ok ops : Forall op_good ops -> Forall op_ok ops.
Proof. intro H. eapply Forall_impl; [|exact H]. intros x Hx. apply Hx. Qed.
Lemma good_zlen ops : Forall op_good ops -> zlen ops <= ops_len ops.
Proof.
  induction 1 as [|x l [_ Hx] _ IH]; [cbn; lia|]. rewrite zlen_cons, ops_len_cons. lia.
Qed.

(** Writing a header (with any algorithm) and the operations. *)
Lemma sec_write f ops h a : sec_in f max_win_size (ops, h) -> 0 <= a <= 7 ->
  exists hb ob, (forall m, write_section_header m (set_comp h a) = (hb, Ok tt)) /\
    (forall m, write_ops m ops (set_comp h a) = (ob, Ok tt)) /\ hb <> [] /\
    Forall is_byte ob /\ zlen ob < 2 ^ 63 /\
    (forall m rest, read_section_header m (hb ++ rest) = Ok (read_back (set_comp h a), rest)) /\
    (forall m rest, exists h', read_ops_no_comp m (read_back (set_comp h a)) (ob ++ rest) = Ok (ops, h', rest) /\
        header_back (set_comp h a) ops h').
Proof.
  intros (Hok & Hd & Hc & Hf & (_ & Hty1 & Hty2 & Hty3) & Hm0 & Hmax) Hr. cbn [fst snd] in *.
  pose proof (adds_len_bounds _ Hok) as Hal. pose proof (zlen_nonneg ops) as Hzn.
  pose proof Hm0 as (Hmx & Hn & Ho & Ha). unfold max_win_size in Hmx.
  assert (Hmat : header_matches (set_comp h a) ops).
  { exact Hm0. }
  assert (X : forall m, exists hb ob, write_section_header m (set_comp h a) = (hb, Ok tt) /\ write_ops m ops (set_comp h a) = (ob, Ok tt) /\ hb <> [] /\
    (forall rest, read_section_header m (hb ++ rest) = Ok (read_back (set_comp h a), rest)) /\
    (forall rest, exists h', read_ops_no_comp m (read_back (set_comp h a)) (ob ++ rest) = Ok (ops, h', rest) /\ header_back (set_comp h a) ops h')).
  { intro m. destruct (section_roundtrip m ops (set_comp h a) Hok (or_intror Hd)) as (hb & ob & E1 & E2 & Hne & Hrh & Hrs);
      [exact Hr|exact Hty2|lia|exact Hmat|].
    exists hb, ob. repeat (split; [assumption|]). intro rest. destruct (Hrs rest) as (h' & E & G).
    unfold read_section in E. rewrite Hrh in E. cbn [bind] in E. exists h'. split; [exact E|exact G]. }
  destruct (X Debug) as (hb & ob & E1 & E2 & Hne & Hrd1 & Hrd2).
  assert (Eh : forall m, write_section_header m (set_comp h a) = (hb, Ok tt)).
  { intro m. clear - E1. unfold write_section_header in *.
    repeat match goal with
    | |- context[is_segregated ?x] => destruct (is_segregated x)
    end.
    - apply wbind_ok in E1 as (o1 & u1 & o2 & A1 & E1 & ->). rewrite A1. cbn [wbind].
      apply wbind_ok in E1 as (o3 & u2 & o4 & A2 & E1 & ->). rewrite A2. cbn [wbind].
      apply wbind_ok in E1 as (o5 & v & o6 & A3 & E1 & ->).
      apply wbind_ok in A3 as (o7 & u3 & o8 & A4 & A3 & ->). rewrite A4. cbn [wbind].
      apply wlift_inv in A3 as [-> A3]. apply (arith_mono m) in A3. rewrite A3. unfold wlift. cbn [wbind]. rewrite E1. reflexivity.
    - exact E1. }
  pose proof (fun m => write_ops_mono m _ _ _ E2) as Eo.
  destruct (write_ops_bytes Debug ops _ _ Hok E2) as [Hb1 Hb2].
  exists hb, ob. split; [exact Eh|]. split; [exact Eo|]. split; [exact Hne|]. split; [exact Hb1|]. split; [lia|]. split.
  - intros m rest. destruct (X m) as (hb' & ob' & E1' & _ & _ & Hr1 & _). rewrite Eh in E1'. injection E1' as <-. apply Hr1.
  - intros m rest. destruct (X m) as (hb' & ob' & _ & E2' & _ & _ & Hr2). rewrite Eo in E2'. injection E2' as <-. apply Hr2.
Qed.

(** Lists of sections *)
Inductive secs_good (next : next_t) : list (list op * header) -> list Z -> Prop :=
| sg_last ops h b : sec_good next b ops h -> h_more h = false -> secs_good next [(ops, h)] b
| sg_more ops h b secs bs : sec_good next b ops h -> h_more h = true -> secs_good next secs bs -> secs_good next ((ops, h) :: secs) (b ++ bs).

Lemma secs_good_stream next secs bs : secs_good next secs bs -> stream_of false next (map fst secs) bs.
Proof.
  assert (S : forall b ops h, sec_good next b ops h -> sec_at false next b ops (h_more h)).
  { intros b ops h [H1 H2]. split; [exact H1|]. split; [|discriminate]. intro t. destruct (H2 t) as (h' & E & G). exists h'. split; [exact E|apply G]. }
  induction 1 as [ops h b Hg Hm|ops h b secs bs Hg Hm Hs IH]; cbn [map fst]; [apply so_last|apply so_more; [|exact IH]]; apply S in Hg; rewrite Hm in Hg; exact Hg.
Qed.

(** ** Addresses stay small *)
Definition addrs_lt (B : Z) (ops : list op) : Prop := Forall (fun x => match x with Copy _ a _ => 0 <= a < B | _ => True end) ops.
Lemma addrs_deltas B : B <= 2 ^ 63 -> forall ops d o, addrs_lt B ops -> 0 <= d < 2 ^ 63 -> 0 <= o < 2 ^ 63 -> deltas_ok d o ops.
Proof.
  intro HB. induction ops as [|x ops IH]; intros d o H Hd Ho; cbn [deltas_ok]; [exact I|].
  apply Forall_cons_iff in H as [Hx H]. destruct x as [bs|c n|[] a n]; cbn [next_d next_o]; (split; [try exact I; lia|]);
    apply IH; try assumption; lia.
Qed.
Lemma run_ops_addrs d B : zlen d <= B -> forall ops out o, run_ops d out ops = Some o -> Forall op_good ops -> zlen o <= B ->
  addrs_lt B ops.
Proof.
  intro HB. induction ops as [|x ops IH]; intros out o H Hg Ho; [constructor|]. cbn [run_ops] in H.
  apply Forall_cons_iff in Hg as [Hx Hg]. destruct (op_bytes d out x) as [b|] eqn:E; [|discriminate].
  constructor; [|eapply IH; eassumption].
  pose proof (run_ops_len d ops _ _ (ops_ok_nonneg _ (good_ok _ Hg)) H) as L.
  pose proof (ops_len_nonneg _ (good_ok _ Hg)) as Ln. rewrite zlen_app in L. pose proof (zlen_nonneg b).
  destruct Hx as [[Ht _] Hl]. destruct x as [bs|c n|[] a n]; cbn [op_len op_typed op_bytes] in *; try exact I.
  - unfold in_range in E. destruct ((n =? 0) || (0 <=? a) && (a + n <=? zlen d)) eqn:R; [lia|discriminate].
  - unfold in_range in E. destruct ((n =? 0) || (0 <=? a) && (a + n <=? zlen out)) eqn:R; [lia|discriminate].
Qed.
Lemma addrs_concat B secs : addrs_lt B (concat secs) -> Forall (addrs_lt B) secs.
Proof. induction secs as [|s secs IH]; [constructor|]. cbn. intro H. apply Forall_app in H as [H1 H2]. constructor; auto. Qed.
Lemma Forall_concat_inv {A} (P : A -> Prop) secs : Forall P (concat secs) -> Forall (Forall P) secs.
Proof. induction secs as [|s secs IH]; [constructor|]. cbn. intro H. apply Forall_app in H as [H1 H2]. constructor; auto. Qed.

(** ** encode with an abstract section writer *)
Definition sec_with (f : format) (a : Z) (s : list op * header) : list op * header := (fst s, set_comp (set_format (snd s) f) a).

Lemma write_sections_good m wr next f a src trgt (P : list op -> Prop) :
  (forall ops h b, P ops -> sec_in f max_win_size (ops, h) -> wr ops h = (b, Ok tt) -> sec_good next b ops (set_comp h a)) ->
  forall secs cur b, Forall (fun s => P (fst s)) secs -> Forall (fun s => sec_in f max_win_size (fst s, set_format (snd s) f)) secs -> flags_ok (map snd secs) ->
  write_sections m wr f src trgt cur secs = (b, Ok tt) -> secs_good next (map (sec_with f a) secs) b.
Proof.
  intros Hwr. induction secs as [|[ops h] secs IH]; intros cur b HP Hin Hfl H; [contradiction|].
  apply Forall_cons_iff in HP as [Hp HP]. apply Forall_cons_iff in Hin as [Hi Hin]. cbn [fst snd] in Hi, Hp. cbn [write_sections] in H. cbv zeta in H.
  apply wbind_ok in H as (o1 & [] & o2 & Hc & H & ->). apply wlift_inv in Hc as [-> Hc]. cbn [app].
  apply wbind_ok in H as (o3 & [] & o4 & Hw & H & ->). pose proof (Hwr _ _ _ Hp Hi Hw) as Hg.
  cbn [map sec_with fst snd flags_ok] in *. destruct secs as [|s2 secs].
  - cbn in H. injection H as <-. rewrite app_nil_r. apply sg_last; [exact Hg|]. exact Hfl.
  - destruct Hfl as [Hm Hfl]. apply sg_more; [exact Hg|exact Hm|]. eapply IH; eassumption.
Qed.

Lemma clamp_idem ops seg : make_sections ops (Z.max (Z.min seg MAX_WIN_SIZE) MAX_INST_SIZE) = make_sections ops seg.
Proof.
  unfold make_sections. replace (Z.min (Z.max (Z.max (Z.min seg MAX_WIN_SIZE) MAX_INST_SIZE) MAX_INST_SIZE) MAX_WIN_SIZE)
    with (Z.min (Z.max seg MAX_INST_SIZE) MAX_WIN_SIZE); [reflexivity|]. unfold MAX_WIN_SIZE, MAX_INST_SIZE. lia.
Qed.
Lemma encode_with_inv m wr ic f seg src trgt b : encode_with m wr ic f seg src trgt = (b, Ok tt) ->
  exists cs ops, encode_inner m ic src trgt = Ok cs /\ translate_inner_ops m trgt cs = Ok ops /\
    write_sections m wr f src trgt 0 (make_sections ops seg) = (b, Ok tt).
Proof.
  intros H. unfold encode_with in H. cbv zeta in H.
  apply wbind_ok in H as (o1 & cs & o2 & Hc & H & ->). apply wlift_inv in Hc as [-> Hc].
  apply wbind_ok in H as (o3 & ops & o4 & Hp & H & ->). apply wlift_inv in Hp as [-> Hp].
  rewrite clamp_idem in H. exists cs, ops. split; [exact Hc|]. split; [exact Hp|exact H].
Qed.

Lemma sections_in f seg src trgt ops : makes src [] ops trgt -> zlen trgt < 2 ^ 63 -> zlen src < 2 ^ 63 ->
  concat (map fst (make_sections ops seg)) = ops /\ flags_ok (map snd (make_sections ops seg)) /\
  Forall (fun s => sec_in f (clamp_section seg) (fst s, set_format (snd s) f)) (make_sections ops seg).
Proof.
  intros Hmk Ht Hs. destruct Hmk as [Hg Hrun].
  destruct (make_sections_spec ops seg (good_ok _ Hg)) as ((Hsec & Hfl) & Hcat & _).
  { right. eapply Forall_impl; [|exact Hg]. intros x Hx. apply Hx. }
  split; [exact Hcat|]. split; [exact Hfl|].
  assert (Haddr : addrs_lt (2 ^ 63) ops).
  { eapply (run_ops_addrs src); [lia|exact Hrun|exact Hg|]. cbn [app]. lia. }
  rewrite <- Hcat in Hg, Haddr. apply Forall_concat_inv in Hg. apply addrs_concat in Haddr.
    rewrite Forall_map in Hg, Haddr. rewrite Forall_forall in *. intros s Hsin.
    destruct (Hsec s Hsin) as (Hc0 & Hfm & (Hf1 & Hf2 & Hf3) & Hsz).
    pose proof (good_ok _ (Hg s Hsin)) as Hoks. pose proof (good_zlen _ (Hg s Hsin)) as Hzs. pose proof (zlen_nonneg (fst s)).
    pose proof (adds_len_bounds _ Hoks).
    assert (Hcl : clamp_section seg <= max_win_size) by (unfold clamp_section, max_win_size; lia). unfold max_win_size in Hcl.
    unfold sec_in. cbn [fst snd]. split; [exact Hoks|]. split.
    { apply (addrs_deltas (2 ^ 63)); [lia|apply Haddr; exact Hsin|lia|lia]. }
    split; [exact Hc0|]. split; [reflexivity|].
    split; [unfold header_typed; cbn [set_format h_comp h_nops h_nadd h_osize]; lia|].
    split; [unfold header_matches, max_win_size; cbn [set_format h_comp h_nops h_nadd h_osize]; split; [lia|]; split; [exact Hf1|]; split; [exact Hf2|]; intros _; exact Hf3|].
    cbn [set_format h_osize]. lia. 
Qed.
(** Only an empty list of operations gives a section without operations; operations that make nothing are none. *)
Lemma sections_empty ops seg : Forall op_ok ops -> (zlen ops < 2 ^ 32 \/ Forall (fun o => 1 <= op_len o) ops) -> Forall (fun s => fst s = [] -> ops = []) (make_sections ops seg).
Proof.
  intros Hok Hl. destruct (make_sections_spec ops seg Hok Hl) as (_ & _ & _ & H). destruct ops as [|o ops]; [apply Forall_forall; auto|].
  eapply Forall_impl; [|apply H; discriminate]. intros s Hs E. contradiction.
Qed.
Lemma makes_empty src trgt : makes src [] [] trgt -> trgt = [].
Proof. intros [_ H]. cbn in H. congruence. Qed.
Lemma makes_sections_empty ops seg src trgt : makes src [] ops trgt -> Forall (fun s => fst s = [] -> trgt = []) (make_sections ops seg).
Proof.
  intros Hmk. eapply Forall_impl; [|apply (sections_empty ops seg (good_ok _ (proj1 Hmk)))]; [|right; eapply Forall_impl; [|exact (proj1 Hmk)]; intros x Hx; apply Hx].
  intros s Hs E. apply (makes_empty src). rewrite <- (Hs E). exact Hmk.
Qed.
Lemma comp_lossless_imp {A B} cd sc (w : list A) (w' : list B) : (w' = [] -> w = []) -> comp_lossless cd sc w -> comp_lossless cd sc w'.
Proof. intros Hw. destruct sc as [[c|l|o]|]; [auto| | |auto]; intros H s x t Hx He; apply H; auto. Qed.
Lemma encode_with_good m wr next ic f a seg src trgt b :
  (forall ops h b, (ops = [] -> trgt = []) -> sec_in f max_win_size (ops, h) -> wr ops h = (b, Ok tt) -> sec_good next b ops (set_comp h a)) ->
  Forall is_byte trgt -> zlen trgt < 2 ^ 63 -> zlen src < 2 ^ 63 ->
  encode_with m wr ic f seg src trgt = (b, Ok tt) ->
  exists cs ops, encode_inner m ic src trgt = Ok cs /\ translate_inner_ops m trgt cs = Ok ops /\
    makes src [] ops trgt /\ (src = [] -> existsb is_dict_copy ops = false) /\
    let secs := make_sections ops seg in
    concat (map fst secs) = ops /\ flags_ok (map snd secs) /\
    Forall (fun s => sec_in f (clamp_section seg) (fst s, set_format (snd s) f)) secs /\
    secs_good next (map (sec_with f a) secs) b.
Proof.
  intros Hwr Hb Ht Hs H. destruct (encode_with_inv _ _ _ _ _ _ _ _ H) as (cs & ops & Hc & Hp & Hw). clear H.
  assert (Ht' : zlen trgt < 2 ^ 64) by lia. assert (Hs' : zlen src < 2 ^ 64) by lia.
  destruct (encode_inner_sound m ic src trgt cs Hb Ht' Hs' Hc) as [Hcs Hord].
  destruct (translate_ok m src trgt cs Hb Ht' Hs' Hcs Hord) as (ops' & Ho & Hmk & Hnd).
  rewrite Hp in Ho. injection Ho as <-.
  exists cs, ops. split; [exact Hc|]. split; [exact Hp|]. split; [exact Hmk|]. split; [exact Hnd|]. cbv zeta.
  
  destruct (sections_in f seg src trgt ops Hmk Ht Hs) as (Hcat & Hfl & Hin).
  split; [exact Hcat|]. split; [exact Hfl|]. split; [exact Hin|].
  eapply write_sections_good; [exact Hwr|exact (makes_sections_empty ops seg src trgt Hmk)| |exact Hfl|exact Hw].
  eapply Forall_impl; [|exact Hin]. intros s (G1 & G2 & G3 & G4 & G5 & G5b & G6).
  repeat (split; [assumption|]). eapply Z.le_trans; [exact G6|]. unfold clamp_section, max_inst_size, max_win_size. lia.
Qed.

(** ** The section writer *)
Lemma set_comp_0 h : h_comp h = 0 -> set_comp h 0 = h.
Proof. destruct h. cbn. intros ->. reflexivity. Qed.

Lemma plain_writer_good m m' f ops h b : sec_in f max_win_size (ops, h) -> plain_writer m ops h = (b, Ok tt) ->
  sec_good (read_section m') b ops (set_comp h 0) /\ forall cd, sec_good (next_section m' cd) b ops (set_comp h 0).
Proof.
  intros Hin H. destruct (sec_write f ops h 0 Hin ltac:(lia)) as (hb & ob & E1 & E2 & Hne & _ & _ & Hr1 & Hr2).
  assert (Hc : h_comp h = 0) by apply Hin. rewrite (set_comp_0 h Hc) in *.
  unfold plain_writer in H. rewrite E1 in H. cbn [wbind] in H. rewrite E2 in H. injection H as <-.
  assert (Hb : hb ++ ob <> []) by (destruct hb; [contradiction|discriminate]).
  split; [|intro cd]; (split; [exact Hb|]); intro t; rewrite <- app_assoc; destruct (Hr2 m' t) as (h' & E & G); exists h'; (split; [|exact G]).
  - unfold read_section. rewrite Hr1. cbn [bind]. exact E.
  - destruct (next_section_plain m' cd _ _ _ (Hr1 m' (ob ++ t))) as [-> _]; [left; exact Hc|exact E].
Qed.

Lemma encode_nocomp_good m m' c data b t : Forall is_byte data -> zlen data < 2 ^ 63 -> encode_nocomp m c data = (b, Ok tt) ->
  exists s, apply_no_sec_comp m' None (b ++ t) (mkSink [] 0) = (s, Ok t) /\ sbuf s = data.
Proof.
  intros Hb Hl H. unfold encode_nocomp in H. assert (Hn0 : zlen (@nil Z) < 2 ^ 63) by (rewrite (@zlen_nil Z); lia).
  destruct (encode_with_good m _ (read_section m') _ _ 0 _ _ _ _ (fun ops h b _ Hi Hw => proj1 (plain_writer_good m m' _ ops h b Hi Hw)) Hb Hl Hn0 H)
    as (cs & ops & _ & _ & [Hg Hrun] & Hnd & Hcat & _ & _ & Hsg).
  apply secs_good_stream in Hsg. rewrite map_map in Hsg. cbn [sec_with fst] in Hsg.
  rewrite (map_ext _ fst) in Hsg by reflexivity.
  unfold apply_no_sec_comp.
  rewrite (apply_loop_no_dict false (read_section m') [] _ _ Hsg).
  2:{ rewrite Hcat. specialize (Hnd eq_refl). apply forallb_forall. intros x Hx. destruct (is_dict_copy x) eqn:Ex; [|reflexivity].
      assert (existsb is_dict_copy ops = true) by (apply existsb_exists; eauto). congruence. }
  destruct (apply_loop_stream false (read_section m') _ _ Hsg (S (length (b ++ t))) [] [] [] 0 t) as (p & E).
  { lia. }
  { rewrite Hcat. apply ops_ok_nonneg, good_ok, Hg. }
  rewrite Hcat in E. apply perform_true in Hrun. rewrite Hrun in E. rewrite !over_nil in E. cbn [app] in E.
  change (zlen (@nil Z)) with 0 in E. rewrite E. eexists. split; reflexivity.
Qed.

Lemma read_op_nil m d o i x : read_op m d o i [] <> Ok x.
Proof. discriminate. Qed.
Lemma write_ops_empty m h ops h' f : read_ops_no_comp m (read_back h) [] = Ok (ops, h', f) -> ops = [].
Proof.
  intros H. unfold read_ops_no_comp in H. cbn [length read_ops_loop] in H. destruct (h_nops (read_back h) <=? 0).
  - cbn [bind] in H. destruct (negb _); [discriminate|]. destruct (h_format (read_back h)); cbn [fill_adds bind] in H; congruence.
  - discriminate.
Qed.
Lemma section_writer_good m m' cd sc f ops h b : comp_lossless cd sc ops -> sec_in f max_win_size (ops, h) ->
  section_writer m cd sc ops h = (b, Ok tt) -> sec_good (next_section m' cd) b ops (set_comp h (comp_value sc)).
Proof.
  intros Hcd Hin H. destruct sc as [comp|]; cbn [section_writer comp_value] in *.
  2: { apply (plain_writer_good m m' f ops h b Hin H). }
  destruct (sec_write f ops h (algo_value comp) Hin) as (hb & ob & E1 & E2 & Hne & Hob & Hlob & Hr1 & Hr2);
    [destruct comp; cbn; lia|].
  cbv zeta in H. rewrite E1, E2 in H. cbn [wbind wlift] in H.
  assert (exists z, b = hb ++ z /\ match comp with
    | SmdiffComp c => encode_nocomp m c ob = (z, Ok tt)
    | ZstdComp l => z = zstd_enc cd l ob
    | BrotliComp o => z = brotli_enc cd o ob end) as (z & -> & Hz).
  { destruct comp as [c|l|o].
    - destruct (encode_nocomp m c ob) as [z r]. cbn [wbind wlift app] in H. inversion H; subst. eauto.
    - cbn in H. inversion H. eauto.
    - cbn in H. inversion H. eauto. }
  split; [destruct hb; [contradiction|discriminate]|]. intro t. rewrite <- app_assoc.
  destruct (Hr2 m' []) as (h' & E & G). rewrite app_nil_r in E. exists h'. split; [|exact G].
  assert (Hemp : ob = [] -> ops = []) by (intros ->; exact (write_ops_empty m' _ _ _ _ E)).
  unfold next_section. rewrite Hr1. cbn [bind].
  replace (h_comp (read_back (set_comp h (algo_value comp)))) with (algo_value comp) by (destruct h; reflexivity).
  destruct comp as [c|l|o]; cbn [algo_value Z.eqb Pos.eqb] in *.
  - destruct (encode_nocomp_good m m' c ob z t Hob Hlob Hz) as (s & -> & Hs). rewrite Hs, E. reflexivity.
  - subst z. rewrite (Hcd l ob t Hob Hemp). cbn [bind]. rewrite E. reflexivity.
  - subst z. rewrite (Hcd o ob t Hob Hemp). cbn [bind]. rewrite E. reflexivity.
Qed.

(** ** encode *)
Lemma encode_good m m' cd c dict trgt b : comp_lossless cd (cf_comp c) trgt -> Forall is_byte trgt -> zlen trgt < 2 ^ 63 ->
  zlen (match dict with Some d => d | None => [] end) < 2 ^ 63 -> encode m cd c dict trgt = (b, Ok tt) ->
  let src := match dict with Some d => d | None => [] end in
  exists cs ops, encode_inner m (inner_of c) src trgt = Ok cs /\ translate_inner_ops m trgt cs = Ok ops /\
    makes src [] ops trgt /\ (src = [] -> existsb is_dict_copy ops = false) /\
    let secs := make_sections ops (cf_segment c) in
    concat (map fst secs) = ops /\ flags_ok (map snd secs) /\
    Forall (fun s => sec_in (cf_format c) (clamp_section (cf_segment c)) (fst s, set_format (snd s) (cf_format c))) secs /\
    secs_good (next_section m' cd) (map (sec_with (cf_format c) (comp_value (cf_comp c))) secs) b.
Proof.
  intros Hcd Hb Ht Hs H. cbv zeta. unfold encode in H. cbv zeta in H.
  exact (encode_with_good m _ (next_section m' cd) _ _ (comp_value (cf_comp c)) _ _ _ _
    (fun ops h b He Hi Hw => section_writer_good m m' cd (cf_comp c) (cf_format c) ops h b (comp_lossless_imp cd _ _ _ He Hcd) Hi Hw) Hb Ht Hs H).
Qed.

Lemma sec_with_ops f a (secs : list (list op * header)) : map fst (map (sec_with f a) secs) = map fst secs.
Proof. rewrite map_map. apply map_ext. reflexivity. Qed.

Lemma encode_apply m m' cd c dict trgt b t old p : comp_lossless cd (cf_comp c) trgt -> Forall is_byte trgt -> zlen trgt < 2 ^ 63 ->
  zlen (match dict with Some d => d | None => [] end) < 2 ^ 63 -> encode m cd c dict trgt = (b, Ok tt) ->
  exists p', apply_patch m' cd (b ++ t) dict (mkSink old p) = (mkSink (trgt ++ drop (zlen trgt) old) p', Ok tt).
Proof.
  intros Hcd Hb Ht Hs H. destruct (encode_good m m' cd c dict trgt b Hcd Hb Ht Hs H) as (cs & ops & _ & _ & [Hg Hrun] & Hnd & Hcat & _ & _ & Hsg).
  apply secs_good_stream in Hsg. rewrite sec_with_ops in Hsg.
  pose proof (ops_ok_nonneg _ (good_ok _ Hg)) as Hnn.
  destruct (apply_patch_stream false m' cd _ b t (match dict with Some d => d | None => [] end) old p Hsg) as (p' & E).
  { rewrite Hcat. exact Hnn. }
  rewrite Hcat in E. rewrite (perform_old _ old _ [] _ Hnn Hrun) in E. cbn [app] in E.
  exists p'. destruct dict as [d|]; [exact E|].
  rewrite (apply_patch_no_dict false m' cd [] _ b t (mkSink old p) Hsg); [exact E|].
  rewrite Hcat. specialize (Hnd eq_refl). apply forallb_forall. intros x Hx. destruct (is_dict_copy x) eqn:Ex; [|reflexivity].
  assert (existsb is_dict_copy ops = true) by (apply existsb_exists; eauto). congruence.
Qed.
