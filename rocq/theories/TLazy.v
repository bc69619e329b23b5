(** Property C89: the lazy matching parameter and its default. *)
From Verif Require Import Base Spec SpecEnc MCommon MWriter MReader MDecoder MOpMaker MTrgtMatcher MSrcMatcher MEncInner MEncode MLevels
  SpecApi PBase PEncInner PEncode TTrunc.
Ltac Zify.zify_post_hook ::= idtac.
Arguments Z.add : simpl never.
Arguments Z.sub : simpl never.
Arguments Z.mul : simpl never.
Arguments Z.pow : simpl never.

(** EncoderConfig::set_lazy_escape_len, smdiff-encoder/src/lib.rs:168-171 *)
Definition set_lazy (c : config) (n : Z) : config := mkConfig (cf_src c) (cf_trgt c) (cf_comp c) (cf_format c) (cf_segment c) (cf_naive c) (Some n).
Definition lazy_of (o : option Z) : Z := match o with Some n => n | None => 90 end.

Lemma eloop_lazy m src trgt l1 l2 mx : Forall is_byte trgt -> zlen trgt < 2 ^ 64 -> zlen src < 2 ^ 64 -> mx <= zlen trgt ->
  (forall len x, 4 <= len <= zlen trgt -> (l1 >? 0) && (len <? l1) && x = (l2 >? 0) && (len <? l2) && x) ->
  forall fuel e, einv src trgt mx e -> eloop fuel m src trgt l1 mx e = eloop fuel m src trgt l2 mx e.
Proof.
  intros Hb Hlt Hls Hmx HL. induction fuel as [|k IH]; intros e V; cbn [eloop]; destruct (e_cur e + 4 >=? mx) eqn:Ec; try reflexivity.
  assert (S : estep m src trgt l1 mx e = estep m src trgt l2 mx e).
  { unfold estep. destruct (e_st e) as [| |len|] eqn:Es; try reflexivity. unfold found_match. destruct (usub m mx 1) as [l|x| |]; cbn [bind]; try reflexivity.
    pose proof (iv_st _ _ _ _ V) as J. rewrite Es in J. destruct J as (J1 & J2 & _). pose proof (last_end_le _ _ _ (iv_ops _ _ _ _ V)) as J3. pose proof (iv_cur _ _ _ _ V) as J4. rewrite (HL len) by lia. reflexivity. }
  rewrite S. destruct (estep m src trgt l2 mx e) as [e1|x| |] eqn:E; cbn [bind]; try reflexivity. apply IH. exact (estep_inv m src trgt l2 mx e e1 Hb Hlt Hls Hmx ltac:(lia) V E).
Qed.
Lemma encode_inner_lazy m t s o1 o2 nv src trgt : Forall is_byte trgt -> zlen trgt < 2 ^ 64 -> zlen src < 2 ^ 64 ->
  (forall len x, 4 <= len <= zlen trgt -> (lazy_of o1 >? 0) && (len <? lazy_of o1) && x = (lazy_of o2 >? 0) && (len <? lazy_of o2) && x) ->
  encode_inner m (mkIC t s o1 nv) src trgt = encode_inner m (mkIC t s o2 nv) src trgt.
Proof.
  intros Hb Hlt Hls HL. unfold encode_inner. cbn [ic_src ic_trgt ic_naive ic_lazy]. fold (lazy_of o1) (lazy_of o2).
  assert (G : (let '(ops, cur, mx) := naive_tests nv src trgt in
      do tm <- match t with None => Ok None | Some tc => do t <- trgt_build m tc trgt cur; Ok (Some t) end;
      do sm <- match s with None => Ok None | Some sc => do s <- src_build m sc src cur trgt; Ok (Some s) end;
      let lazy := lazy_of o1 in
      let e := mkE ops cur 4 0 0 StartNewMatch sm tm in
      do e <- eloop (4 * length trgt + 4) m src trgt lazy mx e;
      do _ <- assert_ (e_cur e <=? zlen trgt);
      let ops := rev (e_ops e) in
      Ok (if mx <? zlen trgt then ops ++ [MSrc 0 (zlen src) mx] else ops)) = 
     (let '(ops, cur, mx) := naive_tests nv src trgt in
      do tm <- match t with None => Ok None | Some tc => do t <- trgt_build m tc trgt cur; Ok (Some t) end;
      do sm <- match s with None => Ok None | Some sc => do s <- src_build m sc src cur trgt; Ok (Some s) end;
      let lazy := lazy_of o2 in
      let e := mkE ops cur 4 0 0 StartNewMatch sm tm in
      do e <- eloop (4 * length trgt + 4) m src trgt lazy mx e;
      do _ <- assert_ (e_cur e <=? zlen trgt);
      let ops := rev (e_ops e) in
      Ok (if mx <? zlen trgt then ops ++ [MSrc 0 (zlen src) mx] else ops))).
  { destruct (naive_tests nv src trgt) as [[ops cur] mx] eqn:En. destruct (naive_tests_ok src trgt _ _ _ _ En) as (N1 & N2 & N3 & N4 & N5 & N6 & _ & N7).
    destruct (match t with None => Ok None | Some tc => do t <- trgt_build m tc trgt cur; Ok (Some t) end) as [tm|x| |] eqn:Etm; cbn [bind]; try reflexivity.
    destruct (match s with None => Ok None | Some sc => do s <- src_build m sc src cur trgt; Ok (Some s) end) as [sm|x| |] eqn:Esm; cbn [bind]; try reflexivity. cbv zeta.
    rewrite (eloop_lazy m src trgt (lazy_of o1) (lazy_of o2) mx); [reflexivity|exact Hb|exact Hlt|exact Hls|lia|exact HL|].
    constructor; cbn [e_cur e_min e_byte e_ops e_st e_src e_trgt is_start]; auto; try lia.
    - unfold is_byte. lia.
    - destruct ops; [exact I|]. cbn in *. lia.
    - destruct ops; [exact I|]. cbn in *. lia.
    - destruct s as [sc|]; [|injection Esm as <-; exact I]. apply bind_ok in Esm as (x & Hs & Esm). injection Esm as <-. eapply src_build_rel, Hs. lia.
    - destruct t as [tc|]; [|injection Etm as <-; exact I]. apply bind_ok in Etm as (x & Hs & Etm). injection Etm as <-. eapply trgt_build_rel, Hs. lia. }
  destruct s as [sc|], t as [tc|]; try reflexivity; (destruct ((zlen src =? 0) && _); [reflexivity|]; destruct (zlen trgt =? 0); [reflexivity|exact G]).
Qed.
Lemma encode_lazy m cd c n1 n2 dict trgt : Forall is_byte trgt -> zlen trgt < 2 ^ 63 -> zlen (source_of dict) < 2 ^ 63 ->
  (forall len x, 4 <= len <= zlen trgt -> (n1 >? 0) && (len <? n1) && x = (n2 >? 0) && (len <? n2) && x) ->
  encode m cd (set_lazy c n1) dict trgt = encode m cd (set_lazy c n2) dict trgt.
Proof.
  intros Hb Ht Hs HL. unfold encode, encode_with. cbv zeta. fold (source_of dict). cbn [set_lazy cf_comp cf_format cf_segment]. unfold inner_of, set_lazy. cbn [cf_src cf_trgt cf_naive cf_lazy].
  rewrite (encode_inner_lazy m (cf_trgt c) (cf_src c) (Some n1) (Some n2) (cf_naive c) (source_of dict) trgt Hb ltac:(lia) ltac:(lia) HL). reflexivity.
Qed.

(** C89. A configuration whose lazy_escape_len is not set, as that of EncoderConfig::default and comp_level, behaves as if it were 90. *)
Theorem C89_unset_is_90 : forall m cd c dict trgt, cf_lazy c = None -> encode m cd c dict trgt = encode m cd (set_lazy c 90) dict trgt.
Proof. intros m cd [s t sc f seg nv lz] dict trgt H. cbn [cf_lazy] in H. subst lz. reflexivity. Qed.
Theorem C89_default_is_unset : forall m c level mt sc, config_default m = Ok c \/ config_level m level mt sc = Ok c -> cf_lazy c = None.
Proof.
  intros m c level mt sc [H|H]; [unfold config_default in H|unfold config_level in H; apply bind_ok in H as (t & _ & H); cbv zeta in H]; apply bind_ok in H as (s & _ & H); injection H as <-; reflexivity.
Qed.
(** C89. Values up to 4 all mean: never lazy. *)
Theorem C89_small_values : forall m cd c n dict trgt, Forall is_byte trgt -> zlen trgt < 2 ^ 63 -> zlen (source_of dict) < 2 ^ 63 -> 0 <= n <= 4 ->
  encode m cd (set_lazy c n) dict trgt = encode m cd (set_lazy c 0) dict trgt.
Proof. intros m cd c n dict trgt Hb Ht Hs Hn. apply encode_lazy; try assumption. intros len x Hl. change (0 >? 0) with false. replace (len <? n) with false by lia. rewrite andb_false_r. reflexivity. Qed.
(** C89. Values above the target's length all mean: always lazy. *)
Theorem C89_large_values : forall m cd c n k dict trgt, Forall is_byte trgt -> zlen trgt < 2 ^ 63 -> zlen (source_of dict) < 2 ^ 63 -> zlen trgt < n -> zlen trgt < k ->
  encode m cd (set_lazy c n) dict trgt = encode m cd (set_lazy c k) dict trgt.
Proof.
  intros m cd c n k dict trgt Hb Ht Hs Hn Hk. pose proof (zlen_nonneg trgt). apply encode_lazy; try assumption. intros len x Hl. replace (n >? 0) with true by lia. replace (k >? 0) with true by lia. replace (len <? n) with true by lia. replace (len <? k) with true by lia. reflexivity.
Qed.
(** The source has 60 bytes twice, at 0 and, followed by four bytes of the target's end, at 105. *)
Definition c89_x : list Z := [198; 126; 129; 107; 75; 251; 226; 251; 84; 246; 189; 223; 124; 28; 225; 135; 1; 191; 49; 222; 86; 114; 15; 71; 103; 102; 135; 89; 170; 136; 60; 89; 234; 86; 19; 123; 210; 133; 161; 216; 60; 84; 85; 47; 55; 174; 101; 91; 218; 2; 121; 152; 204; 227; 26; 118; 142; 95; 217; 153].
Definition c89_y : list Z := [165; 196; 213; 89].
Definition c89_src : list Z := c89_x ++ [223; 9; 120; 133; 209; 108; 184; 115; 60; 104; 29; 172; 253; 21; 233; 89; 70; 217; 68; 98; 111; 61; 234; 169; 128; 141; 146; 9; 127; 49; 34; 17; 122; 206; 148; 128; 83; 28; 166; 128; 78; 134; 68; 163; 92] ++ c89_x ++ c89_y ++ [45; 101; 183; 217; 145; 98; 220; 18; 30; 151; 125; 30; 33; 175; 160; 162; 248; 147; 111; 159; 86; 222; 141; 234; 37; 217; 125; 121; 127; 14; 241; 43; 139; 243; 88; 229; 137; 8; 196; 10; 154; 179; 157; 185; 85; 219; 8; 202; 10; 70; 21; 134; 212; 179; 171; 40; 97; 183; 51; 23; 128; 88; 7; 225; 111; 107; 153; 247; 226; 173; 99; 43; 211; 164; 146; 234].
Definition c89_trgt : list Z := c89_x ++ c89_y.
(** C89. The documentation says that the default is 45. *)
Theorem C89_refuted : forall m cd c, config_default m = Ok c -> exists dict trgt,
  encode m cd c (Some dict) trgt = ([0; 2; 64; 193; 198; 63; 1; 212; 1], Ok tt) /\
  encode m cd (set_lazy c 45) (Some dict) trgt = ([0; 2; 64; 60; 0; 132; 165; 196; 213; 89], Ok tt).
Proof.
  intros m cd c H. assert (E : config_default m = Ok (mkConfig (Some (mkSC 18 None)) None None Interleaved 16777215 None None)) by (destruct m; vm_compute; reflexivity). rewrite E in H. injection H as <-.
  exists c89_src, c89_trgt. destruct m; split; vm_compute; reflexivity.
Qed.

Example C89_example : forall m, encode m no_codecs (set_lazy (mkConfig (Some (mkSC 18 None)) None None Interleaved 16777215 None None) 3) (Some c89_src) c89_trgt = ([0; 2; 64; 60; 0; 132; 165; 196; 213; 89], Ok tt) /\
  encode m no_codecs (set_lazy (mkConfig (Some (mkSC 18 None)) None None Interleaved 16777215 None None) 1000) (Some c89_src) c89_trgt = ([0; 2; 64; 193; 198; 63; 1; 212; 1], Ok tt).
Proof. intros [|]; split; vm_compute; reflexivity. Qed.

Print Assumptions C89_unset_is_90.
Print Assumptions C89_default_is_unset.
Print Assumptions C89_small_values.
Print Assumptions C89_large_values.
Print Assumptions C89_refuted.
