(** Totality of encode (lib.rs) and section_writer (writer.rs). *)
From Verif Require Import Base Spec SpecEnc MCommon MWriter MReader MDecoder MOpMaker MTrgtMatcher MSrcMatcher MEncInner MEncode
  SpecApi PBase PCommon PStream PSection PWriter PDecoder PPatch POpMaker PEncInner PEncode PTotal.
Ltac Zify.zify_post_hook ::= idtac.
Arguments Z.add : simpl never.
Arguments Z.sub : simpl never.
Arguments Z.mul : simpl never.
Arguments Z.pow : simpl never.

(** ** The check of the debug assertion *)
Lemma forallb_rep b n : forallb (fun x => x =? b) (rep b n) = true.
Proof. unfold rep. induction (Z.to_nat n) as [|k IH]; [reflexivity|]. cbn. rewrite Z.eqb_refl. exact IH. Qed.
Lemma check_ops_ok src trgt : forall ops o out, Forall op_good ops -> run_ops src (take o trgt) ops = Some out -> 0 <= o <= zlen trgt ->
  (exists t, trgt = out ++ t) -> check_ops src trgt o ops = Ok true /\ out = take (o + ops_len ops) trgt /\ o + ops_len ops <= zlen trgt.
Proof.
  induction ops as [|x ops IH]; intros o out Hg Hr Ho [t Ht]; cbn [run_ops check_ops] in *.
  - injection Hr as <-. change (ops_len []) with 0. rewrite Z.add_0_r. split; [reflexivity|]. split; [reflexivity|lia].
  - apply Forall_cons_iff in Hg as [Hx Hg]. destruct (op_bytes src (take o trgt) x) as [b|] eqn:E; [|discriminate].
    assert (Hl : oal x = op_len x).
    { destruct Hx as [[Hty Hlg] _]. destruct x as [bs|c n|s a n]; cbn [oal op_len]; try reflexivity. cbn in Hlg. apply to_u16_id. pose proof (zlen_nonneg bs). lia. }
    assert (Hn : op_nonneg x) by (assert (F : Forall op_nonneg [x]) by (apply ops_ok_nonneg; constructor; [apply Hx|constructor]); now inversion F).
    pose proof (op_bytes_len _ _ _ _ Hn E) as Hbl. destruct (run_ops_prefix _ _ _ _ Hr) as (u & Hu).
    assert (Eb : b = sub trgt o (op_len x) /\ o + op_len x <= zlen trgt).
    { assert (Hto : zlen (take o trgt) = o) by (apply zlen_take; lia).
      assert (zlen out = o + zlen b + zlen u) by (rewrite Hu, !zlen_app, Hto; lia).
      assert (zlen trgt = zlen out + zlen t) by (rewrite Ht at 1; apply zlen_app).
      pose proof (zlen_nonneg t). pose proof (zlen_nonneg u). split; [|lia].
      assert (Ht' : trgt = take o trgt ++ b ++ (u ++ t)) by (rewrite Ht at 1; rewrite Hu, <- !app_assoc; reflexivity).
      rewrite Ht' at 1. rewrite sub_app_r by lia. rewrite Hto, Z.sub_diag. rewrite <- take_is_sub. symmetry. apply take_app. exact Hbl. }
    destruct Eb as [Eb Hob]. destruct Hx as [_ Hx1]. rewrite Hl. rewrite slice_ok by lia. cbn [bind].
    replace (o + op_len x - o) with (op_len x) by lia.
    assert (C : match x with
               | Add bs => Ok (list_eqb (sub trgt o (op_len x)) bs)
               | Copy Dict a n => do s <- slice src a (a + n); Ok (list_eqb (sub trgt o (op_len x)) s)
               | Copy Output a n => do s <- slice trgt a (a + n); Ok (list_eqb (sub trgt o (op_len x)) s)
               | Run b _ => Ok (forallb (fun x => x =? b) (sub trgt o (op_len x)))
               end = Ok true).
    { rewrite <- Eb. destruct x as [bs|c n|[] a n]; cbn [op_bytes op_len] in *.
      - injection E as ->. replace (list_eqb b b) with true by (symmetry; now apply list_eqb_eq). reflexivity.
      - injection E as <-. rewrite forallb_rep. reflexivity.
      - unfold in_range in E. destruct ((n =? 0) || _) eqn:R; [|discriminate]. injection E as E. rewrite slice_ok by lia. cbn [bind].
        replace (a + n - a) with n by lia. rewrite E. replace (list_eqb b b) with true by (symmetry; now apply list_eqb_eq). reflexivity.
      - unfold in_range in E. destruct ((n =? 0) || _) eqn:R; [|discriminate]. rewrite zlen_take in R by lia. injection E as E. rewrite slice_ok by lia. cbn [bind].
        replace (a + n - a) with n by lia.
        assert (Es : sub (take o trgt) a n = sub trgt a n).
        { rewrite <- (take_drop o trgt) at 2. rewrite sub_app_l; [reflexivity|lia|lia|rewrite zlen_take by lia; lia]. }
        rewrite <- Es, E. replace (list_eqb b b) with true by (symmetry; now apply list_eqb_eq). reflexivity. }
    rewrite C. cbn [bind].
    rewrite ops_len_cons. rewrite Eb, <- take_split in Hr by lia. destruct (IH (o + op_len x) out Hg Hr ltac:(lia) ltac:(eauto)) as (G1 & G2 & G3).
    split; [exact G1|]. replace (o + (op_len x + ops_len ops)) with (o + op_len x + ops_len ops) by lia. auto.
Qed.

Lemma write_sections_total m wr f src trgt : (forall ops h, sec_in f max_win_size (ops, h) -> exists b, wr ops h = (b, Ok tt)) ->
  forall secs cur, Forall (fun s => sec_in f max_win_size (fst s, set_format (snd s) f)) secs -> Forall op_good (concat (map fst secs)) ->
  run_ops src (take cur trgt) (concat (map fst secs)) = Some trgt -> 0 <= cur <= zlen trgt ->
  exists b, write_sections m wr f src trgt cur secs = (b, Ok tt).
Proof.
  intro Hwr. induction secs as [|[ops h] secs IH]; intros cur Hin Hg Hr Hc; [eexists; reflexivity|].
  apply Forall_cons_iff in Hin as [Hi Hin]. cbn [map concat fst snd] in *. apply Forall_app in Hg as [Hg1 Hg2].
  rewrite run_ops_app in Hr. destruct (run_ops src (take cur trgt) ops) as [out|] eqn:E; [|discriminate].
  destruct (run_ops_prefix _ _ _ _ Hr) as (t & Ht).
  destruct (check_ops_ok src trgt ops cur out Hg1 E Hc (ex_intro _ t Ht)) as (C1 & C2 & C3).
  cbn [write_sections]. cbv zeta. replace (match m with Debug => do b <- check_ops src trgt cur ops; assert_ b | Release => Ok tt end) with (Ok tt) by (destruct m; [rewrite C1|]; reflexivity).
  unfold wlift at 1. cbn [wbind]. destruct (Hwr _ _ Hi) as (b1 & ->). cbn [wbind].
  destruct Hi as (_ & _ & _ & _ & _ & (_ & _ & Hos & _) & _). cbn [fst snd] in Hos. pose proof (ops_len_nonneg _ (good_ok _ Hg1)).
  rewrite Hos. subst out. destruct (IH (cur + ops_len ops) Hin Hg2 Hr ltac:(lia)) as (b2 & ->). eexists; reflexivity.
Qed.

Lemma encode_with_total_cs m wr ic f seg src trgt : (forall ops h, sec_in f max_win_size (ops, h) -> exists b, wr ops h = (b, Ok tt)) ->
  Forall is_byte trgt -> zlen trgt < 2 ^ 62 -> zlen src < 2 ^ 63 -> (exists cs, encode_inner m ic src trgt = Ok cs) ->
  exists b, encode_with m wr ic f seg src trgt = (b, Ok tt).
Proof.
  intros Hwr Hb Ht Hs (cs & Hc).
  unfold encode_with. cbv zeta. rewrite Hc. unfold wlift at 1. cbn [wbind].
  assert (Ht' : zlen trgt < 2 ^ 64) by lia. assert (Hs' : zlen src < 2 ^ 64) by lia.
  destruct (encode_inner_sound m ic src trgt cs Hb Ht' Hs' Hc) as [Hcs Hord].
  destruct (translate_ok m src trgt cs Hb Ht' Hs' Hcs Hord) as (ops & Ho & Hmk & _). rewrite Ho. unfold wlift at 1. cbn [wbind].
  rewrite clamp_idem. destruct (sections_in f seg src trgt ops Hmk ltac:(lia) Hs) as (Hcat & _ & Hin).
  destruct (write_sections_total m wr f src trgt Hwr (make_sections ops seg) 0) as (b & E).
  - eapply Forall_impl; [|exact Hin]. intros s (G1 & G2 & G3 & G4 & G5 & G5b & G6).
    repeat (split; [assumption|]). eapply Z.le_trans; [exact G6|]. unfold clamp_section, max_inst_size, max_win_size. lia.
  - rewrite Hcat. apply Hmk.
  - rewrite Hcat, take_0 by lia. apply Hmk.
  - pose proof (zlen_nonneg trgt). lia.
  - rewrite E. eexists; reflexivity.
Qed.
Lemma encode_with_total m wr ic f seg src trgt : (forall ops h, sec_in f max_win_size (ops, h) -> exists b, wr ops h = (b, Ok tt)) ->
  Forall is_byte trgt -> zlen trgt < 2 ^ 62 -> zlen src < 2 ^ 63 -> inner_safe m ic src trgt ->
  exists b, encode_with m wr ic f seg src trgt = (b, Ok tt).
Proof. intros Hwr Hb Ht Hs Hsafe. apply encode_with_total_cs; auto. now apply encode_inner_total. Qed.

Lemma plain_writer_total m f ops h : sec_in f max_win_size (ops, h) -> exists b, plain_writer m ops h = (b, Ok tt).
Proof.
  intro Hi. pose proof Hi as (_ & _ & Hc & _). cbn [snd] in Hc. destruct (sec_write f ops h 0 Hi ltac:(lia)) as (hb & ob & W1 & W2 & _).
  rewrite (set_comp_0 _ Hc) in *. unfold plain_writer. rewrite W1. cbn [wbind]. rewrite W2. eexists; reflexivity.
Qed.
Lemma encode_nocomp_total m c data : legal_trgt c -> Forall is_byte data -> zlen data < 2 ^ 62 -> exists b, encode_nocomp m c data = (b, Ok tt).
Proof.
  intros Hc Hb Hl. unfold encode_nocomp. apply encode_with_total; [apply plain_writer_total|exact Hb|exact Hl|rewrite (@zlen_nil Z); lia|].
  split; cbn [ic_trgt ic_src]; [|exact I]. split; [exact Hc|]. unfold naive_tests. cbn [ic_naive]. destruct (_ >? _); reflexivity.
Qed.

(** Writing always succeeds with a legal configuration. *)
Lemma section_writer_ok m cd sc f ops h : sec_in f max_win_size (ops, h) -> legal_comp sc ->
  exists b, section_writer m cd sc ops h = (b, Ok tt).
Proof.
  intros Hi Hsc. unfold section_writer. pose proof Hi as (Hok & _ & Hc & _ & (_ & Hn & _) & (Hmax & Hnops & Hos & _) & _). cbn [fst snd] in *.
  assert (Ha : 0 <= comp_value sc <= 7) by (destruct sc as [[]|]; cbn; lia).
  destruct (sec_write f ops h (comp_value sc) Hi Ha) as (hb & ob & W1 & W2 & _ & Hob & _ & _). destruct sc as [s|].
  - cbn [comp_value] in *. rewrite W1. cbn [wbind]. rewrite W2. cbn [wbind].
    destruct (write_ops_bytes m ops _ _ Hok (W2 m)) as [_ Hlen]. pose proof (adds_len_bounds _ Hok).
    destruct s; unfold wput, wlift; cbn [wbind app]; try (eexists; reflexivity). cbn [legal_comp] in Hsc.
    destruct (encode_nocomp_total m c ob Hsc Hob) as (z & ->); [|eexists; reflexivity].
    unfold max_win_size in Hmax. lia.
  - cbn [comp_value] in *. rewrite (set_comp_0 _ Hc) in *. unfold plain_writer. rewrite W1. cbn [wbind]. rewrite W2. eexists; reflexivity.
Qed.
Lemma encode_total_cs m cd c dict trgt : Forall is_byte trgt -> zlen trgt < 2 ^ 62 -> zlen (source_of dict) < 2 ^ 63 -> legal_comp (cf_comp c) ->
  (exists cs, encode_inner m (inner_of c) (source_of dict) trgt = Ok cs) -> exists b, encode m cd c dict trgt = (b, Ok tt).
Proof.
  intros Hb Ht Hs Hc Hcs. unfold encode. cbv zeta. apply encode_with_total_cs; auto. intros ops h Hi. now apply (section_writer_ok m cd _ (cf_format c)).
Qed.

Lemma encode_total m cd c dict trgt : Forall is_byte trgt -> zlen trgt < 2 ^ 62 -> zlen (source_of dict) < 2 ^ 63 -> legal_comp (cf_comp c) ->
  inner_safe m (inner_of c) (source_of dict) trgt -> exists b, encode m cd c dict trgt = (b, Ok tt).
Proof.
  intros Hb Ht Hs Hc Hsafe. unfold encode. cbv zeta. apply encode_with_total; auto. intros ops h Hi. now apply (section_writer_ok m cd _ (cf_format c)).
Qed.
