(** Property C86: readers that do not stand at their start. *)
From Verif Require Import Base Spec SpecEnc MCommon MWriter MReader MDecoder MOpMaker MTrgtMatcher MSrcMatcher MEncInner MEncode MPos SpecApi PPos
  SpecMerge PBase PStream PSection PWriter PDecoder PPatch POpMaker PEncode PMerge PMerge2 PMerge3 PMerge4 PTrans MVcdiff SpecVcd PVcdiff TEncode TMerge TTrans TVcdiff TPipe TTrunc.
Ltac Zify.zify_post_hook ::= idtac.
Arguments Z.add : simpl never.
Arguments Z.sub : simpl never.
Arguments Z.mul : simpl never.
Arguments Z.pow : simpl never.

(** C86. encode uses what lies in front of its readers, from where they stand, and leaves both at the end. *)
Theorem C86_encode_reads_from_the_position : forall m cd c dict output,
  exists dict' output', p_encode m cd c dict output = (encode m cd c (option_map ahead dict) (ahead output), dict', output') /\
    ahead output' = [] /\ option_map ahead dict' = option_map (fun _ => []) dict.
Proof.
  intros m cd c dict output. assert (E : forall r, ahead (snd (rd_end r)) = []).
  { intros [b p]. unfold ahead, rd_end. cbn [snd rbuf rpos]. unfold drop. apply skipn_all2. unfold zlen. lia. }
  unfold p_encode, encode. destruct dict as [r|]; cbn [option_map].
  - do 2 eexists. split; [reflexivity|]. split; [apply (E output)|cbn [option_map]; f_equal; apply (E r)].
  - do 2 eexists. split; [reflexivity|]. split; [apply (E output)|reflexivity].
Qed.

Lemma rd_read r addr len : match read_at (rbuf r) addr len with
  | Ok b => exists p, rd_exact (rd_seek r addr) len = (Ok b, mkRdr (rbuf r) p)
  | Err e => exists p, rd_exact (rd_seek r addr) len = (Err e, mkRdr (rbuf r) p)
  | _ => False end.
Proof. unfold read_at, read_exact, rd_exact, rd_seek. cbn [rbuf rpos]. destruct (len <=? zlen (drop addr (rbuf r))); cbn [bind]; eauto. Qed.
Lemma p_ops_spec : forall ops src s pos, exists src', p_ops src ops s pos = (fst (fst (apply_ops_loop (option_map rbuf src) ops s pos)), snd (fst (apply_ops_loop (option_map rbuf src) ops s pos)), src', snd (apply_ops_loop (option_map rbuf src) ops s pos)) /\ option_map rbuf src' = option_map rbuf src.
Proof.
  induction ops as [|o ops IH]; intros src s pos; cbn [p_ops apply_ops_loop]; [exists src; auto|]. destruct o as [bs|b n|[|] a n].
  - apply IH.
  - apply IH.
  - destruct src as [r|]; cbn [option_map]; [|exists None; auto]. pose proof (rd_read r a n) as H. destruct (read_at (rbuf r) a n) as [b|e| |]; try contradiction; destruct H as (p & ->).
    + destruct (IH (Some (mkRdr (rbuf r) p)) (sink_write s b) (pos + n)) as (src' & E & H). exists src'. cbn [option_map rbuf] in *. auto.
    + exists (Some (mkRdr (rbuf r) p)). auto.
  - destruct (read_at (sbuf s) a n) as [b|e| |]; [apply IH|exists src; auto..].
Qed.
Definition c86_trgt : list Z := [1; 2; 3; 4; 5; 6; 7; 8; 9; 10; 11; 12; 13; 14; 15; 16; 17; 18; 19; 20; 21; 22; 23; 24; 25; 26; 27; 28; 29; 30; 31; 32; 33; 34; 35; 36; 37; 38; 39; 40].
Definition c86_src : list Z := [9; 9; 9; 9; 9] ++ c86_trgt.
Definition c86_cfg : config := mkConfig (Some (mkSC 1 None)) None None Interleaved 16777215 None None.
Definition c86_p : list Z := [0; 1; 40; 40; 0].
Lemma no_codecs_rest : codecs_rest no_codecs.
Proof. split; intros bs v rest E; discriminate E. Qed.
Lemma c86_made : made no_codecs c86_p c86_trgt c86_trgt.
Proof.
  apply (made_encode no_codecs Debug c86_cfg c86_trgt c86_trgt c86_p I).
  - repeat constructor; unfold is_byte; lia.
  - vm_compute. reflexivity.
  - vm_compute. reflexivity.
  - vm_compute. reflexivity.
Qed.
Lemma p_loop_spec m cd (Hcd : codecs_rest cd) : forall fuel src b s pos, binv b -> exists src', option_map rbuf src' = option_map rbuf src /\
  match apply_loop (next_section m cd) fuel (option_map rbuf src) (b_ahead b) s pos with
  | (s', Ok rest) => exists b', p_loop m cd fuel src b s pos = (s', src', Ok b') /\ bok b b' rest
  | (s', Err e) => p_loop m cd fuel src b s pos = (s', src', Err e)
  | (s', Panic) => p_loop m cd fuel src b s pos = (s', src', Panic)
  | (s', Diverge) => p_loop m cd fuel src b s pos = (s', src', Diverge)
  end.
Proof.
  induction fuel as [|k IH]; intros src b s pos Hb; cbn [p_loop apply_loop]; [exists src; auto|]. pose proof (sim_next m cd Hcd b Hb) as L.
  destruct (next_section m cd (b_ahead b)) as [[[ops h] rest]|e| |]; try (rewrite L; exists src; auto; fail). destruct L as (b1 & -> & K1).
  unfold apply_ops. destruct (p_ops_spec ops src (sink_seek s pos) pos) as (src1 & E & H1). rewrite E. destruct (apply_ops_loop (option_map rbuf src) ops (sink_seek s pos) pos) as [[s1 p1] [u|e| |]]; cbn [fst snd]; try (exists src1; auto; fail).
  destruct (h_more h); [|exists src1; split; [exact H1|exists b1; auto]]. pose proof (proj1 K1) as <-. destruct (IH src1 b1 s1 p1 (bok_inv _ _ _ K1)) as (src2 & H2 & E2). rewrite H1 in E2, H2.
  exists src2. split; [exact H2|]. destruct (apply_loop (next_section m cd) k (option_map rbuf src) (b_ahead b1) s1 p1) as [s2 [r|e| |]]; try exact E2.
  destruct E2 as (b2 & E2 & K2). exists b2. split; [exact E2|exact (bok_trans _ _ _ _ _ K1 K2)].
Qed.
Lemma binv_start r : 0 <= rpos r <= zlen (rbuf r) -> binv (mkB [] r).
Proof. intro H. split; cbn [b_buf b_in]; [rewrite (@zlen_nil Z); unfold BUF_CAP; lia|exact H]. Qed.
Lemma p_loop_exhausts m cd (Hcd : codecs_rest cd) fuel src r s pos s' src' b' : 0 <= rpos r <= zlen (rbuf r) -> zlen (ahead r) <= BUF_CAP ->
  p_loop m cd fuel src (mkB [] r) s pos = (s', src', Ok b') -> exhausted b'.
Proof.
  intros Hp Hz. destruct fuel as [|k]; cbn [p_loop]; [discriminate|]. pose proof (sim_next m cd Hcd _ (binv_start r Hp)) as L.
  destruct (b_next_section m cd (mkB [] r)) as [[[ops h] b1]|e| |] eqn:E; try discriminate. pose proof (first_section m cd r _ b1 Hcd Hz Hp E) as X1.
  destruct (next_section m cd (b_ahead (mkB [] r))) as [[[ops' h'] rest]|e| |]; try congruence. destruct L as (b1' & L & K1). injection L as <- <- <-.
  destruct (p_ops src ops (sink_seek s pos) pos) as [[[s1 p1] src1] [u|e| |]]; try discriminate. destruct (h_more h); [|intro H; injection H as _ _ <-; exact X1].
  destruct (p_loop_spec m cd Hcd k src1 b1 s1 p1 (bok_inv _ _ _ K1)) as (src2 & _ & E2). destruct (apply_loop (next_section m cd) k (option_map rbuf src1) (b_ahead b1) s1 p1) as [s2 [r2|e| |]]; try (rewrite E2; discriminate).
  destruct E2 as (b2 & E2 & K2). rewrite E2. intro H. injection H as _ _ <-. apply K2. exact X1.
Qed.
(** C86. apply_patch uses what lies in front of the patch reader; where the source reader stands does not matter (addresses count from its start). *)
Theorem C86_apply_reads_from_the_position : forall m cd patch src s, codecs_rest cd -> 0 <= rpos patch <= zlen (rbuf patch) ->
  exists src' r, p_apply_patch m cd patch src s = (fst (apply_patch m cd (ahead patch) (option_map rbuf src) s), src', r) /\
    option_map rbuf src' = option_map rbuf src /\
    (do _ <- r; Ok tt) = snd (apply_patch m cd (ahead patch) (option_map rbuf src) s).
Proof.
  intros m cd patch src s Hcd Hp. unfold p_apply_patch, apply_patch.
  destruct (p_loop_spec m cd Hcd (S (length (ahead patch))) src (mkB [] patch) s 0 (binv_start _ Hp)) as (src' & H & E). change (b_ahead (mkB [] patch)) with (ahead patch) in E.
  destruct (apply_loop (next_section m cd) (S (length (ahead patch))) (option_map rbuf src) (ahead patch) s 0) as [s1 [r1|e| |]].
  - destruct E as (b' & -> & _). do 2 eexists. split; [reflexivity|]. auto.
  - rewrite E. do 2 eexists. split; [reflexivity|]. auto.
  - rewrite E. do 2 eexists. split; [reflexivity|]. auto.
  - rewrite E. do 2 eexists. split; [reflexivity|]. auto.
Qed.
(** C86. Where apply_patch leaves the patch reader: behind the patch, at most one buffer (8192 bytes) further, and at the very end if the rest of the file fitted into the buffer. *)
Theorem C86_reader_afterwards : forall m cd p src out, codecs_rest cd -> made cd p src out -> forall pre post x old q,
  exists q' x' y, p_apply_patch m cd (mkRdr (pre ++ p ++ post) (zlen pre)) (Some (mkRdr src x)) (mkSink old q) =
    (mkSink (out ++ drop (zlen out) old) q', Some (mkRdr src x'), Ok (mkRdr (pre ++ p ++ post) y)) /\
    zlen (pre ++ p) <= y <= Z.min (zlen (pre ++ p ++ post)) (zlen (pre ++ p) + 8192) /\
    (zlen (p ++ post) <= 8192 -> y = zlen (pre ++ p ++ post)).
Proof.
  intros m cd p src out Hcd Hp pre post x old q. destruct (made_stream _ _ _ _ Hp m) as (secs & Hs).
  destruct (C75_every_workflow _ _ _ _ Hp m) as (HA & _ & _ & ops & HR & Hg). destruct (applies_extract _ _ _ _ _ _ HA HR (good_ok _ Hg)) as [_ Hrun].
  destruct HR as (l & r & Hpr & ->). rewrite <- (app_nil_r p) in Hpr. rewrite (stream_read_same _ _ _ Hs _ _ _ Hpr) in *.
  pose proof (ops_ok_nonneg _ (good_ok _ Hg)) as Hnn. set (R := mkRdr (pre ++ p ++ post) (zlen pre)).
  assert (HR : 0 <= rpos R <= zlen (rbuf R)) by (cbn [R rbuf rpos]; rewrite !zlen_app; pose proof (zlen_nonneg pre); pose proof (zlen_nonneg p); pose proof (zlen_nonneg post); lia).
  assert (EA : ahead R = p ++ post) by (unfold ahead; cbn [R rbuf rpos]; apply drop_app; reflexivity).
  unfold p_apply_patch. destruct (p_loop_spec m cd Hcd (S (length (ahead R))) (Some (mkRdr src x)) (mkB [] R) (mkSink old q) 0 (binv_start _ HR)) as (src' & H & E).
  change (b_ahead (mkB [] R)) with (ahead R) in E. cbn [option_map rbuf] in E, H. rewrite EA in E.
  destruct (apply_loop_stream _ _ _ _ Hs (S (length (p ++ post))) src old [] q post (Nat.lt_succ_diag_r _) Hnn) as (p' & E1).
  cbn [app zlen length Z.of_nat] in E1. rewrite over_0 in E1. rewrite E1 in E. rewrite (perform_old _ old _ [] _ Hnn Hrun) in E. destruct E as (b' & E & Kb). cbn [app] in E.
  destruct src' as [[b x']|]; [|discriminate H]. cbn [option_map rbuf] in H. injection H as ->. rewrite EA. exists p', x', (rpos (b_in b')). rewrite E. cbn [bind].
  destruct Kb as (Ka & [Kc Kp] & Kr & _). cbn [b_in R rbuf] in Kr. split; [|].
  - unfold over. destruct (b_in b') as [bf pp]. cbn [rbuf rpos] in *. subst bf. reflexivity.
  - rewrite Kr in Kp. pose proof (zlen_ahead (b_in b')) as Ez. rewrite Kr in Ez. specialize (Ez Kp). pose proof (f_equal zlen Ka) as Kz. unfold b_ahead in Kz. rewrite zlen_app in Kz. rewrite !zlen_app in *. unfold BUF_CAP in Kc.
    pose proof (zlen_nonneg (b_buf b')). split; [lia|]. intro Hz. rewrite <- EA in E.
    assert (X : exhausted b') by (apply (p_loop_exhausts m cd Hcd _ _ R _ _ _ _ b' HR) in E; [exact E|rewrite EA, zlen_app; unfold BUF_CAP; lia]).
    unfold exhausted in X. rewrite X in Ez. rewrite (@zlen_nil Z) in Ez. lia.
Qed.
(** C86, "a file of patches can be applied one after the other from one reader", is false: apply_patch reads ahead. *)
Theorem C86_patches_in_a_row_refuted : ~ (forall m cd p1 p2 src out1 out2, codecs_rest cd -> made cd p1 src out1 -> made cd p2 src out2 ->
  forall s1 src1 r1, p_apply_patch m cd (mkRdr (p1 ++ p2) 0) (Some (mkRdr src 0)) (mkSink [] 0) = (s1, src1, Ok r1) ->
  exists q src2 r2, p_apply_patch m cd r1 src1 (mkSink [] 0) = (mkSink out2 q, src2, Ok r2)).
Proof.
  intro H. pose proof c86_made as Hm. specialize (H Debug no_codecs c86_p c86_p c86_trgt c86_trgt c86_trgt no_codecs_rest Hm Hm).
  destruct (C86_reader_afterwards Debug no_codecs c86_p c86_trgt c86_trgt no_codecs_rest Hm [] c86_p 0 [] 0) as (q' & x' & y & E & _ & Hy). cbn [app] in E, Hy. change (zlen (@nil Z)) with 0 in E.
  destruct (H _ _ _ E) as (q & src2 & r2 & E2). rewrite Hy in E2 by (vm_compute; discriminate). vm_compute in E2. discriminate E2.
Qed.

(** C86, "a patch encoded from a reader applies to that reader", is false when the source reader does not stand at its start: the addresses count from where it stood. *)
Theorem C86_refuted : ~ (forall m cd c r trgt p dict' output', comp_lossless cd (cf_comp c) trgt -> Forall is_byte trgt -> Forall is_byte (rbuf r) -> 0 <= rpos r <= zlen (rbuf r) ->
  p_encode m cd c (Some r) (mkRdr trgt 0) = ((p, Ok tt), dict', output') ->
  exists q src' o, p_apply_patch m cd (mkRdr p 0) (Some r) (mkSink [] 0) = (mkSink trgt q, src', Ok o)).
Proof.
  intro H. specialize (H Debug no_codecs c86_cfg (mkRdr c86_src 5) c86_trgt).
  assert (E : exists p d o, p_encode Debug no_codecs c86_cfg (Some (mkRdr c86_src 5)) (mkRdr c86_trgt 0) = ((p, Ok tt), d, o)) by (do 3 eexists; vm_compute; reflexivity).
  destruct E as (p & d & o & E). destruct (H p d o I) as (q & s' & o' & X); [| | |exact E|].
  - repeat constructor; unfold is_byte; lia.
  - repeat constructor; unfold is_byte; lia.
  - vm_compute. split; discriminate.
  - vm_compute in E. injection E as <- <- <-. vm_compute in X. discriminate X.
Qed.
(** What holds instead: the patch applies to what lay in front of the source reader. (At the start of the reader that is all of it.) *)
Theorem C86_roundtrip_from_the_position : forall m m' cd c r output p dict' output', codecs_rest cd -> comp_lossless cd (cf_comp c) (ahead output) -> Forall is_byte (ahead output) -> zlen (ahead output) < 2 ^ 63 -> zlen (ahead r) < 2 ^ 63 ->
  p_encode m cd c (Some r) output = ((p, Ok tt), dict', output') ->
  forall x, exists q src' o, p_apply_patch m' cd (mkRdr p 0) (Some (mkRdr (ahead r) x)) (mkSink [] 0) = (mkSink (ahead output) q, src', Ok o).
Proof.
  intros m m' cd c r output p dict' output' Hcd Hc Hb Ho Hs H x. destruct (C86_encode_reads_from_the_position m cd c (Some r) output) as (d & o & E & _). rewrite E in H. injection H as H <- <-. cbn [option_map] in H.
  destruct (C86_reader_afterwards m' cd p (ahead r) (ahead output) Hcd (made_encode cd m c (ahead r) (ahead output) p Hc Hb Ho Hs H) [] [] x [] 0) as (q & x' & y & E' & _).
  cbn [app] in E'. rewrite app_nil_r in E'. change (zlen (@nil Z)) with 0 in E'. exists q, (Some (mkRdr (ahead r) x')), (mkRdr p y). rewrite E'. unfold drop. rewrite skipn_nil, app_nil_r. reflexivity.
Qed.
Example C86_example : (exists d o, p_encode Release no_codecs c86_cfg (Some (mkRdr c86_src 5)) (mkRdr c86_trgt 0) = ((c86_p, Ok tt), d, o) /\ ahead o = []) /\
  (exists q s', p_apply_patch Debug no_codecs (mkRdr (7 :: c86_p ++ [8]) 1) (Some (mkRdr (drop 5 c86_src) 3)) (mkSink [] 0) = (mkSink c86_trgt q, s', Ok (mkRdr (7 :: c86_p ++ [8]) 7))).
Proof. split; [do 2 eexists; split; [vm_compute; reflexivity|vm_compute; reflexivity]|do 2 eexists; vm_compute; reflexivity]. Qed.
(** A longer file behind the patch: the reader stops one buffer on. *)
Example C86_example_ahead : exists q s', p_apply_patch Debug no_codecs (mkRdr (7 :: c86_p ++ rep 1 10000) 1) (Some (mkRdr c86_trgt 3)) (mkSink [] 0) = (mkSink c86_trgt q, s', Ok (mkRdr (7 :: c86_p ++ rep 1 10000) 8193)).
Proof. do 2 eexists. vm_compute. reflexivity. Qed.
Print Assumptions C86_encode_reads_from_the_position.
Print Assumptions C86_apply_reads_from_the_position.
Print Assumptions C86_reader_afterwards.
Print Assumptions C86_patches_in_a_row_refuted.
Print Assumptions C86_roundtrip_from_the_position.
Print Assumptions C86_refuted.
