(** Properties C77 and C78: crash points. A patch file cut off at any byte is never mistaken for a patch, whoever wrote it and whatever reads it. *)
From Verif Require Import Base Spec SpecEnc MCommon MWriter MReader MDecoder MOpMaker MTrgtMatcher MSrcMatcher MEncInner MEncode MMerger MTranscoder SpecApi SpecMerge
  PBase PStream PSection PWriter PDecoder PPatch POpMaker PEncode PMerge PMerge2 PMerge3 PMerge4 PTrans MVcdiff SpecVcd PVcdiff TEncode TMerge TTrans TVcdiff TPipe.
Ltac Zify.zify_post_hook ::= idtac.
Arguments Z.add : simpl never.
Arguments Z.sub : simpl never.
Arguments Z.mul : simpl never.
Arguments Z.pow : simpl never.

(** The contract of an external decoder as a reader of a stream: a successful run consumes some bytes [c] of its input, what follows them does not matter, and cut off anywhere they are an
    end-of-file error. *)
Definition decoder_stream (dec : list Z -> res (list Z * list Z)) : Prop :=
  forall bs v rest, dec bs = Ok (v, rest) ->
  exists c, bs = c ++ rest /\ (forall t, dec (c ++ t) = Ok (v, t)) /\ (forall c1 c2, c = c1 ++ c2 -> c2 <> [] -> dec c1 = Err EOF).
Definition codecs_stream (cd : codecs) : Prop := decoder_stream (zstd_dec cd) /\ decoder_stream (brotli_dec cd).

Lemma next_section_nil m cd x : next_section m cd [] <> Ok x.
Proof. discriminate. Qed.
Lemma apply_patch_p m cd bs dict s s' : apply_patch m cd bs dict s = (s', Ok tt) <->
  exists r, apply_loop_p (next_section m cd) (S (length bs)) dict s 0 bs = Ok (s', r).
Proof.
  unfold apply_patch, apply_loop_p. destruct (apply_loop (next_section m cd) (S (length bs)) dict bs s 0) as [s1 [r|e| |]]; cbn [bind]; split.
  - intro H. injection H as ->. eauto.
  - intros (r' & H). injection H as -> _. reflexivity.
  - discriminate.
  - intros (r' & H). discriminate.
  - discriminate.
  - intros (r' & H). discriminate.
  - discriminate.
  - intros (r' & H). discriminate.
Qed.

(** Not every decoder reports a cut-off stream as end of file (StreamingDecoder::new is unwrapped: a panic). It is enough that it does not take it for a whole one. *)
Definition decoder_cut (dec : list Z -> res (list Z * list Z)) : Prop :=
  forall bs v rest, dec bs = Ok (v, rest) ->
  exists c, bs = c ++ rest /\ (forall t, dec (c ++ t) = Ok (v, t)) /\ (forall c1 c2 x, c = c1 ++ c2 -> c2 <> [] -> dec c1 <> Ok x).
Definition codecs_cut (cd : codecs) : Prop := decoder_cut (zstd_dec cd) /\ decoder_cut (brotli_dec cd).
(** The same decoders, with end of file for every failure. *)
Definition eofy {A} (r : res A) : res A := match r with Ok x => Ok x | _ => Err EOF end.
Definition eof_codecs (cd : codecs) : codecs :=
  mkCodecs (zstd_enc cd) (fun bs => Ok bs) (fun bs => eofy (zstd_dec cd bs)) (brotli_enc cd) (fun bs => eofy (brotli_dec cd bs)).
Lemma eofy_ok {A} (r : res A) x : eofy r = Ok x <-> r = Ok x.
Proof. destruct r; cbn; split; congruence. Qed.
Lemma eofy_stream dec : decoder_cut dec -> decoder_stream (fun bs => eofy (dec bs)).
Proof.
  intros H bs v rest E. apply (proj1 (eofy_ok _ _)) in E. destruct (H _ _ _ E) as (c & Ec & Ht & Hc). exists c. split; [exact Ec|]. split; [intro t; apply eofy_ok, Ht|].
  intros c1 c2 E1 Hne. pose proof (fun x => Hc c1 c2 x E1 Hne) as N. destruct (dec c1) as [x|e| |]; [now elim (N x)|reflexivity..].
Qed.
Lemma eof_codecs_stream cd : codecs_cut cd -> codecs_stream (eof_codecs cd).
Proof. intros [Hz Hb]. split; [exact (eofy_stream _ Hz)|exact (eofy_stream _ Hb)]. Qed.
Lemma bind_sim {A B} (r r' : res A) (f : A -> res B) : (forall x, r = Ok x <-> r' = Ok x) -> forall y, (do x <- r; f x) = Ok y <-> (do x <- r'; f x) = Ok y.
Proof.
  intros H y. split; intro E; apply bind_ok in E as (x & Ex & Ef); apply H in Ex; rewrite Ex; exact Ef.
Qed.
Lemma next_sim m cd bs x : next_section m cd bs = Ok x <-> next_section m (eof_codecs cd) bs = Ok x.
Proof.
  unfold next_section. destruct (read_section_header m bs) as [[h body]|e| |]; cbn [bind]; [|tauto..].
  destruct (h_comp h =? 1); [tauto|]. destruct (h_comp h =? 2); [|destruct (h_comp h =? 3); [|tauto]].
  - apply bind_sim. intro y. unfold zstd_dec at 2. cbn [eof_codecs zstd_open zstd_read]. symmetry. apply eofy_ok.
  - apply bind_sim. intro y. cbn [eof_codecs brotli_dec]. symmetry. apply eofy_ok.
Qed.
Lemma apply_loop_sim next next' dict : (forall bs x, next bs = Ok x <-> next' bs = Ok x) -> forall k bs s pos,
  fst (apply_loop next k dict bs s pos) = fst (apply_loop next' k dict bs s pos) /\
  forall x, snd (apply_loop next k dict bs s pos) = Ok x <-> snd (apply_loop next' k dict bs s pos) = Ok x.
Proof.
  intro H. induction k as [|k IH]; intros bs s pos; [split; [reflexivity|tauto]|]. cbn [apply_loop]. pose proof (H bs) as Hb.
  destruct (next bs) as [[[ops h] rest]|e| |] eqn:E; destruct (next' bs) as [[[ops' h'] rest']|e'| |] eqn:E'; cbn [fst snd];
    try (split; [reflexivity|intro; split; discriminate]);
    try (exfalso; pose proof (proj1 (Hb _) eq_refl); discriminate); try (exfalso; pose proof (proj2 (Hb _) eq_refl); discriminate).
  pose proof (proj1 (Hb _) eq_refl) as X. injection X as -> -> ->. destruct (apply_ops dict ops s pos) as [[s' p'] [u|e| |]]; cbn [fst snd]; [|split; [reflexivity|intro; tauto]..].
  destruct (h_more h); [apply IH|split; [reflexivity|intro; tauto]].
Qed.
Lemma apply_patch_sim m cd bs dict s : fst (apply_patch m cd bs dict s) = fst (apply_patch m (eof_codecs cd) bs dict s) /\
  (snd (apply_patch m cd bs dict s) = Ok tt <-> snd (apply_patch m (eof_codecs cd) bs dict s) = Ok tt).
Proof.
  unfold apply_patch. destruct (apply_loop_sim _ _ dict (next_sim m cd) (S (length bs)) bs s 0) as [E1 E2].
  destruct (apply_loop (next_section m cd) (S (length bs)) dict bs s 0) as [s1 r1]. destruct (apply_loop (next_section m (eof_codecs cd)) (S (length bs)) dict bs s 0) as [s2 r2].
  cbn [fst snd] in *. split; [exact E1|]. destruct r1 as [x|e| |], r2 as [y|e'| |]; cbn [bind]; try (split; congruence);
    try (exfalso; pose proof (proj1 (E2 _) eq_refl); discriminate); try (exfalso; pose proof (proj2 (E2 _) eq_refl); discriminate).
Qed.
Lemma apply_patch_sim_ok m cd bs dict s s' : apply_patch m cd bs dict s = (s', Ok tt) <-> apply_patch m (eof_codecs cd) bs dict s = (s', Ok tt).
Proof.
  destruct (apply_patch_sim m cd bs dict s) as [E1 E2]. destruct (apply_patch m cd bs dict s) as [s1 r1], (apply_patch m (eof_codecs cd) bs dict s) as [s2 r2]. cbn [fst snd] in *. subst.
  split; intro H; injection H as -> Hr; f_equal; now apply E2.
Qed.

(** C77, for decoders that report a cut-off stream as end of file. *)
Theorem C77_cut_patches_are_end_of_file : forall m cd bs dict s s', codecs_stream cd -> apply_patch m cd bs dict s = (s', Ok tt) ->
  exists patch rest, bs = patch ++ rest /\
    (forall t, apply_patch m cd (patch ++ t) dict s = (s', Ok tt)) /\
    (forall c1 c2, patch = c1 ++ c2 -> c2 <> [] -> snd (apply_patch m cd c1 dict s) = Err EOF).
Proof.
  intros m cd bs dict s s' [Hz Hb] H. apply apply_patch_p in H as (r & H).
  pose proof (streaming_apply (next_section m cd) dict s 0 (streaming_next_section m cd Hz Hb) (next_section_nil m cd)) as Hst.
  destruct (Hst _ _ _ H) as (c & E & Ht & Hc). exists c, r. split; [exact E|]. split.
  - intro t. apply apply_patch_p. exists t. apply Ht.
  - intros c1 c2 E1 Hne. specialize (Hc c1 c2 E1 Hne). unfold apply_loop_p in Hc. unfold apply_patch.
    destruct (apply_loop (next_section m cd) (S (length c1)) dict c1 s 0) as [s1 [r1|e| |]]; try discriminate Hc. injection Hc as ->. reflexivity.
Qed.
(** C77. Whatever bytes are applied as a patch, to whatever sink, with or without a dictionary: if that succeeds, it depends on a first part of the bytes only, whatever follows; and if this part is cut
    off anywhere, applying fails. So no patch is a beginning of another one. *)
Theorem C77_accepted_patches_are_prefix_free : forall m cd bs dict s s', codecs_cut cd -> apply_patch m cd bs dict s = (s', Ok tt) ->
  exists patch rest, bs = patch ++ rest /\
    (forall t, apply_patch m cd (patch ++ t) dict s = (s', Ok tt)) /\
    (forall c1 c2, patch = c1 ++ c2 -> c2 <> [] -> snd (apply_patch m cd c1 dict s) <> Ok tt).
Proof.
  intros m cd bs dict s s' Hcd H. apply (proj1 (apply_patch_sim_ok _ _ _ _ _ _)) in H. destruct (C77_cut_patches_are_end_of_file m _ bs dict s s' (eof_codecs_stream cd Hcd) H) as (c & r & E & Ht & Hc).
  exists c, r. split; [exact E|]. split; [intro t; apply (proj2 (apply_patch_sim_ok _ _ _ _ _ _)), Ht|]. intros c1 c2 E1 Hne X. apply (proj1 (proj2 (apply_patch_sim _ _ _ _ _))) in X. rewrite (Hc c1 c2 E1 Hne) in X. discriminate.
Qed.
(** In particular, bytes behind an accepted patch never change its meaning. *)
Theorem C77_extension_changes_nothing : forall m cd p q dict s s1 s2, codecs_cut cd -> apply_patch m cd p dict s = (s1, Ok tt) -> apply_patch m cd (p ++ q) dict s = (s2, Ok tt) ->
  s1 = s2 /\ forall c1 c2, q = c1 ++ c2 -> apply_patch m cd (p ++ c1) dict s = (s1, Ok tt).
Proof.
  intros m cd p q dict s s1 s2 Hcd H1 H2. destruct (C77_accepted_patches_are_prefix_free m cd p dict s s1 Hcd H1) as (c & r & -> & Ht & _). split.
  - rewrite <- app_assoc, Ht in H2. congruence.
  - intros c1 c2 _. rewrite <- app_assoc. apply Ht.
Qed.

(** ** Sections a workflow writes *)
Lemma stream_cut next secs bs : streaming next -> stream_of false next secs bs -> stream_of true next secs bs.
Proof.
  intro Hst. assert (S : forall b ops more, sec_at false next b ops more -> sec_at true next b ops more).
  { intros b ops more (H1 & H2 & _). split; [exact H1|]. split; [exact H2|]. intros _ c1 c2 E Hne. destruct (H2 []) as (h & E1 & _).
    destruct (Hst _ _ _ E1) as (c & Ec & _ & Hc). rewrite !app_nil_r in Ec. subst c. exact (Hc c1 c2 E Hne). }
  induction 1 as [ops b Hs|ops b secs bs Hs _ IH]; constructor; auto.
Qed.
Lemma extract_trunc m cd secs bs : stream_of true (next_section m cd) secs bs -> forall fuel c1 c2 pos st, bs = c1 ++ c2 -> c2 <> [] -> (length c1 < fuel)%nat ->
  extract_loop fuel m cd c1 pos st = Err EOF.
Proof.
  induction 1 as [ops b (Hb0 & Hn & Hp)|ops b secs bs (Hb0 & Hn & Hp) Hs IH]; intros fuel c1 c2 pos st E Hne Hf; specialize (Hp eq_refl); (destruct fuel as [|k]; [lia|]); cbn [extract_loop].
  - rewrite (Hp c1 c2 E Hne). reflexivity.
  - apply app_prefix_cases in E as [(x & Eb & -> & Hx)|(y & -> & ->)].
    + rewrite (Hp c1 x Eb Hx). reflexivity.
    + destruct (Hn y) as (h & Ey & Hm). rewrite Ey. cbn [bind]. destruct (extract_ops ops pos st) as [[l p] s]. rewrite Hm.
      pose proof (nonempty_app_lt b y Hb0) as Hlt. rewrite (IH k y c2 p s eq_refl Hne) by lia. reflexivity.
Qed.
Lemma write_all_stream {A} (out : list A) m m' cd sc f secs b : comp_lossless cd sc out -> Forall (fun s => fst s = [] -> out = []) secs -> Forall (fun s => sec_in f max_win_size (fst s, set_format (snd s) f)) secs -> flags_ok (map snd secs) ->
  write_all_sections (section_writer m cd sc) f secs = (b, Ok tt) -> exists l, stream_of false (next_section m' cd) l b.
Proof.
  intros Hc Hem Hin Hfl H. rewrite (write_all_is _ _ _ [] [] 0) in H. eexists. eapply secs_good_stream. eapply write_sections_good; [| | |exact Hfl|exact H].
  - intros ops1 h1 b1 He Hi Hw. exact (section_writer_good m m' cd sc f ops1 h1 b1 (comp_lossless_imp cd sc out ops1 He Hc) Hi Hw).
  - exact Hem.
  - exact Hin.
Qed.
Lemma made_stream cd p src out : made cd p src out -> forall m', exists secs, stream_of false (next_section m' cd) secs p.
Proof.
  intros H m'. destruct H as [m c src out p Hc Hb Ho Hs H|m p f sc seg src out p' Hp Hc H|m src msgs out p Hv Hs Ho Hl H|m newest older src out r seg f sc p Hch E Hc Hw].
  - destruct (encode_good m m' cd c (Some src) out p Hc Hb Ho Hs H) as (cs & ops & _ & _ & _ & _ & _ & _ & _ & G). eexists. eapply secs_good_stream. exact G.
  - pose proof (C75_every_workflow _ _ _ _ Hp m) as Hg. assert (Hne : out <> []).
    { intros ->. destruct Hg as (HA & Hs & Ho & ops & HR & Hg). destruct (applies_extract _ _ _ _ _ _ HA HR (good_ok _ Hg)) as [HE Hrun].
      pose proof (run_ops_len src ops [] _ (ops_ok_nonneg _ (good_ok _ Hg)) Hrun) as Hl. rewrite !(@zlen_nil Z) in Hl. pose proof (good_zlen _ Hg).
      assert (ops = []) as -> by (apply zlen_0; pose proof (zlen_nonneg ops); lia). cbn [number] in HE. unfold transcode in H. rewrite HE in H. unfold wlift in H. cbn [wbind fst number map] in H. rewrite optimize_nil in H. discriminate. }
    destruct (good_trans_ops _ _ _ _ _ Hg Hne) as (ops & Ht & Hgo & Hr).
    destruct (trans_ops_spec m cd p ops f sc seg Ht) as (ops' & Eo & A & O & N & Z0 & Hcp & Et & Hcat & Hfl & Hin). rewrite Et in H.
    eapply (write_all_stream out); [exact Hc| | |exact Hfl|exact H]; (eapply Forall_impl; [|exact Hin]).
    + intros s (_ & _ & Hx) E. specialize (Hx E). subst ops'. cbn in A. rewrite run_ops_atoms, <- A in Hr. cbn in Hr. congruence.
    + intros s Hx. apply Hx.
  - destruct (convert_good m src msgs out Hv Hs Ho Hl) as (b & secs & E & G & _). rewrite H in E. injection E as ->. eexists. eapply secs_good_stream. exact (G m' cd).
  - destruct (made_chain_chain _ _ _ _ Hch) as [Hs Hcc]. specialize (Hcc m).
    assert (Hn : new_ok m cd newest) by (inversion Hcc; subst; eapply merge_ok_new; eassumption).
    destruct (C49_merge_chain m cd newest older src out Hcc Hs Hn) as (r' & E' & Hg & Hr & _). rewrite E in E'. injection E' as <-.
    pose proof (chain_bound _ _ _ _ _ Hcc Hs) as Ho. unfold summary_write in Hw. cbv zeta in Hw. rewrite clamp_idem in Hw.
    destruct (sections_in (match f with Some f => f | None => Interleaved end) (match seg with Some w => w | None => MAX_WIN_SIZE end) src out _ (conj Hg Hr) Ho Hs) as (Hcat & Hfl & Hin).
    eapply (write_all_stream out); [exact Hc|eapply makes_sections_empty; exact (conj Hg Hr)| |exact Hfl|exact Hw].
    eapply Forall_impl; [|exact Hin]. intros s (G1 & G2 & G3 & G4 & G5 & G5b & G6).
    repeat (split; [assumption|]). eapply Z.le_trans; [exact G6|]. unfold clamp_section, max_inst_size, max_win_size. lia.
Qed.

Lemma stream_read_same next secs bs : stream_of false next secs bs -> forall l t r, patch_read next (bs ++ t) l r -> map fst l = secs.
Proof.
  induction 1 as [ops b (_ & Hn & _)|ops b secs bs (_ & Hn & _) _ IH]; intros l t r H.
  - destruct (Hn t) as (h & E & Hm). inversion H as [? ops1 h1 r1 E1 Hm1|? ops1 h1 r1 l1 ? E1 Hm1 _]; subst; rewrite E in E1; injection E1 as <- <- <-; [reflexivity|congruence].
  - rewrite <- app_assoc in H. destruct (Hn (bs ++ t)) as (h & E & Hm). inversion H as [? ops1 h1 r1 E1 Hm1|? ops1 h1 r1 l1 ? E1 Hm1 H1]; subst; rewrite E in E1; injection E1 as <- <- <-; [congruence|].
    cbn [map fst]. f_equal. exact (IH _ _ _ H1).
Qed.
Lemma apply_loop_trunc_prefix next secs bs : stream_of true next secs bs -> forall fuel d old out0 out p c1 c2, bs = c1 ++ c2 -> c2 <> [] -> (length c1 < fuel)%nat ->
  Forall op_nonneg (concat secs) -> run_ops d out0 (concat secs) = Some out ->
  exists out1 x p', apply_loop next fuel (Some d) c1 (mkSink (over out0 old) p) (zlen out0) = (mkSink (over out1 old) p', Err EOF) /\ out = out1 ++ x.
Proof.
  induction 1 as [ops b (Hb0 & Hn & Hp)|ops b secs bs (Hb0 & Hn & Hp) Hs IH]; intros fuel d old out0 out p c1 c2 E Hne Hf Hnn Hr; specialize (Hp eq_refl); (destruct fuel as [|k]; [lia|]); cbn [apply_loop].
  - rewrite (Hp c1 c2 E Hne). destruct (run_ops_prefix _ _ _ _ Hr) as (x & Hx). eauto.
  - apply app_prefix_cases in E as [(x & Eb & -> & Hx)|(y & -> & ->)].
    + rewrite (Hp c1 x Eb Hx). destruct (run_ops_prefix _ _ _ _ Hr) as (z & Hz). eauto.
    + destruct (Hn y) as (h & Ey & Hm). rewrite Ey. cbn [concat] in Hnn, Hr. apply Forall_app in Hnn as [Hn1 Hn2]. rewrite run_ops_app in Hr.
      destruct (run_ops d out0 ops) as [o1|] eqn:E1; [|discriminate]. rewrite apply_ops_spec by exact Hn1. rewrite (perform_old _ _ _ _ _ Hn1 E1). cbv iota zeta. rewrite Hm.
      pose proof (nonempty_app_lt b y Hb0) as Hlt. exact (IH k d old o1 out (zlen o1) y c2 eq_refl Hne ltac:(lia) Hn2 Hr).
Qed.

Lemma extract_sim m cd : forall fuel bs pos st x, extract_loop fuel m cd bs pos st = Ok x -> extract_loop fuel m (eof_codecs cd) bs pos st = Ok x.
Proof.
  induction fuel as [|k IH]; intros bs pos st x H; [discriminate|]. cbn [extract_loop] in *. apply bind_ok in H as ([[ops h] rest] & E & H). apply (proj1 (next_sim _ _ _ _)) in E. rewrite E. cbn [bind].
  destruct (extract_ops ops pos st) as [[l p] s1]. destruct (h_more h); [|exact H]. apply bind_ok in H as (y & Ey & H). rewrite (IH _ _ _ _ Ey). exact H.
Qed.
Lemma stream_sim m cd secs bs : stream_of false (next_section m cd) secs bs -> stream_of false (next_section m (eof_codecs cd)) secs bs.
Proof.
  assert (S : forall b ops more, sec_at false (next_section m cd) b ops more -> sec_at false (next_section m (eof_codecs cd)) b ops more).
  { intros b ops more (H1 & H2 & H3). split; [exact H1|]. split; [|discriminate]. intro t. destruct (H2 t) as (h & E & Eh). exists h. split; [exact (proj1 (next_sim _ _ _ _) E)|exact Eh]. }
  induction 1; constructor; auto.
Qed.
Lemma cut_stream m cd p src out : codecs_cut cd -> made cd p src out -> exists secs, stream_of true (next_section m (eof_codecs cd)) secs p /\ stream_of false (next_section m cd) secs p.
Proof.
  intros Hcd Hp. destruct (made_stream _ _ _ _ Hp m) as (secs & Hs). exists secs. split; [|exact Hs]. destruct (eof_codecs_stream cd Hcd) as [Hz Hb].
  exact (stream_cut _ _ _ (streaming_next_section m (eof_codecs cd) Hz Hb) (stream_sim _ _ _ _ Hs)).
Qed.

(** C78, for decoders that report a cut-off stream as end of file. Crash points: let a workflow have made the patch [p], and let only its first bytes [c1] have reached the disk (all tools write strictly in order). Then every later use of the file fails
    with an end-of-file error, in any build, with any dictionary, sink and settings: applying it, starting a merger with it, merging it into any merger (whose own state is sound: debug builds
    check that first), transcoding it (and then nothing is written). *)
Theorem C78_interrupted_write_is_end_of_file : forall m cd p src out c1 c2, codecs_stream cd -> made cd p src out -> p = c1 ++ c2 -> c2 <> [] ->
  (forall d s, snd (apply_patch m cd c1 (Some d) s) = Err EOF) /\
  merger_new m cd c1 = Err EOF /\
  (forall g, m = Release \/ contiguousb 0 (mg_patch g) = true -> merger_merge m cd g c1 = Err EOF) /\
  (forall f sc seg, transcode m cd c1 f sc seg = ([], Err EOF)).
Proof.
  intros m cd p src out c1 c2 [Hz Hb] Hp E Hne. destruct (made_stream _ _ _ _ Hp m) as (secs & Hs). apply (stream_cut _ _ _ (streaming_next_section m cd Hz Hb)) in Hs.
  pose proof (extract_trunc m cd _ _ Hs (S (length c1)) c1 c2 0 stats_new E Hne (Nat.lt_succ_diag_r _)) as Hx.
  assert (Hx' : extract_patch_instructions m cd c1 = Err EOF) by exact Hx. split; [|split; [|split]].
  - intros d s. exact (apply_patch_trunc m cd _ p c1 c2 d s Hs E Hne).
  - unfold merger_new. rewrite Hx'. reflexivity.
  - intros g Hg. unfold merger_merge. assert (A : debug_assert_ m (contiguousb 0 (mg_patch g)) = Ok tt).
    { destruct Hg as [->|Hg]; [reflexivity|]. rewrite Hg. destruct m; reflexivity. }
    rewrite A. cbn [bind]. rewrite Hx'. reflexivity.
  - intros f sc seg. unfold transcode. rewrite Hx'. reflexivity.
Qed.
(** C78. The same for all decoders that do not take a cut-off stream for a whole one: none of these uses of the file succeeds (no output of transcoding, no merger). *)
Theorem C78_interrupted_write_is_detected : forall m cd p src out c1 c2, codecs_cut cd -> made cd p src out -> p = c1 ++ c2 -> c2 <> [] ->
  (forall d s, snd (apply_patch m cd c1 (Some d) s) <> Ok tt) /\
  (forall g, merger_new m cd c1 <> Ok g) /\
  (forall g g', merger_merge m cd g c1 <> Ok g') /\
  (forall f sc seg, fst (transcode m cd c1 f sc seg) = [] /\ snd (transcode m cd c1 f sc seg) <> Ok tt).
Proof.
  intros m cd p src out c1 c2 Hcd Hp E Hne. destruct (cut_stream m _ _ _ _ Hcd Hp) as (secs & Hs & _).
  assert (Hx : forall y, extract_patch_instructions m cd c1 <> Ok y).
  { intros y X. apply extract_sim in X. rewrite (extract_trunc m _ _ _ Hs (S (length c1)) c1 c2 0 stats_new E Hne (Nat.lt_succ_diag_r _)) in X. discriminate. } split; [|split; [|split]].
  - intros d s X. apply (proj1 (proj2 (apply_patch_sim _ _ _ _ _))) in X. rewrite (apply_patch_trunc m _ _ p c1 c2 d s Hs E Hne) in X. discriminate.
  - intros g X. unfold merger_new in X. apply bind_ok in X as (y & Ey & _). exact (Hx _ Ey).
  - intros g g' X. unfold merger_merge in X. apply bind_ok in X as (u & _ & X). apply bind_ok in X as (y & Ey & _). exact (Hx _ Ey).
  - intros f sc seg. unfold transcode. destruct (extract_patch_instructions m cd c1) as [y|e| |]; [now elim (Hx y)|split; [reflexivity|discriminate]..].
Qed.
(** And what applying the cut-off file to its own source has produced by then is a beginning of the right result (written over what the sink held before). *)
Theorem C78_interrupted_apply_is_a_prefix : forall m cd p src out c1 c2 old, codecs_cut cd -> made cd p src out -> p = c1 ++ c2 -> c2 <> [] ->
  exists out1 x pos, fst (apply_patch m cd c1 (Some src) (mkSink old 0)) = mkSink (out1 ++ drop (zlen out1) old) pos /\ out = out1 ++ x.
Proof.
  intros m cd p src out c1 c2 old Hcd Hp E Hne. destruct (cut_stream m _ _ _ _ Hcd Hp) as (secs & Hs & Hs0).
  destruct (C75_every_workflow _ _ _ _ Hp m) as (HA & _ & _ & ops & HR & Hg). destruct (applies_extract _ _ _ _ _ _ HA HR (good_ok _ Hg)) as [_ Hrun].
  destruct HR as (l & r & Hpr & ->). rewrite <- (app_nil_r p) in Hpr. rewrite (stream_read_same _ _ _ Hs0 _ _ _ Hpr) in *.
  destruct (apply_loop_trunc_prefix _ _ _ Hs (S (length c1)) src old [] out 0 c1 c2 E Hne (Nat.lt_succ_diag_r _) (ops_ok_nonneg _ (good_ok _ Hg)) Hrun) as (o1 & x & p' & Ea & Ex).
  exists o1, x, p'. split; [|exact Ex]. rewrite (proj1 (apply_patch_sim m cd c1 (Some src) (mkSink old 0))). unfold apply_patch.
  change (over [] old) with ([] ++ drop (zlen (@nil Z)) old) in Ea. rewrite (@zlen_nil Z) in Ea. cbn [app] in Ea.
  change (drop 0 old) with old in Ea. rewrite Ea. reflexivity.
Qed.
(** Without external codecs nothing is assumed: with decoders that always fail the contract holds, and such a workflow cannot have used zstd or brotli. *)
Definition no_codecs : codecs := mkCodecs (fun _ x => x) (fun bs => Ok bs) (fun _ => Err EOF) (fun _ x => x) (fun _ => Err EOF).
Lemma no_codecs_stream : codecs_stream no_codecs.
Proof. split; intros bs v rest H; discriminate H. Qed.

(** ** Instances *)
Lemma stream_is_cut dec : decoder_stream dec -> decoder_cut dec.
Proof. intros H bs v rest E. destruct (H _ _ _ E) as (c & Ec & Ht & Hc). exists c. split; [exact Ec|]. split; [exact Ht|]. intros c1 c2 x E1 Hne X. rewrite (Hc c1 c2 E1 Hne) in X. discriminate. Qed.
Lemma toy_dec_stream : decoder_stream toy_dec.
Proof.
  intros bs. remember (length bs) as n eqn:Hn. revert bs Hn. induction n as [n IH] using lt_wf_ind. intros bs -> v rest H.
  destruct bs as [|[|p|p] bs]; cbn [toy_dec] in H; try discriminate.
  - injection H as <- <-. exists [0]. split; [reflexivity|]. split; [reflexivity|]. intros c1 c2 E Hne. destruct c1 as [|x c1]; [reflexivity|]. exfalso. destruct c1; cbn in E; [|discriminate]. injection E as _ E. auto.
  - destruct p; try discriminate. destruct bs as [|b bs]; [discriminate|]. apply bind_ok in H as ([v' r'] & E & H). injection H as <- <-.
    destruct (IH (length bs)) with (bs := bs) (v := v') (rest := r') as (c & -> & Ht & Hc); [cbn; lia|reflexivity|exact E|].
    exists (1 :: b :: c). split; [reflexivity|]. split.
    + intro t. cbn [app toy_dec]. rewrite Ht. reflexivity.
    + intros c1 c2 Ec Hne. destruct c1 as [|x [|y c1]]; cbn [app] in Ec.
      * reflexivity.
      * injection Ec as <- _. reflexivity.
      * injection Ec as <- <- Ec. cbn [toy_dec]. rewrite (Hc c1 c2 Ec Hne). reflexivity.
Qed.
(** The zstd of [toy] panics when cut off in its frame header, and is fit for C77 and C78. *)
Lemma toy_cut : codecs_cut toy.
Proof.
  split; [|exact (stream_is_cut _ toy_dec_stream)]. intros bs v rest H. apply toy_zstd in H as (r & -> & H). destruct (stream_is_cut _ toy_dec_stream _ _ _ H) as (c & -> & Ht & Hc).
  exists (40 :: 181 :: c). split; [reflexivity|]. split; [intro t; apply Ht|]. intros c1 c2 x E Hne X. destruct x as [v' r']. apply toy_zstd in X as (r & -> & X). injection E as E. exact (Hc _ _ _ E Hne X).
Qed.

(** p24 (TPipe.v) was merged from two encoded patches and written segregated with smdiff compression; 30 bytes. *)
Example C77_example : forall m t, apply_patch m toy (p24 ++ t) (Some v2) (mkSink [] 0) = (mkSink v4 (zlen v4), Ok tt) /\
  (forall c1 c2, p24 = c1 ++ c2 -> c2 <> [] -> snd (apply_patch m toy c1 (Some v2) (mkSink [] 0)) <> Ok tt) /\ zlen p24 = 30.
Proof.
  intros m t. assert (E : apply_patch m toy p24 (Some v2) (mkSink [] 0) = (mkSink v4 (zlen v4), Ok tt)) by (destruct m; vm_compute; reflexivity).
  destruct (made_stream _ _ _ _ (proj1 p24_made) m) as (secs & Hs).
  split; [|split; [|reflexivity]].
  - destruct (C77_accepted_patches_are_prefix_free m toy p24 (Some v2) (mkSink [] 0) _ toy_cut E) as (c & r & E1 & H1 & _). rewrite E1, <- app_assoc. apply H1.
  - intros c1 c2 Ec Hne. apply (C78_interrupted_write_is_detected m toy p24 v2 v4 c1 c2 toy_cut (proj1 p24_made) Ec Hne).
Qed.
(** A patch of an encode call without any codec, cut inside the data of its Add: nothing was written and the apply fails. *)
Definition c78_cfg : config := mkConfig None None None Interleaved 65535 None None.
Example C78_example : made no_codecs (fst (encode Release no_codecs c78_cfg (Some []) [1; 2; 3; 4])) [] [1; 2; 3; 4] /\ codecs_stream no_codecs /\ codecs_cut no_codecs /\
  fst (encode Release no_codecs c78_cfg (Some []) [1; 2; 3; 4]) = [0; 1; 4; 132; 1; 2; 3; 4] /\
  apply_patch Release no_codecs [0; 1; 4; 132; 1; 2] (Some []) (mkSink [] 0) = (mkSink [] 0, Err EOF).
Proof.
  split; [|split; [exact no_codecs_stream|split; [split; apply stream_is_cut; apply no_codecs_stream|split; vm_compute; reflexivity]]].
  eapply (made_encode no_codecs Release c78_cfg); [exact I|repeat constructor; unfold is_byte; lia|reflexivity|reflexivity|vm_compute; reflexivity].
Qed.
Print Assumptions C77_accepted_patches_are_prefix_free.
Print Assumptions C77_extension_changes_nothing.
Print Assumptions C77_cut_patches_are_end_of_file.
Print Assumptions C78_interrupted_write_is_detected.
Print Assumptions C78_interrupted_write_is_end_of_file.
Print Assumptions C78_interrupted_apply_is_a_prefix.
