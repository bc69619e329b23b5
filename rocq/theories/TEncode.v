(** Properties C24, C29, C30, C31, C34, C35: patches written by encode and by section_writer, in every configuration.
    The builds that encode ([m]) and that apply ([m']) may differ. Sizes below 2^63 bytes hold for every Rust slice. *)
From Verif Require Import Base Spec SpecEnc MCommon MWriter MReader MDecoder MOpMaker MTrgtMatcher MSrcMatcher MEncInner MEncode
  SpecApi PBase PCommon PStream PSection PWriter PDecoder PPatch POpMaker PEncInner PEncode.
Ltac Zify.zify_post_hook ::= idtac.
Arguments Z.add : simpl never.
Arguments Z.pow : simpl never.

(** C31. Whenever encode returns Ok, applying the patch to the same source yields exactly the target; bytes behind the
    patch are ignored and bytes of the sink behind the target are kept. *)
Theorem C31_encode_apply_roundtrip : forall m m' cd c dict trgt patch, comp_lossless cd (cf_comp c) trgt ->
  Forall is_byte trgt -> zlen trgt < 2 ^ 63 -> zlen (source_of dict) < 2 ^ 63 ->
  encode m cd c dict trgt = (patch, Ok tt) ->
  forall t old p, exists p',
  apply_patch m' cd (patch ++ t) dict (mkSink old p) = (mkSink (trgt ++ drop (zlen trgt) old) p', Ok tt).
Proof. intros m m' cd c dict trgt patch Hcd Hb Ht Hs H t old p. exact (encode_apply m m' cd c dict trgt patch t old p Hcd Hb Ht Hs H). Qed.

(** C34. The sections of an encoded patch, as read back: every operation is within the limits and not empty, every header
    is true, every section is at most the configured size clamped to the limits; the patch ends with its last section;
    the operations turn the source into the target. *)
Lemma secs_good_read next secs b : secs_good next secs b -> forall t, exists outs,
  patch_read next (b ++ t) outs t /\ Forall2 (fun s o => fst o = fst s /\ header_back (snd s) (fst s) (snd o)) secs outs.
Proof.
  induction 1 as [ops h b [_ Hg] Hm|ops h b secs bs [_ Hg] Hm Hs IH]; intro t.
  - destruct (Hg t) as (h' & E & G). exists [(ops, h')]. split; [|repeat (constructor; auto)].
    apply pr_last; [exact E|]. destruct G as (_ & _ & G & _). congruence.
  - rewrite <- app_assoc. destruct (Hg (bs ++ t)) as (h' & E & G). destruct (IH t) as (outs & Hr & Hall).
    exists ((ops, h') :: outs). split; [|constructor; auto].
    eapply pr_more; [exact E| |exact Hr]. destruct G as (_ & _ & G & _). congruence.
Qed.
Lemma Forall2_to {A B} (R : A -> B -> Prop) (P : A -> Prop) (Q : B -> Prop) l1 l2 :
  (forall a b, R a b -> P a -> Q b) -> Forall2 R l1 l2 -> Forall P l1 -> Forall Q l2.
Proof. intros H HR. induction HR as [|a b l1 l2 Hab _ IH]; intro HP; [constructor|]. apply Forall_cons_iff in HP as [H1 H2]. constructor; eauto. Qed.
Lemma Forall2_fst {A B C} (R : A * B -> A * C -> Prop) l1 l2 : (forall a b, R a b -> fst b = fst a) -> Forall2 R l1 l2 -> map fst l2 = map fst l1.
Proof. intros H HR. induction HR as [|a b l1 l2 Hab _ IH]; [reflexivity|]. cbn [map]. rewrite IH, (H _ _ Hab). reflexivity. Qed.
Theorem C34_encoder_respects_limits : forall m m' cd c dict trgt patch, comp_lossless cd (cf_comp c) trgt ->
  Forall is_byte trgt -> zlen trgt < 2 ^ 63 -> zlen (source_of dict) < 2 ^ 63 ->
  encode m cd c dict trgt = (patch, Ok tt) ->
  exists secs, patch_read (next_section m' cd) patch secs [] /\
    Forall (fun s => Forall op_good (fst s) /\ h_nops (snd s) = zlen (fst s) /\ h_osize (snd s) = ops_len (fst s) /\
                     ops_len (fst s) <= clamp_section (cf_segment c) /\
                     h_format (snd s) = cf_format c /\ h_comp (snd s) = comp_value (cf_comp c)) secs /\
    run_ops (source_of dict) [] (concat (map fst secs)) = Some trgt /\ ops_len (concat (map fst secs)) = zlen trgt.
Proof.
  intros m m' cd c dict trgt patch Hcd Hb Ht Hs H.
  destruct (encode_good m m' cd c dict trgt patch Hcd Hb Ht Hs H) as (cs & ops & _ & _ & [Hg Hrun] & _ & Hcat & _ & Hin & Hsg).
  destruct (secs_good_read _ _ _ Hsg []) as (outs & Hr & Hall). rewrite app_nil_r in Hr.
  exists outs. split; [exact Hr|].
  assert (Eo : map fst outs = map fst (make_sections ops (cf_segment c))).
  { rewrite (Forall2_fst _ _ _ (fun _ _ X => proj1 X) Hall). apply sec_with_ops. }
  split; [|rewrite Eo, Hcat; split; [exact Hrun|]].
  - rewrite <- Hcat in Hg. apply Forall_concat_inv in Hg. rewrite Forall_map in Hg.
    refine (Forall2_to _ (fun s => Forall op_good (fst s) /\ h_nops (snd s) = zlen (fst s) /\ h_osize (snd s) = ops_len (fst s) /\
        ops_len (fst s) <= clamp_section (cf_segment c) /\ h_format (snd s) = cf_format c /\ h_comp (snd s) = comp_value (cf_comp c)) _ _ _ _ Hall _).
    + intros [ops0 h0] [o1 o2] [E1 (B1 & B2 & _ & B4 & B5 & _)] G. cbn [fst snd] in *. rewrite E1, B1, B2, B4, B5. exact G.
    + rewrite Forall_map. rewrite Forall_forall in *. intros s Hsin. specialize (Hg s Hsin).
      destruct (Hin s Hsin) as (Hok & _ & Hc & Hf & Hty & (_ & Hn & Ho & _) & Hsz).
      cbn [sec_with fst snd set_comp set_format h_comp h_format h_nops h_osize] in *. repeat split; try assumption. lia.
  - pose proof (run_ops_len _ _ _ _ (ops_ok_nonneg _ (good_ok _ Hg)) Hrun) as L. rewrite (@zlen_nil Z) in L. cbn [app] in L. lia.
Qed.

(** C35. Without dictionary (or with an empty one) the patch has no dictionary copy and applies without dictionary. *)
Theorem C35_no_dictionary_needed : forall m m' cd c dict trgt patch, comp_lossless cd (cf_comp c) trgt ->
  Forall is_byte trgt -> zlen trgt < 2 ^ 63 -> source_of dict = [] ->
  encode m cd c dict trgt = (patch, Ok tt) ->
  (exists secs, patch_read (next_section m' cd) patch secs [] /\ existsb is_dict_copy (concat (map fst secs)) = false) /\
  exists p, apply_patch m' cd patch None (mkSink [] 0) = (mkSink trgt p, Ok tt).
Proof.
  intros m m' cd c dict trgt patch Hcd Hb Ht Hd H.
  assert (Hs : zlen (source_of dict) < 2 ^ 63) by (rewrite Hd, (@zlen_nil Z); lia).
  assert (H0 : encode m cd c None trgt = (patch, Ok tt)).
  { rewrite <- H. unfold encode, source_of in *. destruct dict as [d|]; [subst d|]; reflexivity. }
  split.
  - destruct (encode_good m m' cd c dict trgt patch Hcd Hb Ht Hs H) as (cs & ops & _ & _ & _ & Hnd & Hcat & _ & _ & Hsg).
    destruct (secs_good_read _ _ _ Hsg []) as (outs & Hr & Hall). rewrite app_nil_r in Hr. exists outs. split; [exact Hr|].
    rewrite (Forall2_fst _ _ _ (fun _ _ X => proj1 X) Hall), sec_with_ops, Hcat. exact (Hnd Hd).
  - destruct (encode_apply m m' cd c None trgt patch [] [] 0 Hcd Hb Ht ltac:(vm_compute; reflexivity) H0) as (p & E).
    rewrite app_nil_r in E. exists p. rewrite E. f_equal. f_equal. unfold drop. rewrite skipn_nil. apply app_nil_r.
Qed.

(** ** Sections with secondary compression *)
(** A section the writer is meant for, in any build (no copy addresses exactly 2^63 apart). *)
Lemma written_sec_in m cd sc ops h b : section_in Debug (ops, h) -> section_writer m cd sc ops h = (b, Ok tt) ->
  (sc = None -> h_comp h = 0) -> sec_in (h_format h) max_win_size (ops, set_comp h 0) /\ section_writer m cd sc ops (set_comp h 0) = (b, Ok tt).
Proof.
  intros (Hty & Ha & Hh & [Hm|Hd]) H Hc; [discriminate|]. cbn [fst snd] in *.
  assert (E : section_writer m cd sc ops (set_comp h 0) = (b, Ok tt)).
  { destruct sc as [comp|].
    - rewrite <- H. unfold section_writer. replace (set_comp (set_comp h 0) (algo_value comp)) with (set_comp h (algo_value comp)) by reflexivity. reflexivity.
    - rewrite (set_comp_0 h (Hc eq_refl)). exact H. }
  split; [|exact E].
  assert (exists a ob, write_ops m ops (set_comp h a) = (ob, Ok tt)) as (a & ob & Ew).
  { destruct sc as [comp|]; cbn [section_writer] in H.
    - cbv zeta in H. apply wbind_ok in H as (o1 & [] & o2 & _ & H & _). destruct (write_ops m ops (set_comp h (algo_value comp))) as [ob r] eqn:Ew.
      apply wbind_ok in H as (o3 & [] & o4 & H & _). apply wlift_inv in H as [_ ->]. eauto.
    - unfold plain_writer in H. apply wbind_ok in H as (o1 & [] & o2 & _ & H & _). exists 0. rewrite (set_comp_0 h (Hc eq_refl)). eauto. }
  destruct (written_ops_ok m ops _ ob Hty Ha Ew) as [Hok Hmat].
  split; [exact Hok|]. split; [exact Hd|]. split; [reflexivity|]. split; [reflexivity|]. split.
  { destruct Hh as (_ & H1 & H2 & H3). split; [cbn; lia|]. split; [exact H1|]. split; [exact H2|exact H3]. }
  split; [exact Hmat|]. destruct Hmat as (Hm & _). exact Hm.
Qed.

(** C29. A section written with smdiff secondary compression is read back exactly, consuming exactly its bytes. *)
Theorem C29_smdiff_compression_lossless : forall m m' cd tc ops h b, section_in Debug (ops, h) ->
  section_writer m cd (Some (SmdiffComp tc)) ops h = (b, Ok tt) ->
  forall rest, exists h', next_section m' cd (b ++ rest) = Ok (ops, h', rest) /\ header_back (set_comp h 1) ops h'.
Proof.
  intros m m' cd tc ops h b Hin H. destruct (written_sec_in m cd _ ops h b Hin H ltac:(discriminate)) as [Hi E].
  destruct (section_writer_good m m' cd (Some (SmdiffComp tc)) _ ops _ b I Hi E) as [_ Hr]. exact Hr.
Qed.
(** C30. The same for zstd and brotli, for every codec that decodes what it encoded and leaves what follows. *)
Theorem C30_external_compression_lossless : forall m m' cd sc ops h b, comp_lossless cd (Some sc) ops -> section_in Debug (ops, h) ->
  section_writer m cd (Some sc) ops h = (b, Ok tt) ->
  forall rest, exists h', next_section m' cd (b ++ rest) = Ok (ops, h', rest) /\ header_back (set_comp h (algo_value sc)) ops h'.
Proof.
  intros m m' cd sc ops h b Hcd Hin H. destruct (written_sec_in m cd _ ops h b Hin H ltac:(discriminate)) as [Hi E].
  destruct (section_writer_good m m' cd _ _ ops _ b Hcd Hi E) as [_ Hr]. exact Hr.
Qed.

(** C24. Two patches with the same operations, however cut into sections, formatted and compressed, do the same. *)
Definition sc_ops (secs : list (list op * header * option sec_comp)) : list op := concat (map (fun s => fst (fst s)) secs).
Definition sc_ok (cd : codecs) (s : list op * header * option sec_comp) : Prop :=
  section_in Debug (fst s) /\ comp_lossless cd (snd s) (fst (fst s)) /\ (snd s = None -> h_comp (snd (fst s)) = 0).
Lemma written_sc_stream m m' cd secs b : written_sc m cd secs b -> Forall (sc_ok cd) secs ->
  stream_of false (next_section m' cd) (map (fun s => fst (fst s)) secs) b /\ Forall op_ok (sc_ops secs).
Proof.
  unfold sc_ops. induction 1 as [ops h sc b Hm Hw|ops h sc b secs bs Hm Hw Hws IH]; intro Hok; apply Forall_cons_iff in Hok as [(Hin & Hcd & Hc) Hok];
    cbn [fst snd] in *; destruct (written_sec_in m cd sc ops h b Hin Hw Hc) as [Hi E];
    destruct (section_writer_good m m' cd sc _ ops _ b Hcd Hi E) as [Hne Hr]; cbn [map concat fst];
    assert (Hat : sec_at false (next_section m' cd) b ops (h_more h)) by
      (split; [exact Hne|]; split; [|discriminate]; intro t; destruct (Hr t) as (h' & E1 & _ & _ & E2 & _); exists h'; split; [exact E1|exact E2]);
    rewrite Hm in Hat; assert (Hoo : Forall op_ok ops) by apply Hi.
  - split; [apply so_last; exact Hat|]. rewrite app_nil_r. exact Hoo.
  - destruct (IH Hok) as [H1 H2]. split; [apply so_more; assumption|]. apply Forall_app. split; assumption.
Qed.
Lemma first_dict ops : existsb is_dict_copy ops = true -> exists pre x post, ops = pre ++ x :: post /\
  forallb (fun o => negb (is_dict_copy o)) pre = true /\ is_dict_copy x = true.
Proof.
  induction ops as [|x ops IH]; [discriminate|]. cbn [existsb]. destruct (is_dict_copy x) eqn:E.
  - intros _. exists [], x, ops. auto.
  - intro H. destruct (IH H) as (pre & y & post & -> & H1 & H2). exists (x :: pre), y, post. cbn. rewrite E. auto.
Qed.
Theorem C24_sectioning_format_compression_irrelevant : forall m1 m2 m1' m2' cd secs1 b1 secs2 b2,
  written_sc m1 cd secs1 b1 -> written_sc m2 cd secs2 b2 -> Forall (sc_ok cd) secs1 -> Forall (sc_ok cd) secs2 ->
  sc_ops secs1 = sc_ops secs2 ->
  forall dict s, sbuf (fst (apply_patch m1' cd b1 dict s)) = sbuf (fst (apply_patch m2' cd b2 dict s)) /\
                 snd (apply_patch m1' cd b1 dict s) = snd (apply_patch m2' cd b2 dict s).
Proof.
  intros m1 m2 m1' m2' cd secs1 b1 secs2 b2 H1 H2 Hok1 Hok2 Heq dict [old p].
  destruct (written_sc_stream m1 m1' cd secs1 b1 H1 Hok1) as [S1 N1]. destruct (written_sc_stream m2 m2' cd secs2 b2 H2 Hok2) as [S2 N2].
  apply ops_ok_nonneg in N1. apply ops_ok_nonneg in N2. unfold sc_ops in *.
  assert (HS : forall d, sbuf (fst (apply_patch m1' cd b1 (Some d) (mkSink old p))) = sbuf (fst (apply_patch m2' cd b2 (Some d) (mkSink old p))) /\
                 snd (apply_patch m1' cd b1 (Some d) (mkSink old p)) = snd (apply_patch m2' cd b2 (Some d) (mkSink old p))).
  { intro d. destruct (apply_patch_stream _ m1' cd _ b1 [] d old p S1 N1) as (p1 & E1).
    destruct (apply_patch_stream _ m2' cd _ b2 [] d old p S2 N2) as (p2 & E2).
    rewrite app_nil_r in E1, E2. rewrite Heq in E1. rewrite E1, E2. destruct (perform d old [] _) as [o [|]]; auto. }
  destruct dict as [d|]; [apply HS|].
  destruct (existsb is_dict_copy (concat (map (fun s => fst (fst s)) secs2))) eqn:Ed.
  - destruct (first_dict _ Ed) as (pre & x & post & Ec & Hp & Hx).
    destruct (apply_patch_dict_panic _ m1' cd _ b1 [] old p pre x post S1 N1) as (p1 & E1); [congruence|exact Hp|exact Hx|].
    destruct (apply_patch_dict_panic _ m2' cd _ b2 [] old p pre x post S2 N2) as (p2 & E2); [congruence|exact Hp|exact Hx|].
    rewrite app_nil_r in E1, E2. rewrite E1, E2. destruct (perform [] old [] pre) as [o [|]]; auto.
  - assert (Hn : forallb (fun o => negb (is_dict_copy o)) (concat (map (fun s => fst (fst s)) secs2)) = true).
    { apply forallb_forall. intros x Hx. destruct (is_dict_copy x) eqn:E; [|reflexivity].
      assert (existsb is_dict_copy (concat (map (fun s => fst (fst s)) secs2)) = true) by (apply existsb_exists; eauto). congruence. }
    pose proof (apply_patch_no_dict _ m2' cd [] _ b2 [] (mkSink old p) S2 Hn) as E2.
    rewrite <- Heq in Hn. pose proof (apply_patch_no_dict _ m1' cd [] _ b1 [] (mkSink old p) S1 Hn) as E1.
    rewrite app_nil_r in E1, E2. rewrite E1, E2. apply HS.
Qed.

(** ** Non-trivial cases *)
(** A codec that satisfies the contract: every byte preceded by 1, then 0; for zstd with a frame header of two bytes. *)
Definition toy_enc (_ : Z) (x : list Z) : list Z := flat_map (fun b => [1; b]) x ++ [0].
Fixpoint toy_dec (bs : list Z) : res (list Z * list Z) :=
  match bs with
  | 0 :: r => Ok ([], r)
  | 1 :: b :: r => do (x, t) <- toy_dec r; Ok (b :: x, t)
  | _ => Err EOF
  end.
Definition toy_frame (s : Z) (x : list Z) : list Z := 40 :: 181 :: toy_enc s x.
Definition toy_open (bs : list Z) : res (list Z) := match bs with 40 :: 181 :: r => Ok r | [] | [40] => Err EOF | _ => Err InvalidData end.
Definition toy : codecs := mkCodecs toy_frame toy_open toy_dec toy_enc toy_dec.
Lemma toy_open_ok bs r : toy_open bs = Ok r -> bs = 40 :: 181 :: r.
Proof. unfold toy_open. intro H. repeat match type of H with context [match ?x with _ => _ end] => destruct x; try discriminate H end. now injection H as ->. Qed.
Lemma toy_zstd bs v rest : zstd_dec toy bs = Ok (v, rest) -> exists r, bs = 40 :: 181 :: r /\ toy_dec r = Ok (v, rest).
Proof. unfold zstd_dec. cbn [toy zstd_open zstd_read]. destruct (toy_open bs) as [r|e| |] eqn:E; try discriminate. intro H. exists r. split; [now apply toy_open_ok|exact H]. Qed.
Lemma toy_lossless {A} sc (w : list A) : comp_lossless toy sc w.
Proof.
  assert (R : codec_rt toy_enc toy_dec w).
  { intros s x t _ _. unfold toy_enc. induction x as [|b x IH]; [reflexivity|]. cbn [flat_map app toy_dec]. rewrite IH. reflexivity. }
  destruct sc as [[| |]|]; [exact I| |exact R|exact I]. intros s x t Hx He. unfold zstd_dec. cbn [toy zstd_enc zstd_open zstd_read toy_frame toy_open app]. apply (R s); assumption.
Qed.
Definition ex_src : list Z := map Z.of_nat (seq 0 40).
Definition ex_trgt : list Z := [9; 9; 9; 9; 9; 9] ++ take 30 ex_src ++ [77; 78] ++ drop 10 ex_src ++ take 30 ex_src ++ [1; 2; 3; 4; 5].
Definition ex_cfg (f : format) (sc : option sec_comp) : config := mkConfig (Some (mkSC 4 None)) (Some (mkTC 20 8 None)) sc f 16777215 None None.
Lemma ex_trgt_bytes : Forall is_byte ex_trgt.
Proof. apply byteb_ok. reflexivity. Qed.
(** Both matchers on, segregated, smdiff compressed: dictionary copies, runs, literals. *)
Example C31_example : forall m, encode m toy (ex_cfg Segregated (Some (SmdiffComp (mkTC 20 8 None)))) (Some ex_src) ex_trgt =
  ([72; 6; 7; 96; 0; 1; 17; 145; 198; 9; 30; 0; 130; 30; 20; 30; 19; 133; 77; 78; 1; 2; 3; 4; 5], Ok tt).
Proof. intros []; vm_compute; reflexivity. Qed.
Example C35_example : forall m, snd (encode m toy (ex_cfg Interleaved (Some (ZstdComp 3))) None ex_trgt) = Ok tt.
Proof. intros []; vm_compute; reflexivity. Qed.
Example C24_example : forall m,
  written_sc m toy [([Add [1; 2; 3]; Copy Dict 1 2], mkHeader 0 Segregated true 2 3 5, Some (BrotliComp 0));
                    ([Run 7 4; Copy Output 1 5], mkHeader 0 Interleaved false 2 0 9, None)]
    ([216; 2; 3; 2] ++ [1; 131; 1; 2; 1; 2; 1; 1; 1; 2; 1; 3; 0] ++ [0; 2; 9; 196; 7; 69; 2]) /\
  written_sc m toy [([Add [1; 2; 3]; Copy Dict 1 2; Run 7 4; Copy Output 1 5], mkHeader 0 Interleaved false 4 0 14, Some (SmdiffComp (mkTC 9 9 None)))]
    [8; 4; 14; 0; 1; 10; 138; 131; 1; 2; 3; 2; 2; 196; 7; 69; 2].
Proof.
  intros m. split.
  - rewrite app_assoc. apply wsc_more; [reflexivity|destruct m; vm_compute; reflexivity|].
    apply wsc_last; [reflexivity|destruct m; vm_compute; reflexivity].
  - apply wsc_last; [reflexivity|destruct m; vm_compute; reflexivity].
Qed.
Example C24_example_ok : sc_ok toy ([Add [1; 2; 3]; Copy Dict 1 2], mkHeader 0 Segregated true 2 3 5, Some (BrotliComp 0)).
Proof.
  split; [|split; [apply toy_lossless|discriminate]]. cbn [fst]. split; [|split; [|split]].
  - repeat constructor; cbn; lia.
  - cbn [fst]. apply Forall_cons; [vm_compute; discriminate|]. apply Forall_cons; [vm_compute; discriminate|apply Forall_nil].
  - unfold header_typed. cbn. lia.
  - right. cbn. lia.
Qed.

Print Assumptions C24_sectioning_format_compression_irrelevant.
Print Assumptions C29_smdiff_compression_lossless.
Print Assumptions C30_external_compression_lossless.
Print Assumptions C31_encode_apply_roundtrip.
Print Assumptions C34_encoder_respects_limits.
Print Assumptions C35_no_dictionary_needed.
