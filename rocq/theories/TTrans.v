(** Properties C55-C57, C62: smdiff-merger's transcode. The build that applies the result ([m']) may differ from the one that transcodes ([m]). *)
From Verif Require Import Base Spec MCommon MWriter MReader MDecoder MOpMaker MTrgtMatcher MSrcMatcher MEncInner MEncode MMerger MTranscoder SpecEnc SpecApi SpecMerge PBase PStream PSection PWriter PDecoder PPatch POpMaker PEncode PMerge PMerge2 PMerge3 PMerge4 PTrans TEncode TMerge.
Ltac Zify.zify_post_hook ::= idtac.
Arguments Z.add : simpl never.
Arguments Z.sub : simpl never.
Arguments Z.pow : simpl never.

(** What is asked of the input: a readable patch with at least one operation (and no more than a Vec can hold), copy addresses below 2^63,
    and either fewer than 2^32 operations or no empty one. *)
Definition trans_in (m : mode) (cd : codecs) (patch : list Z) (ops : list op) : Prop :=
  Forall is_byte patch /\ reads_as m cd patch ops /\ ops <> [] /\ zlen ops < 2 ^ 63 /\ (forall s a n, In (Copy s a n) ops -> a < 2 ^ 63) /\
  (zlen ops < 2 ^ 32 \/ Forall (fun o => 1 <= op_len o) ops).

Lemma atoms_copies : forall ops, flat_map (fun a => match a with inl _ => [] | inr (s, x, n) => [Copy s x n] end) (atoms ops) = filter is_copy ops.
Proof.
  assert (L : forall bs, flat_map (fun a : Z + csrc * Z * Z => match a with inl _ => [] | inr (s, x, n) => [Copy s x n] end) (map inl bs) = []) by (induction bs; auto).
  unfold atoms. induction ops as [|[bs|b n|s a n] ops IH]; cbn [flat_map filter is_copy]; rewrite ?flat_map_app, ?L; cbn [flat_map app]; rewrite ?IH; reflexivity.
Qed.
Lemma zlen_in_concat {A B} (s : list A * B) l : In s l -> zlen (fst s) <= zlen (concat (map fst l)).
Proof.
  induction l as [|x l IH]; intro Hin; [contradiction|]. cbn [map concat]. rewrite zlen_app. pose proof (zlen_nonneg (fst x)). pose proof (zlen_nonneg (concat (map fst l))).
  destruct Hin as [->|Hin]; [lia|]. specialize (IH Hin). lia.
Qed.
Lemma trans_sections f seg ops : Forall op_ok ops -> addrs_lt (2 ^ 63) ops -> (zlen ops < 2 ^ 32 \/ Forall (fun o => 1 <= op_len o) ops) ->
  concat (map fst (make_sections ops seg)) = ops /\ flags_ok (map snd (make_sections ops seg)) /\
  Forall (fun s => sec_in f max_win_size (fst s, set_format (snd s) f) /\ ops_len (fst s) <= clamp_section seg /\ (fst s = [] -> ops = [])) (make_sections ops seg).
Proof.
  intros Hok Haddr Hsz. destruct (make_sections_spec ops seg Hok Hsz) as ((Hsec & Hfl) & Hcat & _).
  split; [exact Hcat|]. split; [exact Hfl|].
  assert (Hsz' : Forall (fun s : list op * header => zlen (fst s) < 2 ^ 32) (make_sections ops seg)).
  { apply Forall_forall. intros s Hin. rewrite Forall_forall in Hsec. destruct (Hsec s Hin) as (_ & _ & (Hf1 & Hf2 & _) & Hs).
    assert (Hcl : clamp_section seg <= max_win_size) by (unfold clamp_section, max_win_size; lia). unfold max_win_size in Hcl.
    assert (Hincl : incl (fst s) ops). { rewrite <- Hcat. intros x Hx. apply in_concat. exists (fst s). split; [now apply in_map|exact Hx]. }
    destruct Hsz as [Hsz|Hsz].
    - eapply Z.le_lt_trans; [|exact Hsz]. rewrite <- Hcat. now apply zlen_in_concat.
    - assert (G : zlen (fst s) <= ops_len (fst s)).
      { assert (Forall (fun o => 1 <= op_len o) (fst s)) as HF by (rewrite Forall_forall in *; auto). clear -HF. unfold ops_len. induction HF as [|x l Hx _ IH]; [cbn; unfold zlen; cbn; lia|].
        rewrite zlen_cons. cbn [fold_right]. lia. }
      lia. }
  pose proof (sections_empty ops seg Hok Hsz) as Hemp. assert (Hok' := Hok). rewrite <- Hcat in Hok', Haddr. apply Forall_concat_inv in Hok'. apply addrs_concat in Haddr. rewrite Forall_map in Hok', Haddr.
  rewrite Forall_forall in *. intros s Hsin. destruct (Hsec s Hsin) as (Hc0 & Hfm & (Hf1 & Hf2 & Hf3) & Hs).
  assert (Hoks := Hok' s Hsin). assert (Haddrs := Haddr s Hsin). assert (Hzs := Hsz' s Hsin). pose proof (zlen_nonneg (fst s)).
  pose proof (adds_len_bounds _ Hoks).
  assert (Hcl : clamp_section seg <= max_win_size) by (unfold clamp_section, max_win_size; lia). unfold max_win_size in Hcl.
  split; [|split; [lia|exact (Hemp s Hsin)]].
  unfold sec_in. cbn [fst snd]. split; [exact Hoks|]. split.
  { apply (addrs_deltas (2 ^ 63)); [lia|exact Haddrs|lia|lia]. }
  split; [exact Hc0|]. split; [reflexivity|].
  split; [unfold header_typed; cbn [set_format h_comp h_nops h_nadd h_osize]; lia|].
  split; [unfold header_matches, max_win_size; cbn [set_format h_comp h_nops h_nadd h_osize]; split; [lia|]; split; [exact Hf1|]; split; [exact Hf2|]; intros _; exact Hf3|].
  cbn [set_format h_osize]. unfold max_win_size. lia.
Qed.
(** What is needed of a patch: its operations can be extracted, are well formed, and their copies have small addresses. *)
Definition trans_ops (m : mode) (cd : codecs) (patch : list Z) (ops : list op) : Prop :=
  (exists st, extract_patch_instructions m cd patch = Ok (number 0 ops, st)) /\ Forall op_ok ops /\ ops <> [] /\ zlen ops < 2 ^ 63 /\ (forall s a n, In (Copy s a n) ops -> a < 2 ^ 63) /\ (zlen ops < 2 ^ 32 \/ Forall (fun o => 1 <= op_len o) ops).
Lemma trans_in_ops m cd patch ops : codecs_bytes cd -> codecs_shrink cd -> trans_in m cd patch ops -> trans_ops m cd patch ops.
Proof.
  intros Hc1 Hc2 (Hb & HR & Hne & Hl & Hadr & Hsz). destruct (C54_extraction_exact m cd patch Hc1 Hc2 Hb) as [HX _]. destruct (HX _ HR) as (st & Ex).
  assert (Hok : Forall op_ok ops) by (destruct HR as (secs & r & Hp & ->); apply (patch_read_typed m cd Hc1 _ _ _ Hp Hb)).
  split; [eauto|]. auto.
Qed.
Lemma trans_ops_spec m cd patch ops f sc seg : trans_ops m cd patch ops ->
  exists ops', optimize m (map to_inner (number 0 ops)) = Ok ops' /\ atoms ops' = atoms ops /\ Forall op_ok ops' /\ Forall no_empty ops' /\ zlen ops' <= zlen ops /\
    filter is_copy ops' = filter is_copy ops /\
    transcode m cd patch f sc seg = write_all_sections (section_writer m cd sc) f (make_sections ops' seg) /\
    concat (map fst (make_sections ops' seg)) = ops' /\ flags_ok (map snd (make_sections ops' seg)) /\
    Forall (fun s => sec_in f max_win_size (fst s, set_format (snd s) f) /\ ops_len (fst s) <= clamp_section seg /\ (fst s = [] -> ops' = [])) (make_sections ops' seg).
Proof.
  intros ((st & Ex) & Hok & Hne & Hl & Hadr & Hsz).
  destruct (optimize_ok m ops Hne Hok ltac:(lia)) as (ops' & Eo & A & O & N & Z0). exists ops'.
  assert (Hcp : filter is_copy ops' = filter is_copy ops) by (rewrite <- !atoms_copies, A; reflexivity).
  assert (Hin : forall x, is_copy x = true -> In x ops' -> In x ops).
  { intros x Hx Hi. assert (In x (filter is_copy ops)) as G by (rewrite <- Hcp; apply filter_In; auto). now apply filter_In in G. }
  repeat (split; [assumption|]). split; [unfold transcode; rewrite Ex; unfold wlift; cbn [wbind fst]; rewrite Eo; cbn [wbind]; now destruct (write_all_sections _ _ _)|].
  apply trans_sections; [exact O| |].
  - apply Forall_forall. intros x Hx. destruct x as [| |s a n]; auto. specialize (Hin (Copy s a n) eq_refl Hx). split; [|eapply Hadr; exact Hin].
    rewrite Forall_forall in Hok. destruct (Hok _ Hin) as [Ht _]. cbn in Ht. lia.
  - destruct Hsz as [Hsz|Hsz]; [left; lia|right]. rewrite Forall_forall in *. intros x Hx. destruct (N x Hx) as [Hy|Hy]; [|exact Hy]. apply Hsz. now apply Hin.
Qed.
Lemma trans_spec m cd patch ops f sc seg : codecs_bytes cd -> codecs_shrink cd -> trans_in m cd patch ops ->
  exists ops', optimize m (map to_inner (number 0 ops)) = Ok ops' /\ atoms ops' = atoms ops /\ Forall op_ok ops' /\ Forall no_empty ops' /\ zlen ops' <= zlen ops /\
    filter is_copy ops' = filter is_copy ops /\
    transcode m cd patch f sc seg = write_all_sections (section_writer m cd sc) f (make_sections ops' seg) /\
    concat (map fst (make_sections ops' seg)) = ops' /\ flags_ok (map snd (make_sections ops' seg)) /\
    Forall (fun s => sec_in f max_win_size (fst s, set_format (snd s) f) /\ ops_len (fst s) <= clamp_section seg /\ (fst s = [] -> ops' = [])) (make_sections ops' seg).
Proof. intros Hc1 Hc2 Hti. apply trans_ops_spec. now apply trans_in_ops. Qed.
Lemma trans_ops_good m m' cd patch ops f sc seg b : trans_ops m cd patch ops -> comp_lossless cd sc (atoms ops) -> transcode m cd patch f sc seg = (b, Ok tt) ->
  exists ops', optimize m (map to_inner (number 0 ops)) = Ok ops' /\ atoms ops' = atoms ops /\ Forall op_ok ops' /\ Forall no_empty ops' /\ zlen ops' <= zlen ops /\ filter is_copy ops' = filter is_copy ops /\
  forall t, exists secs, patch_read (next_section m' cd) (b ++ t) secs t /\ concat (map fst secs) = ops' /\
    Forall (fun s => h_nops (snd s) = zlen (fst s) /\ h_osize (snd s) = ops_len (fst s) /\ ops_len (fst s) <= clamp_section seg /\ h_format (snd s) = f /\ h_comp (snd s) = comp_value sc) secs.
Proof.
  intros Hti Hcl H. destruct (trans_ops_spec m cd patch ops f sc seg Hti) as (ops' & Eo & A & O & N & Z0 & Hcp & Et & Hcat & Hfl & Hin).
  rewrite Et, (write_all_is _ _ _ [] [] 0) in H. exists ops'. do 6 (split; [assumption|]). intro t.
  assert (Hsg : secs_good (next_section m' cd) (map (sec_with f (comp_value sc)) (make_sections ops' seg)) b).
  { eapply write_sections_good; [| | |exact Hfl|exact H].
    - intros ops1 h1 b1 He Hi Hw. exact (section_writer_good m m' cd sc f ops1 h1 b1 (comp_lossless_imp cd sc (atoms ops) ops1 He Hcl) Hi Hw).
    - eapply Forall_impl; [|exact Hin]. intros s (_ & _ & Hx) E. rewrite <- A, (Hx E). reflexivity.
    - eapply Forall_impl; [|exact Hin]. intros s Hs. apply Hs. }
  destruct (secs_good_read _ _ _ Hsg t) as (outs & Hr & Hall). exists outs. split; [exact Hr|]. split.
  - rewrite (Forall2_fst _ _ _ (fun _ _ X => proj1 X) Hall), sec_with_ops. exact Hcat.
  - refine (Forall2_to _ (fun s => h_nops (snd s) = zlen (fst s) /\ h_osize (snd s) = ops_len (fst s) /\ ops_len (fst s) <= clamp_section seg /\ h_format (snd s) = f /\ h_comp (snd s) = comp_value sc) _ _ _ _ Hall _).
    + intros [ops0 h0] [o1 o2] [E1 (B1 & B2 & _ & B4 & B5 & _)] G. cbn [fst snd] in *. rewrite E1, B1, B2, B4, B5. exact G.
    + rewrite Forall_map. eapply Forall_impl; [|exact Hin]. intros s ((_ & _ & Hc & Hf & Hty & (_ & Hn & Ho & _) & Hsz) & Hs2 & _).
      cbn [sec_with fst snd set_comp set_format h_comp h_format h_nops h_osize] in *. repeat split; try assumption.
Qed.
Lemma trans_good m m' cd patch ops f sc seg b : codecs_bytes cd -> codecs_shrink cd -> trans_in m cd patch ops -> comp_lossless cd sc (atoms ops) -> transcode m cd patch f sc seg = (b, Ok tt) ->
  exists ops', optimize m (map to_inner (number 0 ops)) = Ok ops' /\ atoms ops' = atoms ops /\ Forall op_ok ops' /\ Forall no_empty ops' /\ zlen ops' <= zlen ops /\ filter is_copy ops' = filter is_copy ops /\
  forall t, exists secs, patch_read (next_section m' cd) (b ++ t) secs t /\ concat (map fst secs) = ops' /\
    Forall (fun s => h_nops (snd s) = zlen (fst s) /\ h_osize (snd s) = ops_len (fst s) /\ ops_len (fst s) <= clamp_section seg /\ h_format (snd s) = f /\ h_comp (snd s) = comp_value sc) secs.
Proof. intros Hc1 Hc2 Hti. apply trans_ops_good. now apply trans_in_ops. Qed.

(** C55. Transcoding succeeds (if smdiff compression is asked for: when its settings are legal), and whatever it writes does exactly what the
    input does: for every dictionary (or none) and every sink, the same result, the same final sink, whatever follows the written patch. *)
Theorem C55_transcode_preserves : forall m m' cd patch ops f sc seg, codecs_bytes cd -> codecs_shrink cd -> trans_in m cd patch ops ->
  (legal_comp sc -> exists b, transcode m cd patch f sc seg = (b, Ok tt)) /\
  forall b, comp_lossless cd sc (atoms ops) -> transcode m cd patch f sc seg = (b, Ok tt) ->
    forall t dict s, apply_patch m' cd (b ++ t) dict s = apply_patch m cd patch dict s.
Proof.
  intros m m' cd patch ops f sc seg Hc1 Hc2 Hti. split.
  - intro Hsc. destruct (trans_spec m cd patch ops f sc seg Hc1 Hc2 Hti) as (ops' & _ & _ & _ & _ & _ & _ & -> & _ & _ & Hin). apply write_all_ok; [exact Hsc|].
    eapply Forall_impl; [|exact Hin]. intros s Hs. apply Hs.
  - intros b Hcl H t dict [old p]. destruct (trans_good m m' cd patch ops f sc seg b Hc1 Hc2 Hti Hcl H) as (ops' & _ & A & O & _ & _ & _ & Hr).
    destruct (Hr t) as (secs & Hp & Hcat & _). destruct Hti as (Hb & (secs0 & r0 & Hp0 & E0) & _).
    rewrite (apply_patch_atoms m' cd _ dict old p _ _ Hc2 Hp) by (rewrite Hcat; now apply ops_ok_nonneg).
    rewrite (apply_patch_atoms m cd _ dict old p _ _ Hc2 Hp0) by (apply ops_ok_nonneg; apply (patch_read_typed m cd Hc1 _ _ _ Hp0 Hb)).
    now rewrite Hcat, A, E0.
Qed.

(** C56. The transcoded patch, read back: operations within the limits, no empty literal or run, not more operations than the input, true headers,
    sections of at most the clamped size in the format and compression asked for. Its copies are exactly those of the input. *)
Theorem C56_transcode_limits : forall m m' cd patch ops f sc seg b, codecs_bytes cd -> codecs_shrink cd -> trans_in m cd patch ops -> comp_lossless cd sc (atoms ops) ->
  transcode m cd patch f sc seg = (b, Ok tt) ->
  exists secs, patch_read (next_section m' cd) b secs [] /\
    Forall (fun s => Forall (fun o => op_ok o /\ (is_copy o = true \/ 1 <= op_len o)) (fst s) /\ h_nops (snd s) = zlen (fst s) /\ h_osize (snd s) = ops_len (fst s) /\
                     ops_len (fst s) <= clamp_section seg /\ h_format (snd s) = f /\ h_comp (snd s) = comp_value sc) secs /\
    zlen (concat (map fst secs)) <= zlen ops /\ filter is_copy (concat (map fst secs)) = filter is_copy ops.
Proof.
  intros m m' cd patch ops f sc seg b Hc1 Hc2 Hti Hcl H. destruct (trans_good m m' cd patch ops f sc seg b Hc1 Hc2 Hti Hcl H) as (ops' & _ & _ & O & N & Z0 & Hcp & Hr).
  destruct (Hr []) as (secs & Hp & Hcat & Hall). rewrite app_nil_r in Hp. exists secs. split; [exact Hp|]. rewrite Hcat. split; [|auto].
  rewrite <- Hcat in O, N. apply Forall_concat_inv in O, N. rewrite Forall_map in O, N. rewrite Forall_forall in *. intros s Hs. split; [|now apply Hall].
  specialize (O s Hs). specialize (N s Hs). rewrite Forall_forall in *. intros x Hx. split; [now apply O|now apply N].
Qed.

(** C57. Refuted: a patch without operations makes transcode panic, in every build, format and compression, having written nothing. *)
Theorem C57_empty_patch_panics : forall m cd patch f sc seg, codecs_bytes cd -> codecs_shrink cd -> Forall is_byte patch -> reads_as m cd patch [] ->
  transcode m cd patch f sc seg = ([], Panic).
Proof.
  intros m cd patch f sc seg Hc1 Hc2 Hb HR. destruct (C54_extraction_exact m cd patch Hc1 Hc2 Hb) as [HX _]. destruct (HX _ HR) as (st & Ex).
  unfold transcode. rewrite Ex. unfold wlift. cbn [wbind fst number map]. rewrite optimize_nil. reflexivity.
Qed.
(** So it does on every patch encode makes for an empty target. *)
Theorem C57_encoded_empty_panics : forall m m' cd c dict patch f sc seg, codecs_bytes cd -> codecs_shrink cd -> comp_lossless cd (cf_comp c) (@nil Z) ->
  zlen (source_of dict) < 2 ^ 63 -> encode m cd c dict [] = (patch, Ok tt) -> Forall is_byte patch -> transcode m' cd patch f sc seg = ([], Panic).
Proof.
  intros m m' cd c dict patch f sc seg Hc1 Hc2 Hcl Hs H Hb. apply C57_empty_patch_panics; auto.
  destruct (C34_encoder_respects_limits m m' cd c dict [] patch Hcl ltac:(constructor) ltac:(vm_compute; reflexivity) Hs H) as (secs & Hp & Hall & _ & Hl).
  exists secs, []. split; [exact Hp|]. destruct (concat (map fst secs)) as [|o l] eqn:E; [reflexivity|exfalso].
  assert (Forall op_good (concat (map fst secs))) as Hg by (apply Forall_concat, Forall_map; eapply Forall_impl; [|exact Hall]; intros s Hx; apply Hx).
  rewrite E in Hg. inversion Hg as [|? ? [_ H1] H2]; subst. pose proof (ops_len_nonneg _ (good_ok _ H2)). unfold ops_len in *. cbn [fold_right] in Hl. change (zlen (@nil Z)) with 0 in Hl. lia.
Qed.
Example C57_example : forall m m' f sc seg, exists patch, encode m toy (ex_cfg Interleaved None) (Some ex_src) [] = (patch, Ok tt) /\ transcode m' toy patch f sc seg = ([], Panic).
Proof. intros m m' f sc seg. exists [0; 0; 0]. split; [destruct m; vm_compute; reflexivity|]. destruct m'; reflexivity. Qed.

(** C62. Refuted: that adjacent literals are joined and long runs become copies. Of three adjacent Adds the first two are joined, the third is not; and
    (C56) no copy is ever added, however long the runs. *)
Theorem C62_three_adds_not_joined : forall m m' cd patch a b c f sc seg out, codecs_bytes cd -> codecs_shrink cd -> Forall is_byte patch ->
  reads_as m cd patch [Add a; Add b; Add c] -> 1 <= zlen a -> 1 <= zlen b -> 2 <= zlen c -> zlen a + zlen b + zlen c <= 65535 -> comp_lossless cd sc a ->
  transcode m cd patch f sc seg = (out, Ok tt) -> reads_as m' cd out [Add (a ++ b); Add c].
Proof.
  intros m m' cd patch a b c f sc seg out Hc1 Hc2 Hb HR Ha Hb' Hc Hsum Hcl H.
  assert (Hti : trans_in m cd patch [Add a; Add b; Add c]).
  { split; [exact Hb|]. split; [exact HR|]. split; [discriminate|]. assert (E : zlen [Add a; Add b; Add c] = 3) by reflexivity. rewrite E. split; [lia|]. split; [|left; lia].
    intros s x n Hin. cbn in Hin. intuition discriminate. }
  destruct (trans_good m m' cd patch _ f sc seg out Hc1 Hc2 Hti (comp_lossless_imp cd sc a (atoms [Add a; Add b; Add c]) ltac:(destruct a; [reflexivity|discriminate]) Hcl) H) as (ops' & Eo & _ & _ & _ & _ & _ & Hr). destruct (Hr []) as (secs & Hp & Hcat & _). rewrite app_nil_r in Hp.
  exists secs, []. split; [exact Hp|]. rewrite Hcat. symmetry. cbn [number map to_inner fst snd] in Eo.
  assert (X : forall l, 2 <= zlen l <= 65535 -> t_add_ops l = Ok [Add l]).
  { intros l Hl. destruct l as [|x [|y l]]; [unfold zlen in Hl; cbn in Hl; lia..|]. set (L := x :: y :: l) in *.
    assert (E : t_add_ops L = if zlen L =? MAX_INST_SIZE then Ok [Add L] else add_chunks (length L) L) by reflexivity. rewrite E. unfold MAX_INST_SIZE.
    destruct (zlen L =? 65535) eqn:E1; [reflexivity|]. unfold L at 1. cbn [length add_chunks]. fold L. replace (zlen L =? 0) with false by lia. unfold MAX_INST_SIZE. replace (Z.min (zlen L) 65535) with (zlen L) by lia.
    rewrite (drop_all (zlen L) L), (take_all (zlen L) L) by lia. reflexivity. }
  unfold optimize in Eo. cbn [join_adds] in Eo. replace (negb (zlen b =? 0) && (zlen a <? MAX_INST_SIZE)) with true in Eo by (unfold MAX_INST_SIZE; lia).
  cbn [join_runs] in Eo.
  assert (J : forall x y z, join_bound m [x; y; z] = Ok tt) by (intros; destruct m; reflexivity). rewrite !J in Eo. cbn [bind convert] in Eo.
  rewrite zlen_app in Eo. replace (zlen a + zlen b =? 0) with false in Eo by lia. replace (zlen c =? 0) with false in Eo by lia.
  rewrite !X in Eo by (rewrite ?zlen_app; lia). change (zlen (@nil Z) =? 0) with true in Eo. cbn [bind app] in Eo. rewrite (X c) in Eo by lia. cbn [bind app] in Eo. now injection Eo as <-.
Qed.
(** Seven runs of 62 bytes, 434 in a row (more than the 372 from which the run routine would use copies), stay runs. *)
Example C62_runs_stay_runs : forall m, transcode m toy ([0; 7; 178; 3] ++ concat (repeat [254; 9] 7)) Interleaved None 65535 = ([0; 7; 178; 3] ++ concat (repeat [254; 9] 7), Ok tt).
Proof. intros []; vm_compute; reflexivity. Qed.

(** ** Instances *)
Definition tr_patch : list Z := [0; 6; 13; 130; 1; 2; 129; 3; 193; 9; 195; 9; 4; 2; 66; 2].
Example C55_example : forall m, trans_in m toy tr_patch [Add [1; 2]; Add [3]; Run 9 1; Run 9 3; Copy Dict 1 4; Copy Output 1 2] /\ codecs_bytes toy /\ codecs_shrink toy /\
  transcode m toy tr_patch Segregated (Some (BrotliComp 1)) 0 = ([88; 4; 3; 10; 1; 131; 1; 196; 1; 9; 1; 4; 1; 2; 1; 66; 1; 2; 1; 1; 1; 2; 1; 3; 0], Ok tt) /\
  exists p, apply_patch m toy tr_patch (Some [7; 8; 9; 10; 11]) (mkSink [] 0) = (mkSink [1; 2; 3; 9; 9; 9; 9; 8; 9; 10; 11; 2; 3] p, Ok tt).
Proof.
  intro m. split; [|split; [apply C54_example|split; [apply C54_example|split]]].
  - split; [apply byteb_ok; reflexivity|]. split.
    { exists [([Add [1; 2]; Add [3]; Run 9 1; Run 9 3; Copy Dict 1 4; Copy Output 1 2], mkHeader 0 Interleaved false 6 0 13)], []. split; [apply pr_last; [destruct m; vm_compute; reflexivity|reflexivity]|reflexivity]. }
    split; [discriminate|]. split; [reflexivity|]. split; [|left; reflexivity].
    intros s a n H. cbn in H. repeat (destruct H as [H|H]; [try discriminate; injection H as <- <- <-; reflexivity|]). contradiction.
  - destruct m; vm_compute; reflexivity.
  - exists 13. destruct m; vm_compute; reflexivity.
Qed.
Example C62_example : forall m, reads_as m toy [0; 3; 6; 129; 1; 130; 2; 3; 131; 4; 5; 6] [Add [1]; Add [2; 3]; Add [4; 5; 6]] /\
  transcode m toy [0; 3; 6; 129; 1; 130; 2; 3; 131; 4; 5; 6] Interleaved None 0 = ([0; 2; 6; 131; 1; 2; 3; 131; 4; 5; 6], Ok tt).
Proof.
  intro m. split; [|destruct m; vm_compute; reflexivity].
  exists [([Add [1]; Add [2; 3]; Add [4; 5; 6]], mkHeader 0 Interleaved false 3 0 6)], []. split; [apply pr_last; [destruct m; vm_compute; reflexivity|reflexivity]|reflexivity].
Qed.

Print Assumptions C55_transcode_preserves.
Print Assumptions C56_transcode_limits.
Print Assumptions C57_empty_patch_panics.
Print Assumptions C57_encoded_empty_panics.
Print Assumptions C62_three_adds_not_joined.
