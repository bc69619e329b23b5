(** Properties C66-C68: build mode, arbitrary bytes as patches, size of the output. *)
From Verif Require Import Base Spec SpecEnc MCommon MWriter MReader MDecoder MTrgtMatcher MSrcMatcher MEncInner MEncode MLevels MMerger MTranscoder SpecVcd MVcdiff
  SpecApi PBase PStream PMode PDecoder PMerge PMerge4 PRobust TSection TApply.
Ltac Zify.zify_post_hook ::= idtac.
Arguments Z.add : simpl never.
Arguments Z.sub : simpl never.
Arguments Z.mul : simpl never.
Arguments Z.pow : simpl never.

(** [a], the run of a build with overflow checks, ends in a panic, or everything it shows (output and result) is what [b] shows. *)
Definition same_or_panic {S A} (a b : S * res A) : Prop := snd a = Panic \/ a = b.
Definition same_or_panic_r {A} (a b : res A) : Prop := a = Panic \/ a = b.

(** C66. Whatever the input, a build with overflow checks panics or behaves exactly as a build without. *)
Theorem C66_build_modes_agree :
  (forall cd c dict trgt, same_or_panic (encode Debug cd c dict trgt) (encode Release cd c dict trgt)) /\
  (forall cd patch dict s, same_or_panic (apply_patch Debug cd patch dict s) (apply_patch Release cd patch dict s)) /\
  (forall bs, same_or_panic_r (read_section Debug bs) (read_section Release bs)) /\
  (forall it, same_or_panic_r (iter_next Debug it) (iter_next Release it)) /\
  (forall h, same_or_panic (write_section_header Debug h) (write_section_header Release h)) /\
  (forall ops h, same_or_panic (write_ops Debug ops h) (write_ops Release ops h)) /\
  (forall cd sc ops h, same_or_panic (section_writer Debug cd sc ops h) (section_writer Release cd sc ops h)) /\
  (forall l b sc, same_or_panic_r (config_level Debug l b sc) (config_level Release l b sc)) /\
  (forall cd p, same_or_panic_r (merger_new Debug cd p) (merger_new Release cd p)) /\
  (forall cd g p, same_or_panic_r (merger_merge Debug cd g p) (merger_merge Release cd g p)) /\
  (forall cd ops w f sc, same_or_panic (summary_write Debug cd ops w f sc) (summary_write Release cd ops w f sc)) /\
  (forall cd p f sc seg, same_or_panic (transcode Debug cd p f sc seg) (transcode Release cd p f sc seg)) /\
  (forall ms, same_or_panic (convert_vcdiff Debug ms) (convert_vcdiff Release ms)).
Proof.
  exact (conj encode_rle (conj apply_patch_rle (conj section_rle (conj iter_rle (conj wheader_rle (conj wops_rle (conj sw_rle
    (conj level_rle (conj new_rle (conj merge_rle (conj summary_rle (conj transcode_rle convert_rle)))))))))))).
Qed.
(** Both cases occur: the builds agree on a good patch; a varint of 11 bytes makes the checked build panic and is read by the other. *)
Example C66_example : forall cd,
  apply_patch Debug cd ex_small_patch (Some [50; 51; 52]) empty_sink = apply_patch Release cd ex_small_patch (Some [50; 51; 52]) empty_sink /\
  apply_patch Debug cd [0; 129; 128; 128; 128; 128; 128; 128; 128; 128; 128; 0; 2; 130; 5; 6] (Some []) empty_sink = (empty_sink, Panic) /\
  apply_patch Release cd [0; 129; 128; 128; 128; 128; 128; 128; 128; 128; 128; 0; 2; 130; 5; 6] (Some []) empty_sink = (mkSink [5; 6] 2, Ok tt).
Proof. intro cd. repeat split. Qed.

(** External decoders that end with a result or an error, whatever the bytes. *)
Definition codecs_fine (cd : codecs) : Prop :=
  (forall bs, zstd_open cd bs <> Panic /\ zstd_open cd bs <> Diverge) /\ (forall bs, zstd_read cd bs <> Panic /\ zstd_read cd bs <> Diverge) /\
  (forall bs, brotli_dec cd bs <> Panic /\ brotli_dec cd bs <> Diverge).
(** Reading sections from [bs] reaches one that fails [bad] *)
Definition reaches (next : next_t) (bad : list Z -> Prop) (bs : list Z) : Prop := exists l r, sections_read next bs l r /\ bad r.

Definition dict_copy_section (bs : list Z) : Prop := exists ops h r, read_section Release bs = Ok (ops, h, r) /\ existsb is_dict_copy ops = true.
(** A section with secondary compression 1 (smdiff) whose compressed data, a patch, has a dictionary copy. *)
Definition inner_dict_section (bs : list Z) : Prop := exists h body, read_section_header Release bs = Ok (h, body) /\ h_comp h = 1 /\ reaches (read_section Release) dict_copy_section body.
(** A section with secondary compression 2 (zstd) whose data do not begin with a zstd frame header the decoder accepts. *)
Definition bad_frame_section (cd : codecs) (bs : list Z) : Prop := exists h body e, read_section_header Release bs = Ok (h, body) /\ h_comp h = 2 /\ zstd_open cd body = Err e.

Lemma read_section_nd m bs : read_section m bs <> Diverge.
Proof. destruct (section_fine bs) as [_ H]. destruct m; [|exact H]. destruct (section_rle bs) as [E|E]; congruence. Qed.
Lemma read_section_shrinks m bs ops h r : read_section m bs = Ok (ops, h, r) -> (length r < length bs)%nat.
Proof. intro E. apply section_count in E. lia. Qed.
Lemma next_section_cases cd bs : codecs_fine cd -> next_section Release cd bs <> Diverge /\ (next_section Release cd bs = Panic -> inner_dict_section bs \/ bad_frame_section cd bs).
Proof.
  intros (Ho & Hz & Hb). unfold next_section. destruct (read_section_header Release bs) as [[h body]|e| |] eqn:E; cbn [bind]; [|split; discriminate|exfalso; now apply (proj1 (header_fine bs))|exfalso; now apply (proj2 (header_fine bs))].
  assert (G : forall l, read_ops_no_comp Release h l <> Panic /\ read_ops_no_comp Release h l <> Diverge) by (intro l; apply ops_fine).
  assert (Gf : forall l rest, fine (do (ops, h', _) <- read_ops_no_comp Release h l; Ok (ops, h', rest : list Z))).
  { intros l rest. apply fine_bind; [apply ops_fine|]. intros [[ops h'] r'] _. apply fine_ok. }
  assert (K : forall r : res (list op * header * list Z), fine r -> r <> Diverge /\ (r = Panic -> inner_dict_section bs \/ bad_frame_section cd bs)) by (intros r [K1 K2]; split; [exact K2|congruence]).
  destruct (h_comp h =? 1) eqn:E1; [|destruct (h_comp h =? 2) eqn:E2; [|destruct (h_comp h =? 3)]].
  - unfold apply_no_sec_comp. pose proof (apply_loop_panic (read_section Release) None (read_section_shrinks Release) (read_section_nd Release) (S (length body)) body (mkSink [] 0) 0 (Nat.lt_succ_diag_r _)) as [P1 P2].
    destruct (apply_loop (read_section Release) (S (length body)) None body (mkSink [] 0) 0) as [s [rest|e| |]]; cbn [snd] in *; [now apply K|split; discriminate| |congruence].
    split; [discriminate|]. intros _. left. exists h, body. split; [exact E|]. split; [lia|]. destruct (P2 eq_refl) as (l & r & Hs & Hc). exists l, r. split; [exact Hs|].
    destruct Hc as [Hc|(ops & h' & r' & Hc & _ & Hd)]; [exfalso; now apply (proj1 (section_fine r))|]. now exists ops, h', r'.
  - unfold zstd_dec. destruct (zstd_open cd body) as [r|e| |] eqn:Eo; cbn [bind]; [apply K, fine_bind; [apply Hz|]; intros [dec rest] _; apply Gf| |exfalso; now apply (proj1 (Ho body))|exfalso; now apply (proj2 (Ho body))].
    split; [discriminate|]. intros _. right. exists h, body, e. split; [exact E|]. split; [lia|exact Eo].
  - apply K, fine_bind; [apply Hb|]. intros [dec rest] _. apply Gf.
  - apply K, ops_fine.
Qed.

(** C67. Arbitrary bytes given as a patch, with a source: reading a section and applying always end, with a result or an error, except that
    a build without overflow checks panics in two cases: a section compressed with smdiff whose inner patch copies from the (absent) dictionary, and a section
    compressed with zstd whose data do not begin with a frame header the zstd decoder accepts.
    A build with overflow checks never loops either. *)
Theorem C67_untrusted_patches : forall cd, codecs_fine cd -> codecs_shrink cd ->
  (forall bytes, (exists x, read_section Release bytes = Ok x) \/ exists e, read_section Release bytes = Err e) /\
  (forall bytes d s, snd (apply_patch Release cd bytes (Some d) s) = Ok tt \/ (exists e, snd (apply_patch Release cd bytes (Some d) s) = Err e) \/
     (snd (apply_patch Release cd bytes (Some d) s) = Panic /\ reaches (next_section Release cd) (fun bs => inner_dict_section bs \/ bad_frame_section cd bs) bytes)) /\
  (forall bytes d s, snd (apply_patch Debug cd bytes d s) <> Diverge /\ snd (apply_patch Release cd bytes d s) <> Diverge).
Proof.
  intros cd Hf Hs.
  assert (Hn : forall bs ops h r, next_section Release cd bs = Ok (ops, h, r) -> (length r < length bs)%nat) by (apply next_section_shrink; exact Hs).
  assert (Hd : forall bs, next_section Release cd bs <> Diverge) by (intro bs; now apply next_section_cases).
  assert (HR : forall bytes d s, snd (apply_patch Release cd bytes d s) <> Diverge).
  { intros bytes d s. unfold apply_patch. pose proof (apply_loop_panic _ d Hn Hd (S (length bytes)) bytes s 0 (Nat.lt_succ_diag_r _)) as [P _].
    destruct (apply_loop (next_section Release cd) (S (length bytes)) d bytes s 0) as [s' [r|e| |]]; cbn [snd bind] in *; congruence. }
  split; [intro bytes; apply fine_cases, section_fine|]. split.
  - intros bytes d s. unfold apply_patch. pose proof (apply_loop_panic _ (Some d) Hn Hd (S (length bytes)) bytes s 0 (Nat.lt_succ_diag_r _)) as [P1 P2].
    destruct (apply_loop (next_section Release cd) (S (length bytes)) (Some d) bytes s 0) as [s' [r|e| |]]; cbn [snd bind] in *; [auto|right; left; eauto| |congruence].
    right. right. split; [reflexivity|]. destruct (P2 eq_refl) as (l & r & Hr & [Hc|(ops & h & r' & _ & Hc & _)]); [|discriminate]. exists l, r. split; [exact Hr|]. now apply (next_section_cases cd r Hf).
  - intros bytes d s. split; [|apply HR]. destruct (apply_patch_rle cd bytes d s) as [E|E]; [rewrite E; discriminate|rewrite E; apply HR].
Qed.
(** The exceptions occur: 8 bytes, whatever the codecs and the build, crash the program that applies them; so do 3 bytes if zstd does not take the empty stream for a frame; and
    whenever such a section is reached (after sections that can be applied, here: none). *)
Theorem C67_refuted : forall m cd, apply_patch m cd [8; 1; 1; 0; 1; 1; 1; 0] (Some [9]) empty_sink = (empty_sink, Panic) /\
  (forall e d s, zstd_open cd [] = Err e -> apply_patch m cd [16; 1; 1] d s = (s, Panic)) /\
  (forall bs d s, bad_frame_section cd bs -> apply_patch Release cd bs d s = (s, Panic)).
Proof.
  intros m cd. split; [destruct m; reflexivity|]. split.
  - intros e d s E. unfold apply_patch. cbn [length apply_loop]. replace (next_section m cd [16; 1; 1]) with (@Panic (list op * header * list Z)); [reflexivity|].
    unfold next_section. replace (read_section_header m [16; 1; 1]) with (Ok (mkHeader 2 Interleaved false 1 0 1, @nil Z)) by (destruct m; reflexivity).
    cbn [bind h_comp Z.eqb Pos.eqb]. unfold zstd_dec. rewrite E. reflexivity.
  - intros bs d s (h & body & e & E1 & E2 & E3). unfold apply_patch. cbn [apply_loop]. replace (next_section Release cd bs) with (@Panic (list op * header * list Z)); [reflexivity|].
    unfold next_section. rewrite E1. cbn [bind]. rewrite E2. cbn [Z.eqb Pos.eqb]. unfold zstd_dec. rewrite E3. reflexivity.
Qed.
Example C67_example : let cd := mkCodecs (fun _ x => x) (fun bs => Ok bs) (fun bs => Ok (bs, [])) (fun _ x => x) (fun _ => Err InvalidData) in
  codecs_fine cd /\ codecs_shrink cd /\ (exists e, snd (apply_patch Release cd [16; 1; 2; 195; 7] (Some [9]) empty_sink) = Err e) /\
  reaches (next_section Release cd) inner_dict_section [8; 1; 1; 0; 1; 1; 1; 0].
Proof.
  cbv zeta. split; [split; [|split]; intros; split; discriminate|]. split; [split; intros bs dec rest [=]; subst; unfold zlen; cbn; lia|]. split; [now exists InvalidData|].
  exists [], [8; 1; 1; 0; 1; 1; 1; 0]. split; [constructor|]. exists (mkHeader 1 Interleaved false 1 0 1), [0; 1; 1; 1; 0]. split; [reflexivity|]. split; [reflexivity|].
  exists [], [0; 1; 1; 1; 0]. split; [constructor|]. exists [Copy Dict 0 1], (mkHeader 0 Interleaved false 1 0 1), []. split; reflexivity.
Qed.
Example C67_frame_example : let cd := mkCodecs (fun _ x => x) (fun bs => match bs with [] => Err EOF | _ => Ok bs end) (fun bs => Ok (bs, [])) (fun _ x => x) (fun _ => Err InvalidData) in
  codecs_fine cd /\ codecs_shrink cd /\ bad_frame_section cd [16; 1; 1] /\ reaches (next_section Release cd) (bad_frame_section cd) [128; 1; 1; 129; 5; 16; 1; 1].
Proof.
  cbv zeta. assert (B : bad_frame_section (mkCodecs (fun _ x => x) (fun bs => match bs with [] => Err EOF | _ => Ok bs end) (fun bs => Ok (bs, [])) (fun _ x => x) (fun _ => Err InvalidData)) [16; 1; 1]).
  { exists (mkHeader 2 Interleaved false 1 0 1), [], EOF. repeat split. }
  split; [split; [|split]; intros bs; split; try destruct bs; discriminate|]. split.
  - split; intros bs dec rest H; [|discriminate]. unfold zstd_dec in H. cbn [zstd_open zstd_read] in H. destruct bs; [discriminate|]. injection H as _ <-. unfold zlen. cbn. lia.
  - split; [exact B|]. exists [[Add [5]]], [16; 1; 1]. split; [|exact B]. eapply sr_cons; [reflexivity|reflexivity|constructor].
Qed.

(** The external decoders expand what they read by at most the factor [K]. *)
Definition codecs_expand (K : Z) (cd : codecs) : Prop :=
  (forall bs dec rest, Forall is_byte bs -> zstd_dec cd bs = Ok (dec, rest) -> zlen dec <= K * (zlen bs - zlen rest)) /\
  (forall bs dec rest, Forall is_byte bs -> brotli_dec cd bs = Ok (dec, rest) -> zlen dec <= K * (zlen bs - zlen rest)).
(** C68. Applying [n] bytes, whatever they are and however it ends, leaves at most 65535 * max(65535, K) * n bytes in an empty sink. *)
Theorem C68_output_bounded : forall m cd K bytes dict, codecs_bytes cd -> 1 <= K -> codecs_expand K cd -> Forall is_byte bytes ->
  zlen (sbuf (fst (apply_patch m cd bytes dict empty_sink))) <= 65535 * Z.max 65535 K * zlen bytes.
Proof.
  intros m cd K bytes dict Hc HK [Hz Hb] Hby.
  assert (L : forall k bs s pos, Forall is_byte bs -> 0 <= pos -> let '(s', r) := apply_loop (next_section m cd) k dict bs s pos in
    zlen (sbuf s') <= Z.max (zlen (sbuf s)) (pos + next_bound K * (zlen bs - match r with Ok rest => zlen rest | _ => 0 end)) /\
    match r with Ok rest => zlen rest <= zlen bs \/ next_bound K = 0 | _ => True end).
  { apply apply_loop_len; [unfold next_bound; lia|]. apply next_section_len; try assumption; intros bs dec rest Hbs E; [apply Hz in E|apply Hb in E]; try assumption; nia. }
  specialize (L (S (length bytes)) bytes empty_sink 0 Hby ltac:(lia)). unfold apply_patch.
  destruct (apply_loop (next_section m cd) (S (length bytes)) dict bytes empty_sink 0) as [s' r]. cbn [fst]. destruct L as [L _]. cbn [empty_sink sbuf] in L.
  rewrite (@zlen_nil Z) in L. unfold next_bound in L. assert (0 <= zlen bytes) by (unfold zlen; lia). assert (0 <= 65535 * Z.max 65535 K) by lia.
  destruct r as [r|e| |]; [assert (0 <= zlen r) by (unfold zlen; lia)|..]; nia.
Qed.
(** The factor is not far off: with a source of 65535 bytes every further 4 bytes of patch (one copy) yield 65535 bytes; here 2 copies. *)
Example C68_example : let cd := mkCodecs (fun _ x => x) (fun bs => Ok bs) (fun bs => Ok (bs, [])) (fun _ x => x) (fun bs => Ok (bs, [])) in
  codecs_bytes cd /\ codecs_expand 1 cd /\
  forall m, zlen (sbuf (fst (apply_patch m cd [0; 2; 254; 255; 7; 0; 255; 255; 0; 0; 255; 255; 0] (Some (rep 7 65535)) empty_sink))) = 131070.
Proof.
  cbv zeta. split; [split; intros bs dec rest H [=]; subst; auto|]. split; [split; intros bs dec rest H [=]; subst; unfold zlen; cbn; lia|].
  intros []; vm_compute; reflexivity.
Qed.

Print Assumptions C66_build_modes_agree.
Print Assumptions C67_untrusted_patches.
Print Assumptions C67_refuted.
Print Assumptions C68_output_bounded.
